(** Proofs about Apply and ApplyFilter. *)
From Coq Require Import List Arith Bool Reals Lra Lia.
From Verif Require Import Vec SharedPtr SharedPtrProofs Field FieldProofs Manip ManipSpec ManipProofs ManipMoves.
Import ListNotations.
Open Scope R_scope.

Definition keys_of {A} (l : list (nat * A)) : list nat := map fst l.

Lemma set_keys : forall A i (v : A) l, In i (map fst l) -> map fst (set i v l) = map fst l.
Proof.
  intros A i v l. induction l as [|[k u] r IH]; cbn; [intros []|]. destruct (Nat.eqb k i) eqn:E.
  - apply Nat.eqb_eq in E. subst. reflexivity.
  - intros [H|H]; [apply Nat.eqb_neq in E; contradiction|]. cbn. rewrite (IH H). reflexivity.
Qed.
Lemma find_some_key : forall A i (v : A) l, find i l = Some v -> In i (map fst l).
Proof. intros A i v l H. apply find_in in H. apply in_map_iff. exists (i, v). split; [reflexivity|exact H]. Qed.

Lemma times_filter_ok : forall f ids d, NoDup ids -> (forall i, In i ids -> find i d <> None /\ find i f <> None) ->
  exists d', times_filter ids f d = Some d' /\ map fst d' = map fst d /\
    (forall i, ~ In i ids -> find i d' = find i d) /\
    (forall i, In i ids -> exists v k, find i d = Some v /\ find i f = Some k /\ find i d' = Some (vscale k v)).
Proof.
  intros f ids. induction ids as [|i r IH]; intros d N H; cbn [times_filter].
  - exists d. split; [reflexivity|]. split; [reflexivity|]. split; [reflexivity|intros i []].
  - destruct (H i (or_introl eq_refl)) as [Hd Hf]. destruct (find i d) as [v|] eqn:Ed; [|destruct (Hd eq_refl)].
    destruct (find i f) as [k|] eqn:Ef; [|destruct (Hf eq_refl)]. inversion N as [|? ? N1 N2]; subst.
    assert (Hs : forall j, j <> i -> find j (set i (vscale k v) d) = find j d).
    { intros j J. rewrite find_set. assert (E : Nat.eqb i j = false) by (apply Nat.eqb_neq; auto). rewrite E. reflexivity. }
    destruct (IH (set i (vscale k v) d) N2) as [d' [T [K [O I]]]].
    { intros j Hj. rewrite Hs by (intros ->; contradiction). apply H. right. exact Hj. }
    exists d'. split; [exact T|]. split; [rewrite K; apply set_keys; exact (find_some_key _ _ _ _ Ed)|]. split.
    + intros j Hj. rewrite O by (intros X; apply Hj; right; exact X). apply Hs. intros ->. apply Hj. left. reflexivity.
    + intros j [<-|Hj].
      * exists v, k. split; [exact Ed|]. split; [exact Ef|]. rewrite (O i N1), find_set, Nat.eqb_refl. reflexivity.
      * destruct (I j Hj) as [u [q [A [B C]]]]. rewrite Hs in A by (intros ->; contradiction). exists u, q. auto.
Qed.

Lemma along_normals_ok : forall normal s ids out, NoDup ids -> (forall i, In i ids -> ~ In i (map fst out)) ->
  distinct_ids out ->
  (forall i, In i ids -> find i s <> None /\ normal i <> None) ->
  exists d, along_normals normal s ids out = Some d /\ map fst d = map fst out ++ ids /\ distinct_ids d /\
    (forall i, ~ In i ids -> find i d = find i out) /\
    (forall i, In i ids -> exists k n, find i s = Some k /\ normal i = Some n /\ find i d = Some (vscale k n)).
Proof.
  intros normal s ids. induction ids as [|i r IH]; intros out N O No H; cbn [along_normals].
  - exists out. split; [reflexivity|]. split; [rewrite app_nil_r; reflexivity|]. split; [exact No|].
    split; [reflexivity|intros i []].
  - destruct (H i (or_introl eq_refl)) as [Hs Hn]. destruct (find i s) as [k|] eqn:Es; [|destruct (Hs eq_refl)].
    destruct (normal i) as [n|] eqn:En; [|destruct (Hn eq_refl)]. inversion N as [|? ? N1 N2]; subst.
    assert (Oi : ~ In i (map fst out)) by (apply O; left; reflexivity).
    unfold insert. replace (exists_id i out) with false by (symmetry; apply exists_not; exact Oi).
    destruct (IH (out ++ [(i, vscale k n)]) N2) as [d [D [K [Nd [Hn' Hi]]]]].
    { intros j Hj. rewrite map_app. cbn. intros X. apply in_app_iff in X. destruct X as [X|[X|[]]].
      - apply (O j); [right; exact Hj|exact X].
      - subst j. contradiction. }
    { unfold distinct_ids. rewrite map_app. cbn. apply nodup_snoc; assumption. }
    { intros j Hj. apply H. right. exact Hj. }
    exists d. split; [exact D|]. split; [rewrite K, map_app, <- app_assoc; reflexivity|]. split; [exact Nd|]. split.
    + intros j Hj. rewrite Hn' by (intros X; apply Hj; right; exact X). rewrite find_app.
      destruct (find j out); [reflexivity|]. cbn. destruct (Nat.eqb i j) eqn:E; [|reflexivity].
      apply Nat.eqb_eq in E. destruct Hj. left. exact E.
    + intros j [<-|Hj]; [|exact (Hi j Hj)]. exists k, n. split; [exact Es|]. split; [exact En|].
      rewrite Hn' by exact N1. rewrite find_app. apply find_none_iff in Oi. rewrite Oi. cbn. rewrite Nat.eqb_refl. reflexivity.
Qed.

Lemma app_loop_ok : forall c input vs out, distinct_ids vs -> (forall i, In i (map fst vs) -> find i input <> None) ->
  exists vs' out', app_loop c input vs out = Some (vs', out') /\
    moved (fun i p q => exists v, find i input = Some v /\ q = vadd p (vscale c v)) vs vs' /\
    (forall i, ~ In i (map fst vs) -> find i out' = find i out) /\
    (forall i, In i (map fst vs) -> exists v, find i input = Some v /\ find i out' = Some (vscale c v)).
Proof.
  intros c input vs. induction vs as [|[i p] r IH]; intros out N H; cbn [app_loop].
  - exists [], out. split; [reflexivity|]. split; [constructor|]. split; [reflexivity|intros i []].
  - destruct (find i input) as [v|] eqn:E; [|destruct (H i (or_introl eq_refl) E)].
    inversion N as [|? ? N1 N2]; subst.
    destruct (IH (set i (vscale c v) out) N2) as [vs' [out' [L [M [O I]]]]].
    { intros j Hj. apply H. right. exact Hj. }
    rewrite L. eexists. eexists. split; [reflexivity|]. split; [|split].
    + constructor; [|exact M]. cbn [fst snd]. split; [reflexivity|]. exists v. split; [exact E|reflexivity].
    + intros j Hj. cbn in Hj. rewrite O by (intros X; apply Hj; right; exact X). rewrite find_set.
      destruct (Nat.eqb i j) eqn:Ei; [|reflexivity]. apply Nat.eqb_eq in Ei. destruct Hj. left. exact Ei.
    + intros j [<-|Hj]; [|exact (I j Hj)]. exists v. split; [exact E|]. cbn [fst] in *. rewrite (O i N1), find_set, Nat.eqb_refl. reflexivity.
Qed.

(** execute, once the input is known *)
Lemma app_execute_ok : forall h g a a1, wf_store h -> a_geo a = Some g -> checkInput h g a = Some a1 ->
  a_factor a1 = a_factor a ->
  (forall i, In i (vert_ids h g) -> find i (fd_data (a_input a1)) <> None) ->
  exists h' a', app_execute h a = Some (h', a') /\ (forall k, k <> g -> h' k = h k) /\
    so_type (h' g) = so_type (h g) /\ so_normal (h' g) = so_normal (h g) /\
    moved (fun i p q => exists v, find i (fd_data (a_input a1)) = Some v /\ q = vadd p (vscale (a_factor a) v))
      (so_verts (h g)) (so_verts (h' g)) /\
    a_geo a' = a_geo a1 /\ a_input a' = a_input a1 /\ a_scalar a' = a_scalar a1 /\ a_filter a' = a_filter a1 /\
    a_factor a' = a_factor a1 /\
    (forall i, In i (vert_ids h g) -> exists v, find i (fd_data (a_input a1)) = Some v /\
       find i (fd_data (a_output a')) = Some (vscale (a_factor a) v)).
Proof.
  intros h g a a1 Nh G C Fa H. unfold app_execute. rewrite G, C, Fa.
  destruct (app_loop_ok (a_factor a) (fd_data (a_input a1)) (so_verts (h g)) (fd_data (a_input a1)) (Nh g) H) as [vs' [out' [L [M [_ I]]]]].
  rewrite L. eexists. eexists. split; [reflexivity|].
  split; [intros k K; apply put_verts_other; exact K|].
  split; [unfold put_verts; rewrite Nat.eqb_refl; reflexivity|].
  split; [unfold put_verts; rewrite Nat.eqb_refl; reflexivity|].
  rewrite put_verts_same. split; [exact M|]. cbn [a_geo a_input a_scalar a_filter a_factor a_output fd_data].
  split; [reflexivity|]. split; [reflexivity|]. split; [reflexivity|]. split; [reflexivity|]. split; [reflexivity|]. exact I.
Qed.

(** ** The input alone *)
Lemma size_false : forall A (f : fld A), size f = false <-> fd_data f = [].
Proof. intros A f. unfold size. destruct (fd_data f); split; intros H; try discriminate; reflexivity. Qed.

Lemma linked_dec : forall A vs g (f : fld A), linked vs g f \/ ~ linked vs g f.
Proof.
  intros A vs g f. unfold linked. destruct (loc_eqb (fd_loc f) LPoint) eqn:L.
  - apply loc_eqb_point in L. destruct (geo_eqb (fd_geo f) (Some g)) eqn:G.
    + apply geo_eqb_eq in G.
      destruct (forallb (fun id => existsb (Nat.eqb id) (map fst vs)) (map fst (fd_data f))) eqn:E.
      * left. apply coherent_incl in E. auto.
      * right. intros [_ [_ I]]. apply coherent_incl in I. rewrite I in E. discriminate.
    + right. intros [_ [K _]]. rewrite K in G. cbn in G. rewrite Nat.eqb_refl in G. discriminate.
  - right. intros [K _]. rewrite K in L. discriminate.
Qed.

Definition zeros (ids : list nat) : list (nat * vec) := map (fun i => (i, vzero)) ids.

(** a completed field *)
Definition completed {A} (h : store) (g : nat) (z : A) (d l : list (nat * A)) : Prop :=
  distinct_ids l /\ incl (map fst l) (vert_ids h g) /\ forall i, In i (vert_ids h g) -> find i l = Some (look z d i).

Lemma complete_linked : forall A h g (z : A) f, wf_store h -> distinct_ids (fd_data f) -> linked (so_verts (h g)) g f ->
  exists l, complete h z f = Some (Fd (Some g) LPoint l, true) /\ completed h g z (fd_data f) l.
Proof.
  intros A h g z f Nh N [L [G I]]. destruct (complete_ok A h g z f N (Nh g) G I) as [l [C [Nl [Il F]]]].
  exists l. rewrite G, L in C. split; [exact C|]. split; [exact Nl|]. split; [exact Il|exact F].
Qed.

Lemma in_input_linked : forall h g a, wf_store h -> distinct_ids (fd_data (a_input a)) -> fd_data (a_input a) <> [] ->
  linked (so_verts (h g)) g (a_input a) ->
  exists l, in_input h g a = Some (with_fields (Fd (Some g) LPoint l) (a_scalar a) (a_filter a) a, true) /\
    completed h g vzero (fd_data (a_input a)) l.
Proof.
  intros h g a Nh N S K. unfold in_input. replace (size (a_input a)) with true.
  - pose proof K as [L [G I]]. rewrite L, G. cbn [loc_eqb geo_eqb]. rewrite Nat.eqb_refl. cbn [andb complete_if].
    unfold complete_if. destruct (complete_linked _ h g vzero (a_input a) Nh N K) as [l [C P]]. rewrite C.
    exists l. split; [reflexivity|exact P].
  - unfold size. destruct (fd_data (a_input a)); [destruct (S eq_refl)|reflexivity].
Qed.
Lemma in_input_unlinked : forall h g a, wf_store h -> distinct_ids (fd_data (a_input a)) ->
  ~ linked (so_verts (h g)) g (a_input a) -> in_input h g a = Some (a, false).
Proof.
  intros h g a Nh N K. unfold in_input. destruct (size (a_input a)); [|reflexivity]. unfold complete_if.
  assert (W : with_fields (a_input a) (a_scalar a) (a_filter a) a = a) by (destruct a; reflexivity).
  destruct (loc_eqb (fd_loc (a_input a)) LPoint && geo_eqb (fd_geo (a_input a)) (Some g)) eqn:E; [|rewrite W; reflexivity].
  apply andb_prop in E. destruct E as [L G]. apply loc_eqb_point in L. apply geo_eqb_eq in G.
  rewrite complete_no; [rewrite W; reflexivity|]. intros [g' [G' I]]. rewrite G in G'. injection G' as <-.
  apply K. split; [exact L|]. split; [exact G|exact I].
Qed.

Lemma zero_input_ok : forall h g a, wf_store h ->
  zero_input h g a = Some (with_fields (Fd (Some g) LPoint (zeros (vert_ids h g))) (a_scalar a) (a_filter a) a).
Proof.
  intros h g a Nh. unfold zero_input. rewrite insert_all_ok; [reflexivity|]. cbn. apply Nh.
Qed.
Lemma find_zeros : forall ids i, In i ids -> find i (zeros ids) = Some vzero.
Proof. intros ids i H. unfold zeros. rewrite find_const. apply in_existsb in H. rewrite H. reflexivity. Qed.
Lemma zeros_keys : forall ids, map fst (zeros ids) = ids.
Proof. intros. unfold zeros. rewrite map_map. apply map_id. Qed.

Lemma look_completed : forall A h g (z : A) d l i, completed h g z d l -> In i (vert_ids h g) -> look z l i = look z d i.
Proof. intros A h g z d l i [_ [_ F]] H. unfold look at 1. rewrite (F i H). reflexivity. Qed.

(** without scalar input and filter: what the input becomes *)
Lemma checkInput_plain : forall h g a, wf_store h -> distinct_ids (fd_data (a_input a)) -> plain a ->
  exists l, checkInput h g a = Some (with_fields (Fd (Some g) LPoint l) (a_scalar a) (a_filter a) a) /\
    distinct_ids l /\ incl (map fst l) (vert_ids h g) /\
    (linked (so_verts (h g)) g (a_input a) -> forall i, In i (vert_ids h g) -> find i l = Some (look vzero (fd_data (a_input a)) i)) /\
    (~ linked (so_verts (h g)) g (a_input a) -> forall i, In i (vert_ids h g) -> find i l = Some vzero).
Proof.
  intros h g a Nh N [S F]. unfold checkInput.
  assert (Zr : exists l, zero_input h g a = Some (with_fields (Fd (Some g) LPoint l) (a_scalar a) (a_filter a) a) /\
    distinct_ids l /\ incl (map fst l) (vert_ids h g) /\ forall i, In i (vert_ids h g) -> find i l = Some vzero).
  { exists (zeros (vert_ids h g)). split; [apply zero_input_ok; exact Nh|]. unfold distinct_ids. rewrite zeros_keys.
    split; [apply Nh|]. split; [apply incl_refl|]. intros i Hi. apply find_zeros. exact Hi. }
  assert (St : forall st : app * bool, fd_data (a_scalar (fst st)) = [] -> fd_data (a_filter (fst st)) = [] ->
    match in_scalar h g st with None => None | Some st => match in_filter h g st with None => None
      | Some (a, true) => Some a | Some (a, false) => zero_input h g a end end
    = if snd st then Some (fst st) else zero_input h g (fst st)).
  { intros [b c] H1 H2. cbn [fst snd] in *. unfold in_scalar. replace (size (a_scalar b)) with false by (symmetry; apply size_false; exact H1).
    unfold in_filter. replace (size (a_filter b)) with false by (symmetry; apply size_false; exact H2). destruct c; reflexivity. }
  destruct (linked_dec _ (so_verts (h g)) g (a_input a)) as [K|K].
  - destruct (fd_data (a_input a)) as [|e r] eqn:D.
    + unfold in_input. replace (size (a_input a)) with false by (symmetry; apply size_false; exact D).
      rewrite (St (a, false) S F). cbn [fst snd]. destruct Zr as [l [Z [Nl [Il Fl]]]]. exists l. split; [exact Z|]. split; [exact Nl|]. split; [exact Il|].
      split; [|intros Q; destruct (Q K)]. intros _ i Hi. rewrite (Fl i Hi). reflexivity.
    + destruct (in_input_linked h g a Nh) as [l [E [Nl [Il Fl]]]]; [rewrite D; exact N|rewrite D; discriminate|exact K|].
      rewrite E. rewrite St; [|exact S|exact F]. cbn [fst snd]. exists l. split; [reflexivity|]. split; [exact Nl|]. split; [exact Il|].
      split; [|intros Q; destruct (Q K)]. intros _. rewrite D in Fl. exact Fl.
  - rewrite (in_input_unlinked h g a Nh N K). rewrite (St (a, false) S F). cbn [fst snd].
    destruct Zr as [l [Z [Nl [Il Fl]]]]. exists l. split; [exact Z|]. split; [exact Nl|]. split; [exact Il|].
    split; [intros Q; destruct (K Q)|]. intros _. exact Fl.
Qed.

Lemma app_plain : forall h a g, wf_store h -> distinct_ids (fd_data (a_input a)) -> plain a -> a_geo a = Some g ->
  exists h' a', app_execute h a = Some (h', a') /\ (forall k, k <> g -> h' k = h k) /\
    moved (fun i p q => exists v, displacement (so_verts (h g)) g (a_input a) i v /\ q = vadd p (vscale (a_factor a) v))
      (so_verts (h g)) (so_verts (h' g)) /\
    (forall i, In i (vert_ids h g) -> exists v, displacement (so_verts (h g)) g (a_input a) i v /\
       find i (fd_data (a_output a')) = Some (vscale (a_factor a) v)) /\
    (* what the next execution starts from *)
    plain a' /\ a_geo a' = Some g /\ a_factor a' = a_factor a /\ distinct_ids (fd_data (a_input a')) /\
    forall i v, In i (vert_ids h g) -> displacement (so_verts (h' g)) g (a_input a') i v ->
      displacement (so_verts (h g)) g (a_input a) i v.
Proof.
  intros h a g Nh N P G. destruct (checkInput_plain h g a Nh N P) as [l [C [Nl [Il [Fl Fz]]]]].
  assert (Q : forall i, In i (vert_ids h g) -> exists v, find i l = Some v /\ displacement (so_verts (h g)) g (a_input a) i v).
  { intros i Hi. destruct (linked_dec _ (so_verts (h g)) g (a_input a)) as [K|K].
    - eexists. split; [exact (Fl K i Hi)|]. left. split; [exact K|apply look_value_or].
    - exists vzero. split; [exact (Fz K i Hi)|]. right. split; [exact K|reflexivity]. }
  destruct (fun Hx => app_execute_ok h g a _ Nh G C eq_refl Hx) as [h' [a' [E [O [_ [_ [M [Ga [Ia [Sa [Fa [Ca Out]]]]]]]]]]]].
  { intros i Hi X. destruct (Q i Hi) as [v [F _]]. cbn in X. rewrite F in X. discriminate. }
  exists h', a'. split; [exact E|]. split; [exact O|]. split; [|split; [|split; [|split; [|split; [|split]]]]].
  - revert M. apply moved_impl. intros i p q Hi [v [F R]]. cbn in F.
    destruct (Q i) as [v' [F' D]]; [apply in_map_iff; exists (i, p); split; [reflexivity|exact Hi]|].
    rewrite F in F'. injection F' as <-. exists v. split; [exact D|exact R].
  - intros i Hi. destruct (Out i Hi) as [v [F R]]. cbn in F. destruct (Q i Hi) as [v' [F' D]]. rewrite F in F'. injection F' as <-.
    exists v. split; [exact D|exact R].
  - destruct P as [P1 P2]. split; [rewrite Sa; exact P1|rewrite Fa; exact P2].
  - rewrite Ga. exact G.
  - rewrite Ca. reflexivity.
  - rewrite Ia. exact Nl.
  - rewrite Ia. cbn [with_fields a_input]. intros i v Hi [[K V]|[K _]].
    + destruct (Q i Hi) as [v' [F D]]. apply value_or_look in V; [|exact Nl]. unfold look in V. cbn [fd_data] in V.
      rewrite F in V. subst v. exact D.
    + destruct K. split; [reflexivity|]. split; [reflexivity|]. cbn [fd_data]. rewrite (moved_ids _ _ _ M). exact Il.
Qed.

Lemma app_plain_n : forall n h a g, wf_store h -> distinct_ids (fd_data (a_input a)) -> plain a -> a_geo a = Some g ->
  exists h' a', app_execs n h a = Some (h', a') /\ (forall k, k <> g -> h' k = h k) /\
    moved (fun i p q => exists v, displacement (so_verts (h g)) g (a_input a) i v /\ q = vadd p (vscale (INR n * a_factor a) v))
      (so_verts (h g)) (so_verts (h' g)).
Proof.
  induction n as [|n IH]; intros h a g Nh N P G; cbn [app_execs].
  - exists h, a. split; [reflexivity|]. split; [reflexivity|]. eapply moved_impl; [|apply moved_refl].
    cbn. intros i p q Hi ->. destruct (linked_dec _ (so_verts (h g)) g (a_input a)) as [K|K].
    + eexists. split; [left; split; [exact K|apply look_value_or]|vring].
    + exists vzero. split; [right; split; [exact K|reflexivity]|vring].
  - destruct (app_plain h a g Nh N P G) as [h1 [a1 [E [O [M [_ [P1 [G1 [F1 [N1 D1]]]]]]]]]]. rewrite E.
    destruct (IH h1 a1 g (wf_after _ _ _ _ Nh O M) N1 P1 G1) as [h2 [a2 [E2 [O2 M2]]]].
    exists h2, a2. split; [exact E2|]. split; [intros k K; rewrite (O2 k K); exact (O k K)|].
    eapply moved_impl; [|exact (moved_trans _ _ _ _ _ M M2)]. cbn beta. intros i p r Hi [q [[v [D Q]] [v' [D' R]]]].
    assert (Hk : In i (vert_ids h g)) by (apply in_map_iff; exists (i, p); split; [reflexivity|exact Hi]).
    apply (D1 i v' Hk) in D'. exists v. split; [exact D|].
    assert (v' = v) as ->.
    { destruct D as [[K V]|[K V]], D' as [[K' V']|[K' V']]; try contradiction.
      - rewrite (value_or_look _ _ _ _ _ N V), (value_or_look _ _ _ _ _ N V'). reflexivity.
      - congruence. }
    rewrite R, Q, F1. replace (INR (S n)) with (INR n + 1) by (symmetry; apply S_INR). vring.
Qed.

(** ** With a filter *)
Lemma in_filter_ok : forall h g a check, wf_store h -> distinct_ids (fd_data (a_filter a)) ->
  filter_fits (h g) (a_filter a) -> (forall i, In i (vert_ids h g) -> find i (fd_data (a_input a)) <> None) ->
  (fd_data (a_filter a) = [] -> check = true) ->
  exists d f, in_filter h g (a, check) = Some (with_fields (Fd (fd_geo (a_input a)) (fd_loc (a_input a)) d) (a_scalar a) f a, true) /\
    map fst d = map fst (fd_data (a_input a)) /\ distinct_ids (fd_data f) /\ filter_fits (h g) f /\
    (fd_data (a_filter a) = [] -> fd_data f = []) /\
    (fd_data (a_filter a) <> [] -> fd_data f <> [] \/ vert_ids h g = []) /\
    (forall i, In i (vert_ids h g) -> exists v k, find i (fd_data (a_input a)) = Some v /\ find i d = Some (vscale k v) /\
       filter_value (a_filter a) i k /\ filter_value f i k).
Proof.
  intros h g a check Nh N Fit H Chk. unfold in_filter.
  destruct (fd_data (a_filter a)) as [|e r] eqn:D.
  - replace (size (a_filter a)) with false by (symmetry; apply size_false; exact D). rewrite (Chk eq_refl).
    exists (fd_data (a_input a)), (a_filter a). split; [destruct a as [? [] ? ? ? ?]; reflexivity|].
    split; [reflexivity|]. split; [rewrite D; constructor|]. split; [exact Fit|]. split; [intros _; exact D|].
    split; [intros X; destruct (X eq_refl)|]. intros i Hi. destruct (find i (fd_data (a_input a))) as [v|] eqn:E; [|destruct (H i Hi E)].
    exists v, 1. split; [reflexivity|]. split; [f_equal; vring|]. split; left; (split; [exact D|reflexivity]).
  - replace (size (a_filter a)) with true by (unfold size; rewrite D; reflexivity).
    destruct Fit as [X|[T [L I]]]; [rewrite X in D; discriminate|]. rewrite L, T. cbn [loc_eqb Nat.eqb andb complete_if].
    unfold complete_if. rewrite <- D in N.
    destruct (complete_ok _ h g 0 (Fd (Some g) LPoint (fd_data (a_filter a))) N (Nh g) eq_refl I) as [l [C [Nl [Il F]]]].
    rewrite D in C. rewrite C. cbn [fd_data fd_geo fd_loc].
    destruct (times_filter_ok l (vert_ids h g) (fd_data (a_input a)) (Nh g)) as [d [Tf [K [_ V]]]].
    { intros i Hi. split; [exact (H i Hi)|]. rewrite (F i Hi). discriminate. }
    rewrite Tf. exists d, (Fd (Some g) LPoint l). split; [reflexivity|]. split; [exact K|]. split; [exact Nl|].
    split; [right; split; [exact T|split; [reflexivity|exact Il]]|].
    split; [intros X; rewrite X in D; discriminate|]. split.
    { intros _. cbn [fd_data]. destruct (vert_ids h g) as [|i0 ids] eqn:Ids; [right; reflexivity|left].
      intros X. specialize (F i0). rewrite X in F. specialize (F (or_introl eq_refl)). discriminate. }
    intros i Hi. destruct (V i Hi) as [v [k [A [B Cx]]]]. exists v, k. split; [exact A|]. split; [exact Cx|].
    rewrite (F i Hi) in B. injection B as <-. cbn [fd_data]. split; right.
    + split; [rewrite D; discriminate|]. apply look_value_or.
    + split; [cbn [fd_data]; intros X; specialize (F i Hi); rewrite X in F; discriminate|].
      left. cbn [fd_data]. apply find_in. exact (F i Hi).
Qed.

Lemma filter_value_fun : forall f i k k', distinct_ids (fd_data f) -> filter_value f i k -> filter_value f i k' -> k = k'.
Proof.
  intros f i k k' N [[A B]|[A B]] [[A' B']|[A' B']]; try contradiction; try congruence.
  rewrite (value_or_look _ _ _ _ _ N B), (value_or_look _ _ _ _ _ N B'). reflexivity.
Qed.

(** the vector input of a geometry, with a filter *)
Lemma app_filtered : forall h a g, wf_store h -> distinct_ids (fd_data (a_input a)) -> distinct_ids (fd_data (a_filter a)) ->
  fd_data (a_scalar a) = [] -> a_geo a = Some g ->
  linked (so_verts (h g)) g (a_input a) -> fd_data (a_input a) <> [] -> filter_fits (h g) (a_filter a) ->
  exists h' a', app_execute h a = Some (h', a') /\ (forall k, k <> g -> h' k = h k) /\ so_type (h' g) = so_type (h g) /\
    moved (fun i p q => exists v k, value_or vzero (a_input a) i v /\ filter_value (a_filter a) i k /\
             q = vadd p (vscale (a_factor a * k) v))
      (so_verts (h g)) (so_verts (h' g)) /\
    (* the output *)
    (forall i, In i (vert_ids h g) -> exists v k, value_or vzero (a_input a) i v /\ filter_value (a_filter a) i k /\
       find i (fd_data (a_output a')) = Some (vscale (a_factor a * k) v)) /\
    (* what the next execution starts from *)
    distinct_ids (fd_data (a_input a')) /\ distinct_ids (fd_data (a_filter a')) /\ fd_data (a_scalar a') = [] /\
    a_geo a' = Some g /\ a_factor a' = a_factor a /\ linked (so_verts (h' g)) g (a_input a') /\ fd_data (a_input a') <> [] /\
    filter_fits (h' g) (a_filter a') /\
    (forall i, In i (vert_ids h g) -> exists v k, value_or vzero (a_input a) i v /\ filter_value (a_filter a) i k /\
       value_or vzero (a_input a') i (vscale k v) /\ filter_value (a_filter a') i k).
Proof.
  intros h a g Nh N Nf Sc G Lk Ne Fit.
  destruct (in_input_linked h g a Nh N Ne Lk) as [l [E1 Cl]]. pose proof Cl as [Nl [Il Fl]].
  set (a1 := with_fields (Fd (Some g) LPoint l) (a_scalar a) (a_filter a) a) in *.
  destruct (in_filter_ok h g a1 true Nh Nf Fit) as [d [f [E2 [Kd [Nf' [Fit' [_ [_ V]]]]]]]].
  { intros i Hi X. cbn in X. rewrite (Fl i Hi) in X. discriminate. }
  { reflexivity. }
  assert (C : checkInput h g a = Some (with_fields (Fd (Some g) LPoint d) (a_scalar a) f a)).
  { unfold checkInput. rewrite E1. unfold in_scalar.
    replace (size (a_scalar a1)) with false by (symmetry; apply size_false; exact Sc). rewrite E2. reflexivity. }
  destruct (fun Hx => app_execute_ok h g a _ Nh G C eq_refl Hx) as [h' [a' [E [O [Ty [_ [M [Ga [Ia [Sa [Fa [Ca Out]]]]]]]]]]]].
  { intros i Hi X. destruct (V i Hi) as [v [k [_ [F _]]]]. cbn in X. rewrite F in X. discriminate. }
  assert (Val : forall i v, In i (vert_ids h g) -> find i (fd_data (a_input a1)) = Some v -> value_or vzero (a_input a) i v).
  { intros i v Hi Fv. cbn in Fv. rewrite (Fl i Hi) in Fv. injection Fv as <-. apply look_value_or. }
  exists h', a'. split; [exact E|]. split; [exact O|]. split; [exact Ty|].
  pose proof (moved_ids _ _ _ M) as Ids.
  split; [|split; [|split; [|split; [|split; [|split; [|split; [|split; [|split; [|split]]]]]]]]].
  - revert M. apply moved_impl. intros i p q Hi [v [F R]].
    assert (Hk : In i (vert_ids h g)) by (apply in_map_iff; exists (i, p); split; [reflexivity|exact Hi]).
    destruct (V i Hk) as [u [k [A [B [W _]]]]]. cbn in F. rewrite B in F. injection F as <-.
    exists u, k. split; [exact (Val i u Hk A)|]. split; [exact W|]. rewrite R. vring.
  - intros i Hk. destruct (Out i Hk) as [v [F R]]. destruct (V i Hk) as [u [k [A [B [W _]]]]]. cbn in F. rewrite B in F. injection F as <-.
    exists u, k. split; [exact (Val i u Hk A)|]. split; [exact W|]. rewrite R. f_equal. vring.
  - rewrite Ia. unfold distinct_ids. cbn. rewrite Kd. exact Nl.
  - rewrite Fa. exact Nf'.
  - rewrite Sa. exact Sc.
  - rewrite Ga. exact G.
  - rewrite Ca. reflexivity.
  - rewrite Ia. split; [reflexivity|]. split; [reflexivity|]. cbn. rewrite Kd, Ids. exact Il.
  - rewrite Ia. cbn. intros X. rewrite X in Kd. cbn in Kd. destruct l as [|e r]; [|discriminate].
    destruct (fd_data (a_input a)) as [|[i v] r] eqn:D; [exact (Ne eq_refl)|].
    destruct Lk as [_ [_ I]]. rewrite D in I. specialize (Fl i (I i (or_introl eq_refl))). discriminate.
  - rewrite Fa. cbn [with_fields a_filter]. destruct Fit' as [X|[T [L I]]]; [left; exact X|right].
    split; [rewrite Ty; exact T|]. split; [exact L|]. rewrite Ids. exact I.
  - intros i Hk. destruct (V i Hk) as [u [k [A [B [W W']]]]]. exists u, k. split; [exact (Val i u Hk A)|]. split; [exact W|].
    rewrite Ia, Fa. cbn [with_fields a_input a_filter]. split; [|exact W']. left. cbn [fd_data]. apply find_in. exact B.
Qed.

Lemma powers_S : forall k n, powers k (S n) = k * (1 + powers k n).
Proof.
  intros k n. unfold powers. cbn [seq map fold_right]. rewrite <- (seq_shift n 1), map_map.
  replace (fold_right Rplus 0 (map (fun x => k ^ S x) (seq 1 n))) with (k * fold_right Rplus 0 (map (pow k) (seq 1 n))); [cbn; ring|].
  generalize (seq 1 n) as l. induction l as [|x r IH]; cbn [map fold_right]; [ring|]. rewrite <- IH. cbn [pow]. ring.
Qed.

Lemma app_filtered_n : forall n h a g, wf_store h -> distinct_ids (fd_data (a_input a)) -> distinct_ids (fd_data (a_filter a)) ->
  fd_data (a_scalar a) = [] -> a_geo a = Some g ->
  linked (so_verts (h g)) g (a_input a) -> fd_data (a_input a) <> [] -> filter_fits (h g) (a_filter a) ->
  exists h' a', app_execs n h a = Some (h', a') /\ (forall k, k <> g -> h' k = h k) /\
    moved (fun i p q => exists v k, value_or vzero (a_input a) i v /\ filter_value (a_filter a) i k /\
             q = vadd p (vscale (a_factor a * powers k n) v))
      (so_verts (h g)) (so_verts (h' g)).
Proof.
  induction n as [|n IH]; intros h a g Nh N Nf Sc G Lk Ne Fit; cbn [app_execs].
  - exists h, a. split; [reflexivity|]. split; [reflexivity|]. eapply moved_impl; [|apply moved_refl]. cbn.
    intros i p q _ ->. exists (look vzero (fd_data (a_input a)) i).
    destruct (fd_data (a_filter a)) as [|e r] eqn:D.
    + exists 1. split; [apply look_value_or|]. split; [left; split; [exact D|reflexivity]|]. unfold powers. cbn. vring.
    + exists (look 0 (fd_data (a_filter a)) i). split; [apply look_value_or|].
      split; [right; split; [rewrite D; discriminate|apply look_value_or]|]. unfold powers. cbn. vring.
  - destruct (app_filtered h a g Nh N Nf Sc G Lk Ne Fit) as [h1 [a1 [E [O [_ [M [_ [N1 [Nf1 [Sc1 [G1 [F1 [Lk1 [Ne1 [Fit1 Nx]]]]]]]]]]]]]]].
    rewrite E. destruct (IH h1 a1 g (wf_after _ _ _ _ Nh O M) N1 Nf1 Sc1 G1 Lk1 Ne1 Fit1) as [h2 [a2 [E2 [O2 M2]]]].
    exists h2, a2. split; [exact E2|]. split; [intros k K; rewrite (O2 k K); exact (O k K)|].
    eapply moved_impl; [|exact (moved_trans _ _ _ _ _ M M2)]. cbn beta.
    intros i p r Hi [q [[v [k [Dv [Dk Q]]]] [v' [k' [Dv' [Dk' R]]]]]].
    assert (Hk : In i (vert_ids h g)) by (apply in_map_iff; exists (i, p); split; [reflexivity|exact Hi]).
    destruct (Nx i Hk) as [u [c [U1 [U2 [U3 U4]]]]].
    rewrite (value_or_look _ _ _ _ _ N Dv) in *. rewrite (value_or_look _ _ _ _ _ N U1) in *.
    rewrite (filter_value_fun _ _ _ _ Nf U2 Dk) in *.
    rewrite (value_or_look _ _ _ _ _ N1 Dv') in *. rewrite <- (value_or_look _ _ _ _ _ N1 U3) in *.
    rewrite (filter_value_fun _ _ _ _ Nf1 Dk' U4) in *.
    exists (look vzero (fd_data (a_input a)) i), k. split; [apply look_value_or|]. split; [exact Dk|].
    rewrite R, Q, F1, powers_S. vring.
Qed.

(** the scalar input, with a filter: whatever the vector input was *)
Lemma app_scalar : forall h a g, wf_store h -> distinct_ids (fd_data (a_input a)) -> distinct_ids (fd_data (a_scalar a)) ->
  distinct_ids (fd_data (a_filter a)) -> a_geo a = Some g -> so_type (h g) = 1%nat ->
  linked (so_verts (h g)) g (a_scalar a) -> fd_data (a_scalar a) <> [] -> filter_fits (h g) (a_filter a) ->
  (forall i, In i (vert_ids h g) -> so_normal (h g) (so_verts (h g)) i <> None) ->
  exists h' a', app_execute h a = Some (h', a') /\ (forall k, k <> g -> h' k = h k) /\ so_type (h' g) = so_type (h g) /\
    moved (fun i p q => exists s k n, value_or 0 (a_scalar a) i s /\ filter_value (a_filter a) i k /\
             so_normal (h g) (so_verts (h g)) i = Some n /\ q = vadd p (vscale (a_factor a * k * s) n))
      (so_verts (h g)) (so_verts (h' g)) /\
    a_geo a' = Some g /\ a_factor a' = a_factor a /\
    (forall i, In i (vert_ids h g) -> exists s k, value_or 0 (a_scalar a) i s /\ filter_value (a_filter a) i k /\
       value_or 0 (a_scalar a') i s /\ filter_value (a_filter a') i k).
Proof.
  intros h a g Nh N Ns Nf G T Lk Ne Fit Nm.
  assert (E0 : exists i0 c0, in_input h g a = Some (with_fields i0 (a_scalar a) (a_filter a) a, c0)).
  { destruct (linked_dec _ (so_verts (h g)) g (a_input a)) as [K|K].
    - destruct (fd_data (a_input a)) as [|e r] eqn:D.
      + exists (a_input a), false. unfold in_input. replace (size (a_input a)) with false by (symmetry; apply size_false; exact D).
        destruct a; reflexivity.
      + destruct (in_input_linked h g a Nh) as [l [E _]]; [rewrite D; exact N|rewrite D; discriminate|exact K|]. eexists. eexists. exact E.
    - exists (a_input a), false. rewrite (in_input_unlinked h g a Nh N K). destruct a; reflexivity. }
  destruct E0 as [i0 [c0 E0]]. set (a0 := with_fields i0 (a_scalar a) (a_filter a) a) in *.
  destruct (complete_linked _ h g 0 (a_scalar a) Nh Ns Lk) as [l [C [Nl [Il Fl]]]].
  assert (NF : exists d, normal_field h g (Fd (Some g) LPoint l) = Some (Fd (Some g) LPoint d) /\ distinct_ids d /\
      forall i, In i (vert_ids h g) -> exists n, so_normal (h g) (so_verts (h g)) i = Some n /\
         find i d = Some (vscale (look 0 (fd_data (a_scalar a)) i) n)).
  { unfold normal_field. cbn [fd_data].
    destruct (along_normals_ok (so_normal (h g) (so_verts (h g))) l (vert_ids h g) [] (Nh g)) as [d [A [_ [Nd [_ V]]]]].
    { intros i _ []. } { constructor. } { intros i Hi. split; [rewrite (Fl i Hi); discriminate|exact (Nm i Hi)]. }
    destruct (vert_ids h g) as [|i1 r1] eqn:Ids.
    - destruct (fd_data (a_scalar a)) as [|[i v] r] eqn:D; [destruct (Ne eq_refl)|].
      destruct Lk as [_ [_ I]]. unfold vert_ids in Ids. rewrite Ids, D in I. destruct (I i (or_introl eq_refl)).
    - rewrite A. exists d. split; [reflexivity|]. split; [exact Nd|]. intros i Hi. destruct (V i Hi) as [k [n [Fk [Fn Fd']]]].
      rewrite (Fl i Hi) in Fk. injection Fk as <-. exists n. split; [exact Fn|exact Fd']. }
  destruct NF as [d [Dn [Nd Vd]]].
  assert (E1 : in_scalar h g (a0, c0) = Some (with_fields (Fd (Some g) LPoint d) (Fd (Some g) LPoint l) (a_filter a) a, true)).
  { unfold in_scalar. change (a_scalar a0) with (a_scalar a).
    replace (size (a_scalar a)) with true by (unfold size; destruct (fd_data (a_scalar a)); [destruct (Ne eq_refl)|reflexivity]).
    pose proof Lk as [L [Gs _]]. rewrite L, T, Gs. cbn [loc_eqb Nat.eqb geo_eqb]. rewrite Nat.eqb_refl. cbn [andb].
    unfold complete_if. rewrite C, Dn. reflexivity. }
  set (a1 := with_fields (Fd (Some g) LPoint d) (Fd (Some g) LPoint l) (a_filter a) a) in *.
  destruct (in_filter_ok h g a1 true Nh Nf Fit) as [d' [f [E2 [Kd [Nf' [Fit' [_ [_ V]]]]]]]].
  { intros i Hi X. destruct (Vd i Hi) as [n [_ F]]. cbn in X. rewrite F in X. discriminate. }
  { reflexivity. }
  assert (Ck : checkInput h g a = Some (with_fields (Fd (Some g) LPoint d') (Fd (Some g) LPoint l) f a)).
  { unfold checkInput. rewrite E0, E1, E2. reflexivity. }
  destruct (fun Hx => app_execute_ok h g a _ Nh G Ck eq_refl Hx) as [h' [a' [E [O [Ty [_ [M [Ga [Ia [Sa [Fa [Ca Out]]]]]]]]]]]].
  { intros i Hi X. destruct (V i Hi) as [v [k [_ [F _]]]]. cbn in X. rewrite F in X. discriminate. }
  exists h', a'. split; [exact E|]. split; [exact O|]. split; [exact Ty|]. split; [|split; [|split]].
  - revert M. apply moved_impl. intros i p q Hi [v [F R]].
    assert (Hk : In i (vert_ids h g)) by (apply in_map_iff; exists (i, p); split; [reflexivity|exact Hi]).
    destruct (V i Hk) as [u [k [A [B [W _]]]]]. destruct (Vd i Hk) as [n [Fn Fd']]. cbn in F, A. rewrite B in F. injection F as <-.
    rewrite Fd' in A. injection A as <-. exists (look 0 (fd_data (a_scalar a)) i), k, n.
    split; [apply look_value_or|]. split; [exact W|]. split; [exact Fn|]. rewrite R. vring.
  - rewrite Ga. exact G.
  - rewrite Ca. reflexivity.
  - intros i Hk. destruct (V i Hk) as [u [k [_ [_ [W W']]]]]. exists (look 0 (fd_data (a_scalar a)) i), k.
    split; [apply look_value_or|]. split; [exact W|]. rewrite Sa, Fa. cbn [with_fields a_scalar a_filter]. split; [|exact W'].
    left. cbn [fd_data]. apply find_in. exact (Fl i Hk).
Qed.

(** ** ApplyFilter *)
Lemma af_filter_ok : forall h g a, wf_store h -> distinct_ids (fd_data (a_filter a)) ->
  (fd_data (a_filter a) = [] \/ on_points (so_verts (h g)) (a_filter a)) ->
  (forall i, In i (vert_ids h g) -> find i (fd_data (a_input a)) <> None) ->
  exists d f, af_filter h (Some g, a, true) = Some (with_fields (Fd (fd_geo (a_input a)) (fd_loc (a_input a)) d) (a_scalar a) f a, true) /\
    map fst d = map fst (fd_data (a_input a)) /\ distinct_ids (fd_data f) /\
    (fd_data f = [] \/ on_points (so_verts (h g)) f) /\
    (forall i, In i (vert_ids h g) -> exists v k, find i (fd_data (a_input a)) = Some v /\ find i d = Some (vscale k v) /\
       filter_value (a_filter a) i k /\ filter_value f i k).
Proof.
  intros h g a Nh N Fit H. unfold af_filter.
  destruct (fd_data (a_filter a)) as [|e r] eqn:D.
  - replace (size (a_filter a)) with false by (symmetry; apply size_false; exact D).
    exists (fd_data (a_input a)), (a_filter a). split; [destruct a as [? [] ? ? ? ?]; reflexivity|].
    split; [reflexivity|]. split; [rewrite D; constructor|]. split; [left; exact D|].
    intros i Hi. destruct (find i (fd_data (a_input a))) as [v|] eqn:E; [|destruct (H i Hi E)].
    exists v, 1. split; [reflexivity|]. split; [f_equal; vring|]. split; left; (split; [exact D|reflexivity]).
  - replace (size (a_filter a)) with true by (unfold size; rewrite D; reflexivity).
    destruct Fit as [X|[L I]]; [discriminate|]. unfold relink. rewrite L. cbn [fd_loc loc_eqb]. unfold complete_if.
    rewrite <- D in N.
    destruct (complete_ok _ h g 0 (Fd (Some g) LPoint (fd_data (a_filter a))) N (Nh g) eq_refl I) as [l [C [Nl [Il F]]]].
    rewrite C. cbn [fd_data fd_geo fd_loc].
    destruct (times_filter_ok l (vert_ids h g) (fd_data (a_input a)) (Nh g)) as [d [Tf [K [_ V]]]].
    { intros i Hi. split; [exact (H i Hi)|]. rewrite (F i Hi). discriminate. }
    rewrite Tf. exists d, (Fd (Some g) LPoint l). split; [reflexivity|]. split; [exact K|]. split; [exact Nl|].
    split; [right; split; [reflexivity|exact Il]|].
    intros i Hi. destruct (V i Hi) as [v [k [A [B Cx]]]]. exists v, k. split; [exact A|]. split; [exact Cx|].
    rewrite (F i Hi) in B. injection B as <-. cbn [fd_data]. split; right.
    + split; [rewrite D; discriminate|]. apply look_value_or.
    + split; [cbn [fd_data]; intros X; specialize (F i Hi); rewrite X in F; discriminate|].
      left. cbn [fd_data]. apply find_in. exact (F i Hi).
Qed.

Lemma find_map_scale : forall c i (l : list (nat * vec)),
  find i (map (fun e => (fst e, vscale c (snd e))) l) = match find i l with Some v => Some (vscale c v) | None => None end.
Proof.
  intros c i l. induction l as [|[k v] r IH]; cbn; [reflexivity|]. destruct (Nat.eqb k i); [reflexivity|exact IH].
Qed.

Lemma af_ok : forall h a g, wf_store h -> distinct_ids (fd_data (a_input a)) -> distinct_ids (fd_data (a_filter a)) ->
  fd_data (a_scalar a) = [] -> af_target a g -> on_points (so_verts (h g)) (a_input a) -> fd_data (a_input a) <> [] ->
  (fd_data (a_filter a) = [] \/ on_points (so_verts (h g)) (a_filter a)) ->
  exists a', af_execute h a = Some a' /\
    (forall i, In i (vert_ids h g) -> exists v k c, value_or vzero (a_input a) i v /\ filter_value (a_filter a) i k /\
       af_factor a c /\ find i (fd_data (a_output a')) = Some (vscale (c * k) v)) /\
    distinct_ids (fd_data (a_input a')) /\ distinct_ids (fd_data (a_filter a')) /\ fd_data (a_scalar a') = [] /\
    af_target a' g /\ on_points (so_verts (h g)) (a_input a') /\ fd_data (a_input a') <> [] /\
    (fd_data (a_filter a') = [] \/ on_points (so_verts (h g)) (a_filter a')) /\ a_factor a' = a_factor a /\
    (forall i, In i (vert_ids h g) -> exists v k, value_or vzero (a_input a) i v /\ filter_value (a_filter a) i k /\
       value_or vzero (a_input a') i (vscale k v) /\ filter_value (a_filter a') i k).
Proof.
  intros h a g Nh N Nf Sc Tg [L I] Ne Fit.
  assert (Tl : match a_geo a with Some g => Some g | None => fd_geo (a_input a) end = Some g)
    by (destruct Tg as [->|[-> ->]]; reflexivity).
  destruct (complete_ok _ h g vzero (Fd (Some g) LPoint (fd_data (a_input a))) N (Nh g) eq_refl I) as [l [C [Nl [Il Fl]]]].
  cbn [fd_geo fd_loc fd_data] in *.
  assert (E1 : af_input h a = Some (Some g, with_fields (Fd (Some g) LPoint l) (a_scalar a) (a_filter a) a, true)).
  { unfold af_input. replace (size (a_input a)) with true by (unfold size; destruct (fd_data (a_input a)); [destruct (Ne eq_refl)|reflexivity]).
    rewrite Tl. unfold relink. rewrite L. cbn [fd_loc loc_eqb]. unfold complete_if. rewrite C. reflexivity. }
  set (a1 := with_fields (Fd (Some g) LPoint l) (a_scalar a) (a_filter a) a) in *.
  destruct (af_filter_ok h g a1 Nh Nf Fit) as [d [f [E2 [Kd [Nf' [Fit' V]]]]]].
  { intros i Hi X. cbn in X. rewrite (Fl i Hi) in X. discriminate. }
  assert (Ck : af_checkInput h a = Some (with_fields (Fd (Some g) LPoint d) (a_scalar a) f a)).
  { unfold af_checkInput. rewrite E1. unfold af_scalar.
    replace (size (a_scalar a1)) with false by (symmetry; apply size_false; exact Sc). rewrite E2. reflexivity. }
  assert (Val : forall i v, In i (vert_ids h g) -> find i (fd_data (a_input a1)) = Some v -> value_or vzero (a_input a) i v).
  { intros i v Hi Fv. cbn in Fv. rewrite (Fl i Hi) in Fv. injection Fv as <-. apply look_value_or. }
  unfold af_execute. rewrite Ck. eexists. split; [reflexivity|].
  cbn [with_fields a_geo a_input a_scalar a_filter a_factor a_output fd_data fd_geo fd_loc].
  split; [|split; [|split; [|split; [|split; [|split; [|split; [|split; [|split]]]]]]]].
  - intros i Hk. destruct (V i Hk) as [u [k [A [B [W _]]]]]. exists u, k. unfold af_factor.
    destruct (Req_EM_T (a_factor a) max_double) as [X|X].
    + exists 1. split; [exact (Val i u Hk A)|]. split; [exact W|]. split; [left; split; [exact X|reflexivity]|].
      rewrite B. f_equal. vring.
    + exists (a_factor a). split; [exact (Val i u Hk A)|]. split; [exact W|]. split; [right; split; [exact X|reflexivity]|].
      rewrite find_map_scale, B. f_equal. vring.
  - unfold distinct_ids. rewrite Kd. exact Nl.
  - exact Nf'.
  - exact Sc.
  - destruct Tg as [T|[T _]]; [left; exact T|right; split; [exact T|reflexivity]].
  - split; [reflexivity|]. cbn. rewrite Kd. exact Il.
  - intros X. rewrite X in Kd. cbn in Kd. destruct l as [|e r]; [|discriminate].
    destruct (fd_data (a_input a)) as [|[i v] r] eqn:D; [exact (Ne eq_refl)|].
    specialize (Fl i (I i (or_introl eq_refl))). discriminate.
  - exact Fit'.
  - reflexivity.
  - intros i Hk. destruct (V i Hk) as [u [k [A [B [W W']]]]]. exists u, k. split; [exact (Val i u Hk A)|]. split; [exact W|].
    split; [left; cbn [fd_data]; apply find_in; exact B|exact W'].
Qed.

Lemma af_n : forall n h a g, wf_store h -> distinct_ids (fd_data (a_input a)) -> distinct_ids (fd_data (a_filter a)) ->
  fd_data (a_scalar a) = [] -> af_target a g -> on_points (so_verts (h g)) (a_input a) -> fd_data (a_input a) <> [] ->
  (fd_data (a_filter a) = [] \/ on_points (so_verts (h g)) (a_filter a)) ->
  exists a', af_execs (S n) h a = Some a' /\
    (forall i, In i (vert_ids h g) -> exists v k c, value_or vzero (a_input a) i v /\ filter_value (a_filter a) i k /\
       af_factor a c /\ find i (fd_data (a_output a')) = Some (vscale (c * k ^ S n) v)).
Proof.
  induction n as [|n IH]; intros h a g Nh N Nf Sc Tg Pt Ne Fit.
  - destruct (af_ok h a g Nh N Nf Sc Tg Pt Ne Fit) as [a1 [E [Out _]]]. cbn [af_execs]. rewrite E. exists a1. split; [reflexivity|].
    intros i Hi. destruct (Out i Hi) as [v [k [c [A [B [C D]]]]]]. exists v, k, c.
    split; [exact A|]. split; [exact B|]. split; [exact C|]. rewrite D. f_equal. f_equal. ring.
  - destruct (af_ok h a g Nh N Nf Sc Tg Pt Ne Fit) as [a1 [E [_ [N1 [Nf1 [Sc1 [Tg1 [Pt1 [Ne1 [Fit1 [F1 Nx]]]]]]]]]]].
    destruct (IH h a1 g Nh N1 Nf1 Sc1 Tg1 Pt1 Ne1 Fit1) as [a2 [E2 Out]]. exists a2.
    change (af_execs (S (S n)) h a) with (match af_execute h a with None => None | Some a => af_execs (S n) h a end).
    rewrite E. split; [exact E2|]. intros i Hi. destruct (Out i Hi) as [v' [k' [c [A [B [C D]]]]]].
    destruct (Nx i Hi) as [v [k [U1 [U2 [U3 U4]]]]]. exists v, k, c. split; [exact U1|]. split; [exact U2|].
    split; [unfold af_factor in *; rewrite F1 in C; exact C|]. rewrite D.
    rewrite (filter_value_fun _ _ _ _ Nf1 B U4). rewrite (value_or_look _ _ _ _ _ N1 A), <- (value_or_look _ _ _ _ _ N1 U3).
    f_equal. cbn [pow]. vring.
Qed.
