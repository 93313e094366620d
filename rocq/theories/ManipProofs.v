(** Proofs about the manipulators. *)
From Coq Require Import List Arith Bool Reals Lra Lia.
From Verif Require Import Vec SharedPtr SharedPtrProofs Field FieldProofs Manip ManipSpec.
Import ListNotations.
Open Scope R_scope.

Lemma vec_eq : forall a b, vx a = vx b -> vy a = vy b -> vz a = vz b -> a = b.
Proof. intros [x y z] [x' y' z'] A B C. cbn in *. subst. reflexivity. Qed.

(** ** Vector algebra *)
Ltac vring := intros;
  unfold dot, cross, vadd, vsub, vscale, vzero, cmpmul; cbn [vx vy vz];
  first [ring | apply vec_eq; cbn [vx vy vz]; ring].

Lemma dot_sym : forall a b, dot a b = dot b a. Proof. vring. Qed.
Lemma dot_add_l : forall a b c, dot (vadd a b) c = dot a c + dot b c. Proof. vring. Qed.
Lemma dot_add_r : forall a b c, dot c (vadd a b) = dot c a + dot c b. Proof. vring. Qed.
Lemma dot_scale_l : forall k a b, dot (vscale k a) b = k * dot a b. Proof. vring. Qed.
Lemma dot_scale_r : forall k a b, dot b (vscale k a) = k * dot b a. Proof. vring. Qed.
Lemma dot_cross_l : forall a b, dot (cross a b) a = 0. Proof. vring. Qed.
Lemma dot_cross_r : forall a b, dot (cross a b) b = 0. Proof. vring. Qed.
Lemma cross_self : forall a, cross a a = vzero. Proof. vring. Qed.
Lemma cross_add_r : forall a b c, cross a (vadd b c) = vadd (cross a b) (cross a c). Proof. vring. Qed.
Lemma cross_scale_r : forall k a b, cross a (vscale k b) = vscale k (cross a b). Proof. vring. Qed.
Lemma lagrange : forall a b, dot (cross a b) (cross a b) = dot a a * dot b b - dot a b * dot a b. Proof. vring. Qed.
Lemma bac_cab : forall a b c, cross a (cross b c) = vsub (vscale (dot a c) b) (vscale (dot a b) c). Proof. vring. Qed.
Lemma vadd_sub : forall p o, vadd (vsub p o) o = p. Proof. vring. Qed.

(** ** Rotation about an axis *)
Section Turn.
  Variables o d : vec.
  Hypothesis U : unit_vec d.

  (** decomposition of a point: foot and orthogonal part *)
  Lemma foot_at : forall t w, dot w d = 0 -> foot o d (vadd (vadd o (vscale t d)) w) = vadd o (vscale t d).
  Proof.
    intros t w W. unfold foot. unfold unit_vec in U.
    replace (vsub (vadd (vadd o (vscale t d)) w) o) with (vadd (vscale t d) w) by vring.
    rewrite dot_add_l, dot_scale_l, U, W. f_equal. f_equal. ring.
  Qed.
  Lemma split_at : forall p, exists t w, p = vadd (vadd o (vscale t d)) w /\ dot w d = 0.
  Proof.
    intros p. exists (dot (vsub p o) d), (vsub p (foot o d p)). split.
    - unfold foot. vring.
    - unfold foot. replace (vsub p (vadd o (vscale (dot (vsub p o) d) d)))
        with (vadd (vsub p o) (vscale (- dot (vsub p o) d) d)) by vring.
      rewrite dot_add_l, dot_scale_l. rewrite U. ring.
  Qed.
  Lemma sub_foot : forall f w, vsub (vadd f w) f = w.
  Proof. vring. Qed.

  (** the turned point *)
  Lemma turned_at : forall a t w, dot w d = 0 ->
    turned o d a (vadd (vadd o (vscale t d)) w)
                 (vadd (vadd o (vscale t d)) (vadd (vscale (cos a) w) (vscale (sin a) (cross d w)))).
  Proof.
    intros a t w W. unfold turned. rewrite (foot_at t w W).
    rewrite foot_at by (rewrite dot_add_l, !dot_scale_l, W, dot_cross_l; ring).
    rewrite !sub_foot. split; [reflexivity|]. pose proof (sin2_cos2 a) as T. unfold Rsqr in T.
    split; [|split].
    - rewrite dot_add_l, !dot_add_r, !dot_scale_l, !dot_scale_r, lagrange.
      rewrite (dot_sym w (cross d w)), dot_cross_r, (dot_sym d w), W, U.
      replace 1 with (sin a * sin a + cos a * cos a) by exact T.
      transitivity ((sin a * sin a + cos a * cos a) * dot w w * (cos a * cos a + sin a * sin a)).
      + replace (cos a * cos a + sin a * sin a) with 1 by lra. replace (sin a * sin a + cos a * cos a) with 1 by lra.
        transitivity ((sin a * sin a + cos a * cos a) * dot w w); [ring|rewrite T; ring].
      + replace (cos a * cos a + sin a * sin a) with 1 by lra. replace (sin a * sin a + cos a * cos a) with 1 by lra. ring.
    - rewrite dot_add_r, !dot_scale_r, (dot_sym w (cross d w)), dot_cross_r. ring.
    - rewrite cross_add_r, !cross_scale_r, cross_self, bac_cab, W. vring.
  Qed.

  (** it is the only one *)
  Lemma turned_only : forall a t w q, dot w d = 0 -> turned o d a (vadd (vadd o (vscale t d)) w) q ->
    q = vadd (vadd o (vscale t d)) (vadd (vscale (cos a) w) (vscale (sin a) (cross d w))).
  Proof.
    intros a t w q W [F [D [C S]]]. rewrite (foot_at t w W) in *. rewrite sub_foot in *.
    set (f := vadd o (vscale t d)) in *.
    assert (Q : dot (vsub q f) d = 0).
    { rewrite <- F. unfold foot. replace (vsub q (vadd o (vscale (dot (vsub q o) d) d)))
        with (vadd (vsub q o) (vscale (- dot (vsub q o) d) d)) by vring.
      rewrite dot_add_l, dot_scale_l, U. ring. }
    set (u := vsub q f) in *. assert (E : q = vadd f u) by (unfold u; vring). rewrite E. f_equal. clearbody u.
    (* |w|^2 u = (w.u) w - w x (w x u) *)
    assert (K : vscale (dot w w) u = vscale (dot w w) (vadd (vscale (cos a) w) (vscale (sin a) (cross d w)))).
    { transitivity (vsub (vscale (dot w u) w) (cross w (cross w u))); [rewrite bac_cab; vring|].
      rewrite C, S, cross_scale_r. vring. }
    destruct (Req_dec (dot w w) 0) as [Z|N].
    - assert (W0 : w = vzero).
      { destruct w as [x y z]. unfold dot in Z. cbn in Z.
        assert (x = 0 /\ y = 0 /\ z = 0) as [-> [-> ->]] by (repeat split; nra). reflexivity. }
      rewrite Z in D. assert (U0 : u = vzero).
      { destruct u as [x y z]. unfold dot in D. cbn in D.
        assert (x = 0 /\ y = 0 /\ z = 0) as [-> [-> ->]] by (repeat split; nra). reflexivity. }
      rewrite W0, U0. vring.
    - assert (G : forall k a b, k <> 0 -> vscale k a = vscale k b -> a = b).
      { intros k [x y z] [x' y' z'] Nk H. unfold vscale in H. cbn in H. injection H as H1 H2 H3.
        apply Rmult_eq_reg_l in H1, H2, H3; try exact Nk. subst. reflexivity. }
      exact (G _ _ _ N K).
  Qed.

  Lemma turned_fun : forall a p q q', turned o d a p q -> turned o d a p q' -> q = q'.
  Proof.
    intros a p q q' H H'. destruct (split_at p) as [t [w [E W]]]. subst p.
    rewrite (turned_only _ _ _ _ W H), (turned_only _ _ _ _ W H'). reflexivity.
  Qed.
  Lemma rodrigues_turned : forall a p, turned o d a p (vadd (rodrigues d a (vsub p o)) o).
  Proof.
    intros a p. destruct (split_at p) as [t [w [E W]]]. subst p.
    replace (vadd (rodrigues d a (vsub (vadd (vadd o (vscale t d)) w) o)) o)
      with (vadd (vadd o (vscale t d)) (vadd (vscale (cos a) w) (vscale (sin a) (cross d w)))); [apply turned_at; exact W|].
    unfold rodrigues. replace (vsub (vadd (vadd o (vscale t d)) w) o) with (vadd (vscale t d) w) by vring.
    replace (dot d (vadd (vscale t d) w)) with t.
    - vring.
    - rewrite dot_add_r, dot_scale_r, U, (dot_sym d w), W. ring.
  Qed.
  Lemma turned_compose : forall a b p q r, turned o d a p q -> turned o d b q r -> turned o d (a + b) p r.
  Proof.
    intros a b p q r H K. destruct (split_at p) as [t [w [E W]]]. subst p.
    apply (turned_only _ _ _ _ W) in H. subst q.
    assert (W' : dot (vadd (vscale (cos a) w) (vscale (sin a) (cross d w))) d = 0)
      by (rewrite dot_add_l, !dot_scale_l, W, dot_cross_l; ring).
    apply (turned_only _ _ _ _ W') in K. subst r.
    rewrite cross_add_r, !cross_scale_r, bac_cab, (dot_sym d w), W, U.
    match goal with |- turned _ _ _ _ ?r => replace r with
      (vadd (vadd o (vscale t d)) (vadd (vscale (cos (a + b)) w) (vscale (sin (a + b)) (cross d w)))) end.
    - apply turned_at. exact W.
    - rewrite cos_plus, sin_plus. vring.
  Qed.
  Lemma turned_zero : forall p, turned o d 0 p p.
  Proof.
    intros p. destruct (split_at p) as [t [w [E W]]]. subst p. pose proof (turned_at 0 t w W) as H.
    rewrite cos_0, sin_0 in H. replace (vadd (vscale 1 w) (vscale 0 (cross d w))) with w in H by vring. exact H.
  Qed.
  Lemma turned_axis : forall a p q, on_axis o d p -> turned o d a p q -> q = p.
  Proof.
    intros a p q [t E] H. subst p. replace (vadd o (vscale t d)) with (vadd (vadd o (vscale t d)) vzero) in * by vring.
    apply turned_only in H; [|vring]. rewrite H. vring.
  Qed.
  Lemma turned_isometry : forall a p q p' q', turned o d a p p' -> turned o d a q q' -> dist p' q' = dist p q.
  Proof.
    intros a p q p' q' H K. destruct (split_at p) as [t [w [E W]]], (split_at q) as [t' [w' [E' W']]]. subst p q.
    apply (turned_only _ _ _ _ W) in H. apply (turned_only _ _ _ _ W') in K. subst p' q'. unfold dist. f_equal.
    set (u := vsub w w').
    replace (vsub (vadd (vadd o (vscale t d)) w) (vadd (vadd o (vscale t' d)) w')) with (vadd (vscale (t - t') d) u)
      by (unfold u; vring).
    match goal with |- dot ?v _ = _ => replace v
      with (vadd (vscale (t - t') d) (vadd (vscale (cos a) u) (vscale (sin a) (cross d u)))) by (unfold u; vring) end.
    assert (O : dot u d = 0).
    { unfold u. replace (vsub w w') with (vadd w (vscale (-1) w')) by vring. rewrite dot_add_l, dot_scale_l, W, W'. ring. }
    clearbody u. rewrite !dot_add_l, !dot_add_r, !dot_scale_l, !dot_scale_r, lagrange.
    rewrite (dot_sym u (cross d u)), (dot_sym d (cross d u)), dot_cross_r, dot_cross_l, (dot_sym d u), O, U.
    pose proof (sin2_cos2 a) as T. unfold Rsqr in T.
    transitivity ((t - t') * (t - t') + (sin a * sin a + cos a * cos a) * dot u u); [ring|rewrite T; ring].
  Qed.
End Turn.

(** ** Fields *)
Lemma geo_eqb_eq : forall a b, geo_eqb a b = true <-> a = b.
Proof.
  intros [a|] [b|]; cbn; split; intros H; try discriminate; try reflexivity.
  - apply Nat.eqb_eq in H. subst. reflexivity.
  - injection H as ->. apply Nat.eqb_refl.
Qed.
Lemma loc_eqb_point : forall l, loc_eqb l LPoint = true <-> l = LPoint.
Proof. intros []; cbn; split; intros H; try discriminate; reflexivity. Qed.

Lemma find_in : forall A i (v : A) l, find i l = Some v -> In (i, v) l.
Proof.
  intros A i v l. induction l as [|[k u] r IH]; cbn; [discriminate|]. destruct (Nat.eqb k i) eqn:E.
  - apply Nat.eqb_eq in E. subst. intros H. injection H as ->. left. reflexivity.
  - intros H. right. exact (IH H).
Qed.
Lemma in_find : forall A i (v : A) l, distinct_ids l -> In (i, v) l -> find i l = Some v.
Proof.
  intros A i v l. unfold distinct_ids. induction l as [|[k u] r IH]; cbn; [intros _ []|]. intros N [E|H].
  - injection E as -> ->. rewrite Nat.eqb_refl. reflexivity.
  - inversion N as [|? ? N1 N2]; subst. destruct (Nat.eqb k i) eqn:E; [|exact (IH N2 H)].
    apply Nat.eqb_eq in E. subst. destruct N1. apply in_map_iff. exists (i, v). split; [reflexivity|exact H].
Qed.
Lemma find_none_iff : forall A i (l : list (nat * A)), find i l = None <-> ~ In i (map fst l).
Proof.
  intros A i l. induction l as [|[k u] r IH]; cbn; [split; [intros _ []|reflexivity]|].
  destruct (Nat.eqb k i) eqn:E.
  - apply Nat.eqb_eq in E. subst. split; [discriminate|intros H; destruct H; left; reflexivity].
  - apply Nat.eqb_neq in E. rewrite IH. split; [intros H [K|K]; [exact (E K)|exact (H K)]|intros H K; apply H; right; exact K].
Qed.
(** lookup with a default *)
Definition look {A} (z : A) (l : list (nat * A)) (i : nat) : A := match find i l with Some v => v | None => z end.
Lemma look_value_or : forall A (z : A) f i, value_or z f i (look z (fd_data f) i).
Proof.
  intros A z f i. unfold value_or, look. destruct (find i (fd_data f)) as [v|] eqn:E.
  - left. exact (find_in _ _ _ _ E).
  - right. split; [apply find_none_iff; exact E|reflexivity].
Qed.
Lemma value_or_look : forall A (z : A) f i v, distinct_ids (fd_data f) -> value_or z f i v -> v = look z (fd_data f) i.
Proof.
  intros A z f i v N [H|[H E]]; unfold look.
  - rewrite (in_find _ _ _ _ N H). reflexivity.
  - apply find_none_iff in H. rewrite H. exact E.
Qed.

Lemma coherent_incl : forall A (l : list (nat * A)) ids,
  forallb (fun id => existsb (Nat.eqb id) ids) (map fst l) = true <-> incl (map fst l) ids.
Proof.
  intros A l ids. rewrite forallb_forall. unfold incl. split; intros H i Hi.
  - apply in_existsb. exact (H i Hi).
  - apply in_existsb. exact (H i Hi).
Qed.

(** completeMissingData: on a field linked to g whose ids are vertices, the missing vertices get
    the default value; the ids are then those of the vertices. *)
Lemma complete_ok : forall A h g (z : A) f, distinct_ids (fd_data f) -> distinct_ids (so_verts (h g)) ->
  fd_geo f = Some g -> incl (map fst (fd_data f)) (vert_ids h g) ->
  exists l, complete h z f = Some (Fd (fd_geo f) (fd_loc f) l, true) /\ distinct_ids l /\
    incl (map fst l) (vert_ids h g) /\
    forall i, In i (vert_ids h g) -> find i l = Some (look z (fd_data f) i).
Proof.
  intros A h g z f N Nv G I. unfold complete. rewrite G.
  assert (I' := I). apply coherent_incl in I. rewrite I. cbn [negb].
  destruct (Nat.eqb (length (fd_data f)) (length (vert_ids h g))) eqn:L.
  - exists (fd_data f). split; [destruct f; cbn in *; rewrite G; reflexivity|]. split; [exact N|]. split; [exact I'|].
    intros i Hi. unfold look. destruct (find i (fd_data f)) as [v|] eqn:E; [reflexivity|].
    apply find_none_iff in E. destruct E. apply Nat.eqb_eq in L.
    assert (J : incl (vert_ids h g) (map fst (fd_data f))).
    { apply NoDup_length_incl; [exact N|rewrite map_length, L; lia|exact I']. }
    exact (J i Hi).
  - destruct (fill_ok (vert_ids h g) z (fd_data f) N) as [l [F [N' H]]]. rewrite F. exists l.
    split; [reflexivity|]. split; [exact N'|]. split.
    + intros i Hi. destruct (find i l) as [v|] eqn:E.
      * rewrite H in E. destruct (find i (fd_data f)) as [u|] eqn:Ei.
        -- apply I'. apply find_in in Ei. apply in_map_iff. exists (i, u). split; [reflexivity|exact Ei].
        -- destruct (existsb (Nat.eqb i) (vert_ids h g)) eqn:X; [apply in_existsb in X; exact X|discriminate].
      * apply find_none_iff in E. destruct (E Hi).
    + intros i Hi. rewrite H. unfold look. destruct (find i (fd_data f)) as [v|]; [reflexivity|].
      apply in_existsb in Hi. rewrite Hi. reflexivity.
Qed.
Lemma complete_no : forall A h (z : A) f, ~ (exists g, fd_geo f = Some g /\ incl (map fst (fd_data f)) (vert_ids h g)) ->
  complete h z f = Some (f, false).
Proof.
  intros A h z f H. unfold complete. destruct (fd_geo f) as [g|] eqn:G; [|reflexivity].
  destruct (forallb _ _) eqn:E; [|reflexivity]. apply coherent_incl in E. destruct H. exists g. split; [reflexivity|exact E].
Qed.

(** ** Filters *)
Lemma usable_dec : forall vs g f, usable vs g f \/ ~ usable vs g f.
Proof.
  intros vs g f. unfold usable. destruct (loc_eqb (fd_loc f) LPoint) eqn:L.
  - apply loc_eqb_point in L. destruct (geo_eqb (fd_geo f) (Some g)) eqn:G.
    + apply geo_eqb_eq in G.
      destruct (forallb (fun id => existsb (Nat.eqb id) (map fst vs)) (map fst (fd_data f))) eqn:E.
      * left. apply coherent_incl in E. auto.
      * right. intros [_ [_ I]]. apply coherent_incl in I. rewrite I in E. discriminate.
    + right. intros [_ [K _]]. rewrite K in G. cbn in G. rewrite Nat.eqb_refl in G. discriminate.
  - right. intros [K _]. rewrite K in L. discriminate.
Qed.

Lemma unit_filter_ok : forall h g, distinct_ids (so_verts (h g)) ->
  unit_filter h g = Some (Fd (Some g) LPoint (map (fun i => (i, 1)) (vert_ids h g))).
Proof.
  intros h g N. unfold unit_filter. rewrite insert_all_ok; [reflexivity|]. cbn. exact N.
Qed.
Lemma map_fst_const : forall A (v : A) ids, map fst (map (fun i : nat => (i, v)) ids) = ids.
Proof. intros. rewrite map_map. cbn. apply map_id. Qed.

(** The filter used by an execution: every vertex has its weight. *)
Lemma checkFilter_ok : forall h g f, wf_store h -> distinct_ids (fd_data f) ->
  exists f', checkFilter h g f = Some f' /\ fd_loc f' = LPoint /\ fd_geo f' = Some g /\ distinct_ids (fd_data f') /\
    incl (map fst (fd_data f')) (vert_ids h g) /\
    forall i, In i (vert_ids h g) -> exists k, find i (fd_data f') = Some k /\ weight (so_verts (h g)) g f i k.
Proof.
  intros h g f Nh N. unfold checkFilter.
  assert (B : ~ usable (so_verts (h g)) g f ->
    exists f', unit_filter h g = Some f' /\ fd_loc f' = LPoint /\ fd_geo f' = Some g /\ distinct_ids (fd_data f') /\
    incl (map fst (fd_data f')) (vert_ids h g) /\
    forall i, In i (vert_ids h g) -> exists k, find i (fd_data f') = Some k /\ weight (so_verts (h g)) g f i k).
  { intros NU. eexists. split; [apply unit_filter_ok, Nh|]. cbn [fd_loc fd_geo fd_data].
    unfold distinct_ids. rewrite map_fst_const. split; [reflexivity|]. split; [reflexivity|]. split; [apply Nh|].
    split; [apply incl_refl|]. intros i Hi. exists 1. rewrite find_const. apply in_existsb in Hi. rewrite Hi.
    split; [reflexivity|]. right. split; [exact NU|reflexivity]. }
  destruct (usable_dec (so_verts (h g)) g f) as [Us|NU].
  - destruct Us as [L [G I]]. rewrite L. cbn [loc_eqb].
    destruct (complete_ok _ h g 0 f N (Nh g) G I) as [l [C [Nl [Il F]]]]. rewrite C. cbn [fd_geo]. rewrite G.
    cbn [geo_eqb]. rewrite Nat.eqb_refl. cbn [andb]. eexists. split; [reflexivity|]. cbn [fd_loc fd_geo fd_data].
    split; [exact L|]. split; [reflexivity|]. split; [exact Nl|]. split; [exact Il|].
    intros i Hi. exists (look 0 (fd_data f) i). split; [exact (F i Hi)|]. left.
    split; [split; [exact L|split; [exact G|exact I]]|apply look_value_or].
  - destruct (loc_eqb (fd_loc f) LPoint) eqn:L; [|exact (B NU)].
    assert (Cx : exists f' ok, complete h 0 f = Some (f', ok) /\ (ok = true -> fd_geo f' <> Some g)).
    { destruct (fd_geo f) as [g'|] eqn:G.
      - destruct (forallb (fun id => existsb (Nat.eqb id) (vert_ids h g')) (map fst (fd_data f))) eqn:E.
        + apply coherent_incl in E. destruct (complete_ok _ h g' 0 f N (Nh g') G E) as [l [C _]].
          eexists. exists true. split; [exact C|]. cbn [fd_geo]. intros _ X. rewrite G in X. injection X as ->.
          apply NU. apply loc_eqb_point in L. split; [exact L|split; [exact G|exact E]].
        + exists f, false. split; [unfold complete; rewrite G, E; reflexivity|discriminate].
      - exists f, false. split; [unfold complete; rewrite G; reflexivity|discriminate]. }
    destruct Cx as [f' [ok [C H]]]. rewrite C. destruct ok; [|exact (B NU)].
    destruct (geo_eqb (fd_geo f') (Some g)) eqn:E; [|exact (B NU)]. apply geo_eqb_eq in E. destruct (H eq_refl E).
Qed.

(** ** The execute loop *)
Lemma displace_ok : forall value fd vs out,
  distinct_ids vs -> (forall i, In i (map fst vs) -> ~ In i (map fst out)) ->
  (forall i, In i (map fst vs) -> find i fd <> None) -> (forall p k, value p k <> None) ->
  exists d, displace value fd vs out = Some d /\
    (forall i, ~ In i (map fst vs) -> find i d = find i out) /\
    forall i p, In (i, p) vs -> exists k v, find i fd = Some k /\ value p k = Some v /\ find i d = Some v.
Proof.
  intros value fd vs. induction vs as [|[i p] r IH]; intros out N O F V; cbn [displace].
  - exists out. split; [reflexivity|]. split; [reflexivity|intros i p []].
  - destruct (find i fd) as [k|] eqn:Fi; [|destruct (F i (or_introl eq_refl) Fi)].
    destruct (value p k) as [v|] eqn:Ev; [|destruct (V _ _ Ev)].
    unfold insert. replace (exists_id i out) with false
      by (symmetry; apply exists_not; apply (O i); left; reflexivity).
    inversion N as [|? ? N1 N2]; subst.
    destruct (IH (out ++ [(i, v)])) as [d [D [Hn Hi]]]; [exact N2| | |exact V|].
    { intros j Hj. rewrite map_app. cbn. intros K. apply in_app_iff in K. destruct K as [K|[K|[]]].
      - apply (O j); [right; exact Hj|exact K].
      - subst j. exact (N1 Hj). }
    { intros j Hj. apply F. right. exact Hj. }
    exists d. split; [exact D|]. split.
    + intros j Hj. cbn in Hj. rewrite Hn; [|intros K; apply Hj; right; exact K]. rewrite find_app.
      destruct (find j out); [reflexivity|]. cbn. destruct (Nat.eqb i j) eqn:E; [|reflexivity].
      apply Nat.eqb_eq in E. destruct Hj. left. exact E.
    + intros j q [E|H].
      * injection E as <- <-. exists k, v. split; [exact Fi|]. split; [exact Ev|].
        rewrite Hn by exact N1. rewrite find_app.
        replace (find i out) with (@None vec) by (symmetry; apply find_none_iff, (O i); left; reflexivity).
        cbn. rewrite Nat.eqb_refl. reflexivity.
      * exact (Hi j q H).
Qed.

Lemma put_verts_same : forall h g vs, so_verts (put_verts h g vs g) = vs.
Proof. intros. unfold put_verts. rewrite Nat.eqb_refl. reflexivity. Qed.
Lemma put_verts_other : forall h g vs k, k <> g -> put_verts h g vs k = h k.
Proof. intros h g vs k H. unfold put_verts. apply Nat.eqb_neq in H. rewrite H. reflexivity. Qed.

Lemma moved_ids : forall F vs ws, moved F vs ws -> map fst ws = map fst vs.
Proof.
  intros F vs ws H. induction H as [|a b r s [E _] _ IH]; [reflexivity|]. cbn. rewrite E, IH. reflexivity.
Qed.

(** exec: every vertex moves by [value] with its weight; nothing else changes *)
Lemma exec_ok : forall value h m g, wf_store h -> distinct_ids (fd_data (m_filter m)) -> m_geo m = Some g ->
  (forall p k, value p k <> None) ->
  exists h' m', exec value h m = Some (h', m') /\ m_geo m' = Some g /\ distinct_ids (fd_data (m_filter m')) /\
    fd_loc (m_filter m') = LPoint /\ fd_geo (m_filter m') = Some g /\
    incl (map fst (fd_data (m_filter m'))) (vert_ids h g) /\
    (forall i, In i (vert_ids h g) -> exists k, find i (fd_data (m_filter m')) = Some k /\
        weight (so_verts (h g)) g (m_filter m) i k) /\
    (forall k, k <> g -> h' k = h k) /\
    moved (fun i p q => exists k v, weight (so_verts (h g)) g (m_filter m) i k /\ value p k = Some v /\ q = vadd p v)
      (so_verts (h g)) (so_verts (h' g)).
Proof.
  intros value h m g Nh N G V. unfold exec, execute. rewrite G.
  destruct (checkFilter_ok h g (m_filter m) Nh N) as [f [C [L [Gf [Nf [I W]]]]]]. rewrite C.
  destruct (displace_ok value (fd_data f) (so_verts (h g)) []) as [d [D [_ Hd]]]; [apply Nh|intros i _ []| |exact V|].
  { intros i Hi X. destruct (W i Hi) as [k [K _]]. rewrite K in X. discriminate. }
  rewrite D. eexists. eexists. split; [reflexivity|]. cbn [m_geo m_filter m_displ fd_data].
  split; [reflexivity|]. split; [exact Nf|]. split; [exact L|]. split; [exact Gf|]. split; [exact I|].
  split; [exact W|]. unfold apply. cbn [m_geo m_displ fd_data].
  split; [intros k Hk; apply put_verts_other; exact Hk|].
  rewrite put_verts_same. unfold moved.
  assert (X : forall vs, incl vs (so_verts (h g)) ->
    Forall2 (fun a b : nat * vec => fst a = fst b /\ (exists (k : R) (v : vec),
      weight (so_verts (h g)) g (m_filter m) (fst a) k /\ value (snd a) k = Some v /\ snd b = vadd (snd a) v))
      vs (map (move d) vs)).
  { induction vs as [|[i p] r IH]; intros Hi; [constructor|]. cbn [map]. constructor.
    - assert (Hp : In (i, p) (so_verts (h g))) by (apply Hi; left; reflexivity).
      destruct (Hd i p Hp) as [k [v [Fk [Ev Fv]]]]. unfold move. cbn [fst snd]. rewrite Fv. cbn [fst snd].
      split; [reflexivity|]. exists k, v.
      destruct (W i) as [k' [Fk' Wk]]; [apply in_map_iff; exists (i, p); split; [reflexivity|exact Hp]|].
      rewrite Fk in Fk'. injection Fk' as <-. auto.
    - apply IH. intros e He. apply Hi. right. exact He. }
  apply X. apply incl_refl.
Qed.

Lemma weight_fun : forall vs g f i k k', distinct_ids (fd_data f) -> weight vs g f i k -> weight vs g f i k' -> k = k'.
Proof.
  intros vs g f i k k' N [[U A]|[U A]] [[U' A']|[U' A']]; try contradiction.
  - rewrite (value_or_look _ _ _ _ _ N A), (value_or_look _ _ _ _ _ N A'). reflexivity.
  - congruence.
Qed.
