(** Proofs about the radial basis functions. *)
From Coq Require Import List Arith Bool Reals Lra Lia Sorted Permutation.
From Verif Require Import Vec SharedPtr Field FieldProofs Manip ManipSpec ManipProofs Rbf RbfSpec.
Import ListNotations.
Open Scope R_scope.

(** ** Sums *)
Lemma total_ext : forall f g n, (forall i, (i < n)%nat -> f i = g i) -> total f n = total g n.
Proof.
  intros f g n. induction n as [|n IH]; intros H; cbn [total]; [reflexivity|].
  rewrite IH by (intros i Hi; apply H; lia). rewrite H by lia. reflexivity.
Qed.
Lemma total_first : forall f n, total f (S n) = f 0%nat + total (fun i => f (S i)) n.
Proof.
  intros f n. induction n as [|n IH]; [cbn [total]; ring|]. change (total f (S (S n))) with (total f (S n) + f (S n)).
  rewrite IH. cbn [total]. ring.
Qed.
Lemma total_zero : forall f n, (forall i, (i < n)%nat -> f i = 0) -> total f n = 0.
Proof.
  intros f n H. induction n as [|n IH]; cbn [total]; [reflexivity|]. rewrite IH by (intros; apply H; lia).
  rewrite H by lia. ring.
Qed.

Lemma nth_tl : forall (l : list R) i, nth i (tl l) 0 = nth (S i) l 0.
Proof. intros [|a l] i; [destruct i; reflexivity|reflexivity]. Qed.

Lemma combination_cons : forall k e nodes radii w p,
  combination k (e :: nodes) radii w p =
  node_term k (e :: nodes) radii p w 0 + combination k nodes (tl radii) (fun i => w (S i)) p.
Proof.
  intros k e nodes radii w p. unfold combination. cbn [length]. rewrite total_first. f_equal.
  apply total_ext. intros i _. unfold node_term. cbn [nth_error]. destruct (nth_error nodes i) as [[x []]|]; try reflexivity.
  rewrite nth_tl. reflexivity.
Qed.
Lemma combination_ext : forall k nodes radii w w' p, (forall i, (i < length nodes)%nat -> w i = w' i) ->
  combination k nodes radii w p = combination k nodes radii w' p.
Proof.
  intros k nodes radii w w' p H. unfold combination. apply total_ext. intros i Hi. unfold node_term.
  rewrite (H i Hi). reflexivity.
Qed.

(** ** Evaluation of the sum at a point *)
Definition sound (p : vec) (nodes : list (vec * bool)) (radii w : list R) : Prop :=
  forall i x, nth_error nodes i = Some (x, true) ->
    exists r c, nth_error radii i = Some r /\ nth_error w i = Some c /\ (r = 0 -> norm (vsub p x) <> 0).
Lemma sound_cons : forall p x a nodes radii w, sound p ((x, a) :: nodes) radii w <->
  (a = true -> exists r c, nth_error radii 0 = Some r /\ nth_error w 0 = Some c /\ (r = 0 -> norm (vsub p x) <> 0)) /\
  sound p nodes (tl radii) (tl w).
Proof.
  intros p x a nodes radii w. split.
  - intros H. split.
    + intros ->. exact (H 0%nat x eq_refl).
    + intros i y E. destruct (H (S i) y E) as [r [c [A [B C]]]]. exists r, c.
      destruct radii as [|? radii]; [discriminate|]. destruct w as [|? w]; [discriminate|]. auto.
  - intros [H0 H] [|i] y E; cbn [nth_error] in E.
    + injection E as <- ->. exact (H0 eq_refl).
    + destruct (H i y E) as [r [c [A [B C]]]]. exists r, c.
      destruct radii as [|? radii]; [destruct i; discriminate|]. destruct w as [|? w]; [destruct i; discriminate|]. auto.
Qed.

Lemma eval_basis_ok : forall k p x r, (r = 0 -> norm (vsub p x) <> 0) ->
  eval_basis k (norm (vsub p x)) r = Some (influence k p x r).
Proof.
  intros k p x r H. unfold eval_basis, influence. change (dist p x) with (norm (vsub p x)).
  destruct (Req_EM_T r 0) as [E|]; [|reflexivity]. destruct (Req_EM_T (norm (vsub p x)) 0); [destruct (H E e)|reflexivity].
Qed.
Lemma eval_basis_none : forall k x r, eval_basis k x r = None <-> r = 0 /\ x = 0.
Proof.
  intros k x r. unfold eval_basis. destruct (Req_EM_T r 0); [destruct (Req_EM_T x 0)|]; split; try discriminate; tauto.
Qed.

Lemma eval_field_ok : forall k p nodes radii w acc, sound p nodes radii w ->
  eval_field k p nodes radii w acc = Some (acc + combination k nodes radii (fun i => nth i w 0) p).
Proof.
  intros k p nodes. induction nodes as [|[x a] nodes IH]; intros radii w acc H.
  - cbn [eval_field]. unfold combination. cbn [length total]. f_equal. ring.
  - apply sound_cons in H. destruct H as [H0 H]. rewrite combination_cons. cbn [eval_field]. destruct a.
    + destruct (H0 eq_refl) as [r [c [A [B C]]]]. destruct radii as [|r' radii]; [discriminate|]. destruct w as [|c' w]; [discriminate|].
      cbn [nth_error] in A, B. injection A as ->. injection B as ->. rewrite (eval_basis_ok k p x r C). cbn [tl] in H |- *.
      rewrite (IH radii w _ H). f_equal. unfold node_term. cbn [nth_error nth]. ring.
    + rewrite (IH _ _ acc H). f_equal. unfold node_term. cbn [nth_error].
      rewrite (combination_ext k nodes (tl radii) (fun i => nth i (tl w) 0) (fun i => nth (S i) w 0))
        by (intros i _; apply nth_tl). ring.
Qed.
Lemma eval_field_sound : forall k p nodes radii w acc v, eval_field k p nodes radii w acc = Some v -> sound p nodes radii w.
Proof.
  intros k p nodes. induction nodes as [|[x a] nodes IH]; intros radii w acc v H.
  - intros [|i] x E; discriminate.
  - apply sound_cons. cbn [eval_field] in H. destruct a.
    + destruct radii as [|r radii]; [discriminate|]. destruct w as [|c w]; [discriminate|].
      destruct (eval_basis k (norm (vsub p x)) r) as [b|] eqn:E; [|discriminate]. split; [|exact (IH _ _ _ _ H)].
      intros _. exists r, c. split; [reflexivity|]. split; [reflexivity|]. intros Z N.
      assert (X : eval_basis k (norm (vsub p x)) r = None) by (apply eval_basis_none; auto). congruence.
    + split; [discriminate|exact (IH _ _ _ _ H)].
Qed.

Lemma evalRBF_ok : forall k p nodes radii ws, (forall w, In w ws -> sound p nodes radii w) ->
  evalRBF k p nodes radii ws = Some (map (fun w => combination k nodes radii (fun i => nth i w 0) p) ws).
Proof.
  intros k p nodes radii ws. induction ws as [|w ws IH]; intros H; cbn [evalRBF map]; [reflexivity|].
  rewrite eval_field_ok by (apply H; left; reflexivity). rewrite IH by (intros; apply H; right; assumption).
  rewrite Rplus_0_l. reflexivity.
Qed.
Lemma evalRBF_sound : forall k p nodes radii ws l, evalRBF k p nodes radii ws = Some l ->
  forall w, In w ws -> sound p nodes radii w.
Proof.
  intros k p nodes radii ws. induction ws as [|w ws IH]; intros l H u Hu; [destruct Hu|].
  cbn [evalRBF] in H. destruct (eval_field k p nodes radii w 0) as [v|] eqn:E; [|discriminate].
  destruct (evalRBF k p nodes radii ws) as [l'|] eqn:E'; [|discriminate].
  destruct Hu as [<-|Hu]; [exact (eval_field_sound _ _ _ _ _ _ _ E)|exact (IH l' eq_refl u Hu)].
Qed.
Lemma evalRBF_val : forall k p nodes radii ws l, evalRBF k p nodes radii ws = Some l ->
  l = map (fun w => combination k nodes radii (fun i => nth i w 0) p) ws.
Proof.
  intros k p nodes radii ws l H. pose proof (evalRBF_sound _ _ _ _ _ _ H) as S'. rewrite (evalRBF_ok _ _ _ _ _ S') in H.
  injection H as <-. reflexivity.
Qed.

(** ** The loops on the vertices *)
Lemma eval_all_inv : forall A (read : list R -> option A) ev vs out l, distinct_ids vs ->
  (forall i, In i (map fst vs) -> ~ In i (map fst out)) -> eval_all read ev vs out = Some l ->
  map fst l = map fst out ++ map fst vs /\
  (forall i, ~ In i (map fst vs) -> find i l = find i out) /\
  forall i p, In (i, p) vs -> exists y v, ev p = Some y /\ read y = Some v /\ find i l = Some v.
Proof.
  intros A read ev vs. induction vs as [|[i p] vs IH]; intros out l N O H; cbn [eval_all] in H.
  - injection H as <-. rewrite app_nil_r. split; [reflexivity|]. split; [reflexivity|intros i p []].
  - destruct (ev p) as [y|] eqn:Ey; [|discriminate]. destruct (read y) as [v|] eqn:Ev; [|discriminate].
    unfold insert in H. rewrite (proj2 (exists_not i out)) in H by (apply O; left; reflexivity).
    inversion N as [|? ? N1 N2].
    destruct (IH (out ++ [(i, v)]) l N2) as [A1 [A2 A3]]; [|exact H|].
    { intros j Hj. rewrite map_app. cbn. intros K. apply in_app_iff in K. destruct K as [K|[K|[]]].
      - apply (O j); [right; exact Hj|exact K].
      - rewrite K in N1. exact (N1 Hj). }
    split; [rewrite A1, map_app, <- app_assoc; reflexivity|]. split.
    + intros j Hj. cbn in Hj. rewrite A2 by tauto. rewrite find_app. destruct (find j out); [reflexivity|].
      cbn. destruct (Nat.eqb i j) eqn:E; [apply Nat.eqb_eq in E; tauto|reflexivity].
    + intros j q [E|Hj].
      * injection E as <- <-. exists y, v. split; [exact Ey|]. split; [exact Ev|]. rewrite A2 by exact N1.
        rewrite find_app. rewrite (proj2 (find_none_iff _ i out)) by (apply (O i); left; reflexivity).
        cbn. rewrite Nat.eqb_refl. reflexivity.
      * exact (A3 j q Hj).
Qed.
Lemma eval_all_ok : forall A (read : list R -> option A) ev vs out, distinct_ids vs ->
  (forall i, In i (map fst vs) -> ~ In i (map fst out)) ->
  (forall i p, In (i, p) vs -> exists y v, ev p = Some y /\ read y = Some v) -> eval_all read ev vs out <> None.
Proof.
  intros A read ev vs. induction vs as [|[i p] vs IH]; intros out N O H; cbn [eval_all]; [discriminate|].
  destruct (H i p (or_introl eq_refl)) as [y [v [Ey Ev]]]. rewrite Ey, Ev.
  unfold insert. rewrite (proj2 (exists_not i out)) by (apply O; left; reflexivity). inversion N as [|? ? N1 N2].
  apply IH; [exact N2| |intros j q Hj; exact (H j q (or_intror Hj))].
  intros j Hj. rewrite map_app. cbn. intros K. apply in_app_iff in K. destruct K as [K|[K|[]]].
  - apply (O j); [right; exact Hj|exact K].
  - rewrite K in N1. exact (N1 Hj).
Qed.

Lemma filter_all_inv : forall A (mul : R -> A -> A) fd l l', filter_all mul fd l = Some l' ->
  map fst l' = map fst l /\ forall i v, find i l = Some v -> exists k, find i fd = Some k /\ find i l' = Some (mul k v).
Proof.
  intros A mul fd l. induction l as [|[i v] l IH]; intros l' H; cbn [filter_all] in H.
  - injection H as <-. split; [reflexivity|discriminate].
  - destruct (find i fd) as [k|] eqn:E; [|discriminate]. destruct (filter_all mul fd l) as [m|] eqn:F; [|discriminate].
    injection H as <-. destruct (IH m eq_refl) as [A1 A2]. split; [cbn; f_equal; exact A1|].
    intros j u Hj. cbn in Hj |- *. destruct (Nat.eqb i j) eqn:Ej.
    + apply Nat.eqb_eq in Ej. subst j. injection Hj as <-. exists k. split; [exact E|reflexivity].
    + exact (A2 j u Hj).
Qed.
Lemma filter_all_ok : forall A (mul : R -> A -> A) fd l, (forall i, In i (map fst l) -> find i fd <> None) ->
  filter_all mul fd l <> None.
Proof.
  intros A mul fd l. induction l as [|[i v] l IH]; intros H; cbn [filter_all]; [discriminate|].
  destruct (find i fd) as [k|] eqn:E; [|destruct (H i (or_introl eq_refl) E)].
  destruct (filter_all mul fd l); [discriminate|]. intros _. apply IH; [|reflexivity].
  intros j Hj. apply H. right. exact Hj.
Qed.

(** The filter of an execution *)
Definition filter_of (h : store) (g : nat) (r : rbf) : option (option (fld R)) :=
  if b_bfilter r then match checkFilter h g (b_filter r) with None => None | Some f => Some (Some f) end else Some None.
Lemma filter_of_ok : forall h g r, wf_store h -> distinct_ids (fd_data (b_filter r)) ->
  exists o, filter_of h g r = Some o /\
    forall i, In i (vert_ids h g) -> exists k, factor (so_verts (h g)) g r i k /\
      match o with None => k = 1 /\ b_bfilter r = false | Some f => find i (fd_data f) = Some k end.
Proof.
  intros h g r W N. unfold filter_of, factor. destruct (b_bfilter r).
  - destruct (checkFilter_ok h g (b_filter r) W N) as [f [E [_ [_ [_ [_ F]]]]]]. rewrite E. exists (Some f).
    split; [reflexivity|]. intros i Hi. destruct (F i Hi) as [k [A B]]. exists k. split; [left; auto|exact A].
  - exists None. split; [reflexivity|]. intros i _. exists 1. split; [right; auto|auto].
Qed.

Lemma active_distinct : forall (f : nat * vec -> bool) vs, distinct_ids vs -> distinct_ids (filter f vs).
Proof.
  intros f vs. unfold distinct_ids. induction vs as [|[i p] vs IH]; intros N; cbn [filter map]; [constructor|].
  inversion N as [|? ? N1 N2]. specialize (IH N2). destruct (f (i, p)); [|exact IH]. cbn [map]. constructor; [|exact IH].
  intros K. apply N1. apply in_map_iff in K. destruct K as [e [E He]]. apply filter_In in He. apply in_map_iff. exists e. tauto.
Qed.

Section FieldOf.
  Context {A : Type}.
  Variables (z : A) (mul : R -> A -> A) (read : list R -> option A) (ev : vec -> option (list R)).
  Variables (h : store) (g : nat) (r : rbf) (f : nat * vec -> bool).
  Hypothesis W : wf_store h.
  Hypothesis N : distinct_ids (fd_data (b_filter r)).
  Hypothesis mul1 : forall v, mul 1 v = v.

  Lemma field_of_inv : forall o F, filter_of h g r = Some o ->
    field_of z mul read ev h g (filter f (so_verts (h g))) o = Some F ->
    fd_geo F = Some g /\ fd_loc F = LPoint /\ distinct_ids (fd_data F) /\
    forall i p, In (i, p) (so_verts (h g)) ->
      if f (i, p) then exists k y v, factor (so_verts (h g)) g r i k /\ ev p = Some y /\ read y = Some v /\ In (i, mul k v) (fd_data F)
      else In (i, z) (fd_data F).
  Proof.
    intros o F Ho H. destruct (filter_of_ok h g r W N) as [o' [Ho' Ko]]. rewrite Ho in Ho'. injection Ho' as <-.
    unfold field_of in H. destruct (eval_all read ev (filter f (so_verts (h g))) []) as [l|] eqn:E; [|discriminate].
    assert (Nv := W g). assert (Na := active_distinct f _ Nv).
    destruct (eval_all_inv _ read ev _ [] l Na (fun _ _ K => K) E) as [M [Out Val]]. cbn [map List.app] in M.
    assert (Hl : exists l', match o with Some f0 => filter_all mul (fd_data f0) l | None => Some l end = Some l' /\
                 map fst l' = map fst l /\ forall i v, In i (vert_ids h g) -> find i l = Some v ->
                   exists k, factor (so_verts (h g)) g r i k /\ find i l' = Some (mul k v)).
    { destruct o as [f0|].
      - destruct (filter_all mul (fd_data f0) l) as [l'|] eqn:El; [|discriminate]. exists l'. split; [reflexivity|].
        destruct (filter_all_inv _ _ _ _ _ El) as [M' V']. split; [exact M'|]. intros i v Hi Hv.
        destruct (Ko i Hi) as [k [Fk Fi]]. destruct (V' i v Hv) as [k' [K1 K2]]. rewrite Fi in K1. injection K1 as <-.
        exists k. auto.
      - exists l. split; [reflexivity|]. split; [reflexivity|]. intros i v Hi Hv. destruct (Ko i Hi) as [k [Fk [-> _]]].
        exists 1. rewrite mul1. auto. }
    destruct Hl as [l' [El [M' V']]]. rewrite El in H.
    assert (I : incl (map fst l') (vert_ids h g)).
    { rewrite M', M. intros i Hi. apply in_map_iff in Hi. destruct Hi as [e [<- He]]. apply filter_In in He.
      apply in_map_iff. exists e. tauto. }
    assert (Nl : distinct_ids l').
    { unfold distinct_ids. rewrite M', M. exact Na. }
    destruct (complete_ok _ h g z (Fd (Some g) LPoint l') Nl Nv eq_refl I) as [c [C [Nc [Ic Fc]]]].
    rewrite C in H. injection H as <-. cbn [fd_geo fd_loc fd_data]. split; [reflexivity|]. split; [reflexivity|]. split; [exact Nc|].
    intros i p Hip.
    assert (Hi : In i (vert_ids h g)) by (apply in_map_iff; exists (i, p); auto).
    specialize (Fc i Hi). cbn [fd_data] in Fc. destruct (f (i, p)) eqn:Ef.
    - destruct (Val i p) as [y [v [Ey [Ev Fl]]]]; [apply filter_In; auto|].
      destruct (V' i v Hi Fl) as [k [Fk Fv]]. exists k, y, v. split; [exact Fk|]. split; [exact Ey|]. split; [exact Ev|].
      apply find_in. rewrite Fc. unfold look. rewrite Fv. reflexivity.
    - apply find_in. rewrite Fc. unfold look.
      replace (find i l') with (@None A); [reflexivity|]. symmetry. apply find_none_iff. rewrite M', M.
      intros K. apply in_map_iff in K. destruct K as [[j q] [Ej Hj]]. cbn in Ej. subst j. apply filter_In in Hj. destruct Hj as [Hj Hf].
      assert (q = p) by (pose proof (in_find _ _ _ _ Nv Hj) as X1; pose proof (in_find _ _ _ _ Nv Hip) as X2; congruence).
      congruence.
  Qed.

  Lemma field_of_ok : forall o, filter_of h g r = Some o ->
    (forall i p, In (i, p) (so_verts (h g)) -> f (i, p) = true -> exists y v, ev p = Some y /\ read y = Some v) ->
    field_of z mul read ev h g (filter f (so_verts (h g))) o <> None.
  Proof.
    intros o Ho H. destruct (filter_of_ok h g r W N) as [o' [Ho' Ko]]. rewrite Ho in Ho'. injection Ho' as <-.
    assert (Nv := W g). assert (Na := active_distinct f _ Nv). unfold field_of.
    destruct (eval_all read ev (filter f (so_verts (h g))) []) as [l|] eqn:E.
    2:{ destruct (eval_all_ok _ read ev _ [] Na (fun _ _ K => K)) as []; [|exact E].
        intros i p Hip. apply filter_In in Hip. destruct Hip. exact (H i p H0 H1). }
    destruct (eval_all_inv _ read ev _ [] l Na (fun _ _ K => K) E) as [M _]. cbn [map List.app] in M.
    assert (I : incl (map fst l) (vert_ids h g)).
    { rewrite M. intros i Hi. apply in_map_iff in Hi. destruct Hi as [e [<- He]]. apply filter_In in He.
      apply in_map_iff. exists e. tauto. }
    assert (Hl : exists l', match o with Some f0 => filter_all mul (fd_data f0) l | None => Some l end = Some l' /\ map fst l' = map fst l).
    { destruct o as [f0|]; [|exists l; auto]. destruct (filter_all mul (fd_data f0) l) as [l'|] eqn:El.
      - exists l'. split; [reflexivity|]. exact (proj1 (filter_all_inv _ _ _ _ _ El)).
      - destruct (filter_all_ok _ mul (fd_data f0) l) as []; [|exact El]. intros i Hi. destruct (Ko i (I i Hi)) as [k [_ ->]]. discriminate. }
    destruct Hl as [l' [-> M']].
    destruct (complete_ok _ h g z (Fd (Some g) LPoint l')) as [c [C _]]; [|exact Nv|reflexivity| |rewrite C; discriminate].
    - unfold distinct_ids. cbn [fd_data]. rewrite M', M. exact Na.
    - cbn [fd_data]. rewrite M'. exact I.
  Qed.
End FieldOf.

(** ** The bounding box and the restriction to the supports *)
Lemma low_least : forall f ps, ps <> [] -> least f ps (low f ps).
Proof.
  intros f [|a ps] H; [destruct (H eq_refl)|]. clear H. cbn [low].
  assert (X : forall l m, (exists p, In p l /\ f p = fold_left (fun m p => Rmin m (f p)) l m) \/ fold_left (fun m p => Rmin m (f p)) l m = m).
  { induction l as [|b l IH]; intros m; cbn [fold_left]; [right; reflexivity|].
    destruct (IH (Rmin m (f b))) as [[p [H1 H2]]|H]; [left; exists p; split; [right; exact H1|exact H2]|].
    rewrite H. unfold Rmin. destruct (Rle_dec m (f b)); [right; reflexivity|left; exists b; split; [left; reflexivity|reflexivity]]. }
  assert (Y : forall l m, fold_left (fun m p => Rmin m (f p)) l m <= m /\ forall p, In p l -> fold_left (fun m p => Rmin m (f p)) l m <= f p).
  { induction l as [|b l IH]; intros m; cbn [fold_left]; [split; [lra|intros p []]|].
    destruct (IH (Rmin m (f b))) as [H1 H2]. pose proof (Rmin_l m (f b)). pose proof (Rmin_r m (f b)).
    split; [lra|]. intros p [->|Hp]; [lra|exact (H2 p Hp)]. }
  split.
  - destruct (X ps (f a)) as [[p [H1 H2]]|H]; [exists p; split; [right; exact H1|exact H2]|exists a; split; [left; reflexivity|rewrite H; reflexivity]].
  - destruct (Y ps (f a)) as [H1 H2]. intros p [<-|Hp]; [exact H1|exact (H2 p Hp)].
Qed.
Lemma high_greatest : forall f ps, ps <> [] -> greatest f ps (high f ps).
Proof.
  intros f [|a ps] H; [destruct (H eq_refl)|]. clear H. cbn [high].
  assert (X : forall l m, (exists p, In p l /\ f p = fold_left (fun m p => Rmax m (f p)) l m) \/ fold_left (fun m p => Rmax m (f p)) l m = m).
  { induction l as [|b l IH]; intros m; cbn [fold_left]; [right; reflexivity|].
    destruct (IH (Rmax m (f b))) as [[p [H1 H2]]|H]; [left; exists p; split; [right; exact H1|exact H2]|].
    rewrite H. unfold Rmax. destruct (Rle_dec m (f b)); [left; exists b; split; [left; reflexivity|reflexivity]|right; reflexivity]. }
  assert (Y : forall l m, m <= fold_left (fun m p => Rmax m (f p)) l m /\ forall p, In p l -> f p <= fold_left (fun m p => Rmax m (f p)) l m).
  { induction l as [|b l IH]; intros m; cbn [fold_left]; [split; [lra|intros p []]|].
    destruct (IH (Rmax m (f b))) as [H1 H2]. pose proof (Rmax_l m (f b)). pose proof (Rmax_r m (f b)).
    split; [lra|]. intros p [->|Hp]; [lra|exact (H2 p Hp)]. }
  split.
  - destruct (X ps (f a)) as [[p [H1 H2]]|H]; [exists p; split; [right; exact H1|exact H2]|exists a; split; [left; reflexivity|rewrite H; reflexivity]].
  - destruct (Y ps (f a)) as [H1 H2]. intros p [<-|Hp]; [exact H1|exact (H2 p Hp)].
Qed.
Lemma least_fun : forall f ps a b, least f ps a -> least f ps b -> a = b.
Proof. intros f ps a b [[p [P1 P2]] A] [[q [Q1 Q2]] B]. specialize (A q Q1). specialize (B p P1). lra. Qed.
Lemma greatest_fun : forall f ps a b, greatest f ps a -> greatest f ps b -> a = b.
Proof. intros f ps a b [[p [P1 P2]] A] [[q [Q1 Q2]] B]. specialize (A q Q1). specialize (B p P1). lra. Qed.

Lemma box_diagonal : forall ps, ps <> [] -> diagonal ps (box_diag ps).
Proof.
  intros ps H. exists (V3 (low vx ps) (low vy ps) (low vz ps)), (V3 (high vx ps) (high vy ps) (high vz ps)). cbn [vx vy vz].
  repeat (split; [first [apply low_least|apply high_greatest]; exact H|]). reflexivity.
Qed.
Lemma diagonal_fun : forall ps a b, diagonal ps a -> diagonal ps b -> a = b.
Proof.
  intros ps a b [lo [hi [A1 [A2 [A3 [A4 [A5 [A6 ->]]]]]]]] [lo' [hi' [B1 [B2 [B3 [B4 [B5 [B6 ->]]]]]]]].
  destruct lo as [a1 a2 a3], hi as [b1 b2 b3], lo' as [c1 c2 c3], hi' as [d1 d2 d3]; cbn [vx vy vz] in *;
  f_equal; f_equal; eauto using least_fun, greatest_fun.
Qed.
Lemma diagonal_nonneg : forall ps d, diagonal ps d -> 0 <= d.
Proof. intros ps d [lo [hi [_ [_ [_ [_ [_ [_ ->]]]]]]]]. apply sqrt_pos. Qed.

Lemma max_radius_le : forall radii M, 0 <= M -> (max_radius radii <= M <-> forall r, In r radii -> r <= M).
Proof.
  intros radii M HM. unfold max_radius.
  assert (X : forall l m, m <= M -> (fold_left (fun m x => if Rlt_dec m x then x else m) l m <= M <-> forall r, In r l -> r <= M)).
  { induction l as [|a l IH]; intros m Hm; cbn [fold_left]; [split; [intros _ r []|auto]|].
    destruct (Rle_dec a M) as [Ha|Ha].
    - destruct (Rlt_dec m a) as [Hl|Hl].
      + rewrite (IH a Ha). split; [intros H r [<-|Hr]; auto|intros H r Hr; apply H; right; exact Hr].
      + rewrite (IH m Hm). split; [intros H r [<-|Hr]; auto|intros H r Hr; apply H; right; exact Hr].
    - split; [|intros H; destruct Ha; apply H; left; reflexivity]. intros H. exfalso.
      destruct (Rlt_dec m a); [|lra].
      assert (Y : forall l m, m <= fold_left (fun m x => if Rlt_dec m x then x else m) l m).
      { induction l0 as [|b l0 IH0]; intros m0; cbn [fold_left]; [lra|]. destruct (Rlt_dec m0 b); [specialize (IH0 b); lra|apply IH0]. }
      specialize (Y l a). lra. }
  exact (X radii 0 HM).
Qed.

Lemma compact_run_iff : forall ps p radii, ps <> [] -> 0 <= p_diag p ->
  is_compact_run (box_diag ps) p radii = true <-> restricted ps p radii.
Proof.
  intros ps p radii N D. pose proof (box_diagonal ps N) as B. pose proof (diagonal_nonneg _ _ B) as Bn.
  assert (M : 0 <= p_diag p * box_diag ps) by (apply Rmult_le_pos; assumption).
  pose proof (max_radius_le radii _ M) as K. unfold is_compact_run, restricted. rewrite andb_true_iff. split.
  - intros [C H]. split; [exact C|]. exists (box_diag ps). split; [exact B|]. apply K.
    destruct (Rlt_dec (p_diag p * box_diag ps) (max_radius radii)); [discriminate|lra].
  - intros [C [d [Hd H]]]. split; [exact C|]. rewrite (diagonal_fun _ _ _ Hd B) in H. apply K in H.
    destruct (Rlt_dec (p_diag p * box_diag ps) (max_radius radii)); [lra|reflexivity].
Qed.

Lemma nth_error_combine : forall A B (l : list A) (m : list B) i a b,
  nth_error (combine l m) i = Some (a, b) <-> nth_error l i = Some a /\ nth_error m i = Some b.
Proof.
  intros A B l. induction l as [|x l IH]; intros m i a b.
  - cbn. split; [destruct i; discriminate|intros [H _]; destruct i; discriminate].
  - destruct m as [|y m]; [cbn; split; [destruct i; discriminate|intros [_ H]; destruct i; discriminate]|].
    destruct i as [|i]; cbn [combine nth_error]; [|apply IH]. split; [intros H; injection H as -> ->; auto|intros [H1 H2]; congruence].
Qed.
Lemma near_iff : forall nodes radii p, near nodes radii p = true <-> supported nodes radii p.
Proof.
  intros nodes radii p. unfold near, supported. rewrite existsb_exists. split.
  - intros [[e r] [He H]]. cbn [fst snd] in H. destruct (Rle_dec _ r) as [L|]; [|discriminate].
    apply In_nth_error in He. destruct He as [i Hi]. apply nth_error_combine in Hi. exists i, e, r. tauto.
  - intros [i [e [r [A [B L]]]]]. exists (e, r). split.
    + apply nth_error_In with i. apply nth_error_combine. auto.
    + cbn [fst snd]. change (dist p (fst e)) with (norm (vsub p (fst e))) in L. destruct (Rle_dec _ r); [reflexivity|contradiction].
Qed.

(** ** Executions *)
Lemma fit_length : forall A (z : A) n l, length (fit z n l) = n.
Proof. intros A z n. induction n as [|n IH]; intros [|a l]; cbn [fit length]; rewrite ?IH; reflexivity. Qed.
Lemma fit_nth : forall A (z : A) n l i, (i < n)%nat -> nth i (fit z n l) z = nth i l z.
Proof.
  intros A z n. induction n as [|n IH]; intros l i Hi; [lia|]. destruct l as [|a l]; destruct i as [|i]; cbn [fit nth]; try reflexivity.
  - rewrite IH by lia. destruct i; reflexivity.
  - apply IH. lia.
Qed.
Lemma set_flags_length : forall nodes fl, length (set_flags nodes fl) = length nodes.
Proof. induction nodes as [|[x a] nodes IH]; intros fl; cbn [set_flags length]; [reflexivity|]. rewrite IH. reflexivity. Qed.
Lemma set_flags_pos : forall nodes fl, map fst (set_flags nodes fl) = map fst nodes.
Proof. induction nodes as [|[x a] nodes IH]; intros fl; cbn [set_flags map fst]; [reflexivity|]. rewrite IH. reflexivity. Qed.

Definition run_data (r : rbf) : list (list R) := map (fit 0 (length (i_nodes (b_in r)))) (i_data (b_in r)).
Definition run_diag (h : store) (g : nat) : R := box_diag (map snd (so_verts (h g))).
Definition run_radii (h : store) (g : nat) (r : rbf) : list R * R :=
  effective_radii (run_diag h g) (length (i_nodes (b_in r))) (run_data r) (b_par r).
Definition run_solve (O : oracle) (h : store) (g : nat) (r : rbf) : list (vec * bool) * list (list R) :=
  let base := snd (run_radii h g r) in let p := b_par r in
  match p_mode p with
  | MNone => (i_nodes (b_in r), run_data r)
  | MWhole => (i_nodes (b_in r), o_solve O (i_nodes (b_in r)) (p_kernel p) base (run_data r))
  | MGreedy => let (fl, ws) := o_greedy O (p_tol p) (i_nodes (b_in r)) (p_kernel p) base (run_data r) in
               (set_flags (i_nodes (b_in r)) fl, ws)
  end.
Definition run_active (O : oracle) (h : store) (g : nat) (r : rbf) (e : nat * vec) : bool :=
  if is_compact_run (run_diag h g) (b_par r) (fst (run_radii h g r))
  then near (fst (run_solve O h g r)) (fst (run_radii h g r)) (snd e) else true.
Definition run_ev (O : oracle) (h : store) (g : nat) (r : rbf) (x : vec) : option (list R) :=
  evalRBF (p_kernel (b_par r)) x (fst (run_solve O h g r)) (fst (run_radii h g r)) (snd (run_solve O h g r)).
Definition run_done (O : oracle) (h : store) (g : nat) (r : rbf) (filt : option (fld R)) (d : fld vec) (s : fld R) : rbf :=
  let i := b_in r in let p := b_par r in
  Rb (Ri (fst (run_solve O h g r)) (run_data r) (i_scalar i) (i_geo i) (i_displ i) (i_scal i) (i_radii i))
     (Rp (p_mode p) (p_kernel p) (p_compact p) (p_diag p) (p_tol p) (p_value p) (p_real p) (p_radii p) (snd (run_radii h g r)))
     (Rr d s (fst (run_radii h g r)) (snd (run_solve O h g r))) (b_geo r) (match filt with None => b_filter r | Some f => f end) (b_bfilter r).

Lemma filter_true : forall A (l : list A), filter (fun _ => true) l = l.
Proof. intros A l. induction l as [|a l IH]; cbn [filter]; [reflexivity|]. rewrite IH. reflexivity. Qed.

Lemma rbf_run_eq : forall O h g r, rbf_run O h g r =
  match filter_of h g r with
  | None => None
  | Some filt =>
      let act := filter (run_active O h g r) (so_verts (h g)) in
      if i_scalar (b_in r) then
        match field_of 0 Rmult read_scalar (run_ev O h g r) h g act filt with
        | None => None | Some f => Some (run_done O h g r filt no_field f) end
      else
        match field_of vzero vscale read_vector (run_ev O h g r) h g act filt with
        | None => None | Some f => Some (run_done O h g r filt f no_field) end
  end.
Proof.
  intros O h g r. unfold rbf_run, filter_of, run_done, run_ev, run_active, run_solve, run_radii, run_diag, run_data.
  destruct (effective_radii _ _ _ _) as [radii base]. cbn [fst snd].
  destruct (p_mode (b_par r)); [| |destruct (o_greedy _ _ _ _ _ _) as [fl ws]]; cbn [fst snd];
    (destruct (is_compact_run _ _ _); [reflexivity|rewrite filter_true; reflexivity]).
Qed.

Lemma run_active_iff : forall O h g r id p, In (id, p) (so_verts (h g)) -> 0 <= p_diag (b_par r) ->
  (run_active O h g r (id, p) = true <->
   (~ restricted (map snd (so_verts (h g))) (b_par r) (fst (run_radii h g r)) \/
    supported (fst (run_solve O h g r)) (fst (run_radii h g r)) p)).
Proof.
  intros O h g r id p Hp D. assert (N : map snd (so_verts (h g)) <> []).
  { intros E. apply (in_map snd) in Hp. rewrite E in Hp. destruct Hp. }
  pose proof (compact_run_iff _ (b_par r) (fst (run_radii h g r)) N D) as C. unfold run_active, run_diag.
  destruct (is_compact_run _ _ _).
  - cbn [snd]. rewrite near_iff. split; [tauto|]. intros [H|H]; [|exact H]. destruct H. apply C. reflexivity.
  - split; [|reflexivity]. intros _. left. intros K. apply C in K. discriminate.
Qed.

Lemma run_vector : forall O h g r r', wf_store h -> distinct_ids (fd_data (b_filter r)) -> 0 <= p_diag (b_par r) ->
  rbf_run O h g r = Some r' -> i_scalar (b_in r) = false ->
  let k := p_kernel (b_par r) in let nodes := fst (run_solve O h g r) in let radii := fst (run_radii h g r) in
  let W := snd (run_solve O h g r) in
  exists filt d, r' = run_done O h g r filt d no_field /\ fd_geo d = Some g /\ fd_loc d = LPoint /\ distinct_ids (fd_data d) /\
  forall id p, In (id, p) (so_verts (h g)) ->
    ((~ restricted (map snd (so_verts (h g))) (b_par r) radii \/ supported nodes radii p) ->
      (3 <= length W)%nat /\ (forall w, In w W -> sound p nodes radii w) /\
      exists c, factor (so_verts (h g)) g r id c /\
        In (id, vscale c (V3 (combination k nodes radii (fun i => nth i (nth 0 W []) 0) p)
                             (combination k nodes radii (fun i => nth i (nth 1 W []) 0) p)
                             (combination k nodes radii (fun i => nth i (nth 2 W []) 0) p))) (fd_data d)) /\
    (restricted (map snd (so_verts (h g))) (b_par r) radii -> ~ supported nodes radii p -> In (id, vzero) (fd_data d)).
Proof.
  intros O h g r r' Wh N D H Sc k nodes radii W. rewrite rbf_run_eq in H. rewrite Sc in H.
  destruct (filter_of h g r) as [filt|] eqn:Ef; [|discriminate]. cbv zeta in H.
  destruct (field_of _ _ _ _ _ _ _ _) as [d|] eqn:Ed in H; [|discriminate]. injection H as <-. exists filt, d. split; [reflexivity|].
  destruct (field_of_inv vzero vscale read_vector (run_ev O h g r) h g r (run_active O h g r) Wh N) with (o := filt) (F := d)
    as [A1 [A2 [A3 A4]]]; [intros [a b c]; unfold vscale; cbn [vx vy vz]; rewrite !Rmult_1_l; reflexivity|exact Ef|exact Ed|].
  split; [exact A1|]. split; [exact A2|]. split; [exact A3|]. intros id p Hp. specialize (A4 id p Hp).
  pose proof (run_active_iff O h g r id p Hp D) as B. fold radii nodes in B. destruct (run_active O h g r (id, p)).
  - split; [|tauto]. intros _. destruct A4 as [c [y [v [Fc [Ey [Rv I]]]]]]. unfold run_ev in Ey. fold k nodes radii W in Ey.
    pose proof (evalRBF_sound _ _ _ _ _ _ Ey) as S'. pose proof (evalRBF_val _ _ _ _ _ _ Ey) as V. clear Ey. subst y.
    destruct W as [|w0 [|w1 [|w2 W]]]; try discriminate. cbn [map read_vector] in Rv. injection Rv as <-.
    split; [cbn; lia|]. split; [exact S'|]. exists c. split; [exact Fc|exact I].
  - split; [|intros _ _; exact A4]. intros K. apply B in K. discriminate.
Qed.

Lemma run_scalar : forall O h g r r', wf_store h -> distinct_ids (fd_data (b_filter r)) -> 0 <= p_diag (b_par r) ->
  rbf_run O h g r = Some r' -> i_scalar (b_in r) = true ->
  let k := p_kernel (b_par r) in let nodes := fst (run_solve O h g r) in let radii := fst (run_radii h g r) in
  let W := snd (run_solve O h g r) in
  exists filt d, r' = run_done O h g r filt no_field d /\ fd_geo d = Some g /\ fd_loc d = LPoint /\ distinct_ids (fd_data d) /\
  forall id p, In (id, p) (so_verts (h g)) ->
    ((~ restricted (map snd (so_verts (h g))) (b_par r) radii \/ supported nodes radii p) ->
      (1 <= length W)%nat /\ (forall w, In w W -> sound p nodes radii w) /\
      exists c, factor (so_verts (h g)) g r id c /\
        In (id, c * combination k nodes radii (fun i => nth i (nth 0 W []) 0) p) (fd_data d)) /\
    (restricted (map snd (so_verts (h g))) (b_par r) radii -> ~ supported nodes radii p -> In (id, 0) (fd_data d)).
Proof.
  intros O h g r r' Wh N D H Sc k nodes radii W. rewrite rbf_run_eq in H. rewrite Sc in H.
  destruct (filter_of h g r) as [filt|] eqn:Ef; [|discriminate]. cbv zeta in H.
  destruct (field_of _ _ _ _ _ _ _ _) as [d|] eqn:Ed in H; [|discriminate]. injection H as <-. exists filt, d. split; [reflexivity|].
  destruct (field_of_inv 0 Rmult read_scalar (run_ev O h g r) h g r (run_active O h g r) Wh N) with (o := filt) (F := d)
    as [A1 [A2 [A3 A4]]]; [intros v; apply Rmult_1_l|exact Ef|exact Ed|].
  split; [exact A1|]. split; [exact A2|]. split; [exact A3|]. intros id p Hp. specialize (A4 id p Hp).
  pose proof (run_active_iff O h g r id p Hp D) as B. fold radii nodes in B. destruct (run_active O h g r (id, p)).
  - split; [|tauto]. intros _. destruct A4 as [c [y [v [Fc [Ey [Rv I]]]]]]. unfold run_ev in Ey. fold k nodes radii W in Ey.
    pose proof (evalRBF_sound _ _ _ _ _ _ Ey) as S'. pose proof (evalRBF_val _ _ _ _ _ _ Ey) as V. clear Ey. subst y.
    destruct W as [|w0 W]; try discriminate. cbn [map read_scalar] in Rv. injection Rv as <-.
    split; [cbn; lia|]. split; [exact S'|]. exists c. split; [exact Fc|exact I].
  - split; [|intros _ _; exact A4]. intros K. apply B in K. discriminate.
Qed.

Lemma execute_list : forall O h r g, b_geo r = Some g -> i_geo (b_in r) = None -> rbf_execute O h r = rbf_run O h g r.
Proof. intros O h r g G I. unfold rbf_execute. rewrite G, I. reflexivity. Qed.

Lemma map_nth0 : forall (f : vec -> R) D i, f vzero = 0 -> nth i (map f D) 0 = f (nth i D vzero).
Proof. intros f D i F. rewrite <- F at 1. apply map_nth. Qed.

Lemma factor_exists : forall h g r i, wf_store h -> distinct_ids (fd_data (b_filter r)) -> In i (vert_ids h g) ->
  exists c, factor (so_verts (h g)) g r i c.
Proof.
  intros h g r i W N I. destruct (filter_of_ok h g r W N) as [o [_ K]]. destruct (K i I) as [c [F _]]. exists c. exact F.
Qed.
Lemma factor_fun : forall vs g r i a b, distinct_ids (fd_data (b_filter r)) ->
  factor vs g r i a -> factor vs g r i b -> a = b.
Proof.
  intros vs g r i a b N [[A1 A2]|[A1 A2]] [[B1 B2]|[B1 B2]]; try congruence.
  destruct A2 as [[UA VA]|[NA ->]], B2 as [[UB VB]|[NB ->]]; try tauto.
  rewrite (value_or_look _ _ _ _ _ N VA), (value_or_look _ _ _ _ _ N VB). reflexivity.
Qed.

(** The lists of the components of displacements, resized to the nodes *)
Lemma fitted_combination : forall k nodes radii (f : vec -> R) D p, f vzero = 0 ->
  combination k nodes radii (fun i => nth i (fit 0 (length nodes) (map f D)) 0) p =
  combination k nodes radii (fun i => f (nth i D vzero)) p.
Proof.
  intros k nodes radii f D p F. apply combination_ext. intros i Hi. rewrite fit_nth by exact Hi. apply map_nth0, F.
Qed.

Lemma parametrization : forall O h r0 D g r', wf_store h -> distinct_ids (fd_data (b_filter r0)) -> 0 <= p_diag (b_par r0) ->
  p_mode (b_par r0) = MNone -> b_geo r0 = Some g -> i_geo (b_in r0) = None ->
  rbf_execute O h (setDisplacements D r0) = Some r' ->
  exists d, getDisplacements r' = Some d /\ fd_geo d = Some g /\ fd_loc d = LPoint /\ distinct_ids (fd_data d) /\
  e_displ (b_res r') = d /\ i_scalar (b_in r') = false /\ b_geo r' = Some g /\
  forall id p, In (id, p) (so_verts (h g)) -> exists c, factor (so_verts (h g)) g r0 id c /\
    (supported (i_nodes (b_in r0)) (getRadii r') p \/ ~ restricted (map snd (so_verts (h g))) (b_par r0) (getRadii r') ->
     In (id, vscale c (vec_combination (p_kernel (b_par r0)) (i_nodes (b_in r0)) (getRadii r') D p)) (fd_data d)) /\
    (~ supported (i_nodes (b_in r0)) (getRadii r') p -> restricted (map snd (so_verts (h g))) (b_par r0) (getRadii r') ->
     In (id, vzero) (fd_data d)).
Proof.
  intros O h r0 D g r' W N Dg M G I H. rewrite (execute_list _ _ _ g) in H by assumption.
  set (r := setDisplacements D r0) in *. destruct (run_vector O h g r r' W N Dg H eq_refl) as [filt [d [-> [A1 [A2 [A3 A4]]]]]].
  exists d. split; [reflexivity|]. split; [exact A1|]. split; [exact A2|]. split; [exact A3|]. split; [reflexivity|].
  split; [reflexivity|]. split; [exact G|].
  intros id p Hp. destruct (A4 id p Hp) as [B1 B2]. unfold getRadii. cbn [run_done b_res e_radii].
  assert (Es : run_solve O h g r = (i_nodes (b_in r0), run_data r)).
  { unfold run_solve. change (p_mode (b_par r)) with (p_mode (b_par r0)). rewrite M. reflexivity. }
  rewrite Es in B1, B2. cbn [fst snd] in B1, B2. change (b_par r) with (b_par r0) in B1, B2.
  destruct (factor_exists h g r0 id W N) as [c Fc]; [apply in_map_iff; exists (id, p); auto|].
  exists c. split; [exact Fc|]. split; [|intros H1 H2; exact (B2 H2 H1)].
  intros K. destruct (B1 ltac:(tauto)) as [_ [_ [c' [Fc' V]]]].
  assert (c' = c) by exact (factor_fun _ _ _ _ _ _ N Fc' Fc). subst c'. unfold vec_combination.
  unfold run_data, r in V. cbn [setDisplacements put_in b_in i_nodes i_data map nth] in V.
  rewrite !fitted_combination in V by reflexivity. exact V.
Qed.

(** ** Moves *)
Lemma find_move : forall d i p, move d (i, p) = match find i d with None => (i, p) | Some v => (i, vadd p v) end.
Proof. reflexivity. Qed.
Lemma moved_map : forall F d vs, (forall i p, In (i, p) vs -> exists v, find i d = Some v /\ F i p (vadd p v)) ->
  moved F vs (map (move d) vs).
Proof.
  intros F d vs. unfold moved. induction vs as [|[i p] vs IH]; intros H; cbn [map]; constructor.
  - rewrite find_move. destruct (H i p (or_introl eq_refl)) as [v [-> K]]. split; [reflexivity|exact K].
  - apply IH. intros j q Hj. apply H. right. exact Hj.
Qed.

Lemma vscale_zero : forall c, vscale c vzero = vzero.
Proof. intros c. unfold vscale, vzero. cbn [vx vy vz]. rewrite Rmult_0_r. reflexivity. Qed.
Lemma vadd_zero : forall p, vadd p vzero = p.
Proof. intros [a b c]. unfold vadd, vzero. cbn [vx vy vz]. rewrite !Rplus_0_r. reflexivity. Qed.

Lemma supported_dec : forall nodes radii p, supported nodes radii p \/ ~ supported nodes radii p.
Proof.
  intros. destruct (near nodes radii p) eqn:E; [left; apply near_iff; exact E|right; intros K; apply near_iff in K; congruence].
Qed.

(** ** A null sum *)
Lemma combination_outside : forall k nodes radii w p, length radii = length nodes -> (forall r, In r radii -> 0 <= r) ->
  (forall d, 1 < d -> k_fun k d = 0) -> k_inf k = 0 -> ~ supported nodes radii p -> combination k nodes radii w p = 0.
Proof.
  intros k nodes radii w p L P Z Zi H. unfold combination. apply total_zero. intros i Hi. unfold node_term.
  destruct (nth_error nodes i) as [[x []]|] eqn:E; try reflexivity.
  assert (Er : nth_error radii i = Some (nth i radii 0)) by (apply nth_error_nth'; lia).
  assert (Hr : 0 <= nth i radii 0) by (apply P; eapply nth_error_In; exact Er).
  unfold influence. destruct (Req_EM_T (nth i radii 0) 0) as [|Nz]; [rewrite Zi; ring|]. rewrite Z; [ring|].
  destruct (Rle_dec (dist p x) (nth i radii 0)) as [Le|Gt].
  - destruct H. exists i, (x, true), (nth i radii 0). auto.
  - apply Rmult_lt_reg_r with (nth i radii 0); [lra|]. unfold Rdiv. rewrite Rmult_assoc, Rinv_l by exact Nz. lra.
Qed.

Lemma effective_length : forall diag n data p, length (fst (effective_radii diag n data p)) = n.
Proof.
  intros. unfold effective_radii. destruct (p_radii p); cbn [fst]; [apply repeat_length|apply fit_length].
Qed.
Lemma run_radii_of : forall O h g r r', rbf_run O h g r = Some r' -> getRadii r' = fst (run_radii h g r).
Proof.
  intros O h g r r' H. rewrite rbf_run_eq in H. destruct (filter_of h g r); [|discriminate]. cbv zeta in H.
  destruct (i_scalar (b_in r)); destruct (field_of _ _ _ _ _ _ _ _) in H; try discriminate; injection H as <-; reflexivity.
Qed.

(** ** Which executions are defined *)
Lemma run_defined : forall O h g r, wf_store h -> distinct_ids (fd_data (b_filter r)) -> p_mode (b_par r) = MNone ->
  (if i_scalar (b_in r) then 1 <= length (i_data (b_in r)) else 3 <= length (i_data (b_in r)))%nat ->
  (forall id p i x, In (id, p) (so_verts (h g)) -> nth_error (i_nodes (b_in r)) i = Some (x, true) ->
     nth i (fst (run_radii h g r)) 0 = 0 -> norm (vsub p x) <> 0) ->
  exists r', rbf_run O h g r = Some r'.
Proof.
  intros O h g r W N M L H. rewrite rbf_run_eq. destruct (filter_of_ok h g r W N) as [o [Eo _]]. rewrite Eo. cbv zeta.
  assert (Es : run_solve O h g r = (i_nodes (b_in r), run_data r)) by (unfold run_solve; rewrite M; reflexivity).
  assert (Ev : forall id p, In (id, p) (so_verts (h g)) -> exists y, run_ev O h g r p = Some y /\ length y = length (i_data (b_in r))).
  { intros id p Hp. unfold run_ev. rewrite Es. cbn [fst snd]. eexists. split.
    - apply evalRBF_ok. intros w Hw i x Hx. assert (Hi : (i < length (i_nodes (b_in r)))%nat) by (apply nth_error_Some; congruence).
      exists (nth i (fst (run_radii h g r)) 0), (nth i w 0). split; [|split].
      + apply nth_error_nth'. unfold run_radii. rewrite effective_length. exact Hi.
      + apply nth_error_nth'. unfold run_data in Hw. apply in_map_iff in Hw. destruct Hw as [d [<- _]]. rewrite fit_length. exact Hi.
      + exact (H id p i x Hp Hx).
    - rewrite map_length. unfold run_data. apply map_length. }
  destruct (i_scalar (b_in r)).
  - destruct (field_of _ _ _ _ _ _ _ _) as [f|] eqn:F; [eexists; reflexivity|].
    exfalso. revert F. apply (field_of_ok 0 Rmult) with (r := r); [exact W|exact N|exact Eo|].
    intros id p Hp _. destruct (Ev id p Hp) as [y [E Ly]]. exists y. destruct y as [|a y]; [cbn in Ly; lia|]. exists a. auto.
  - destruct (field_of _ _ _ _ _ _ _ _) as [f|] eqn:F; [eexists; reflexivity|].
    exfalso. revert F. apply (field_of_ok vzero vscale) with (r := r); [exact W|exact N|exact Eo|].
    intros id p Hp _. destruct (Ev id p Hp) as [y [E Ly]]. exists y. destruct y as [|a [|b [|c y]]]; try (cbn in Ly; lia).
    exists (V3 a b c). auto.
Qed.

(** ** Interpolation *)
Lemma interpolation : forall O h r0 D g r', wf_store h -> distinct_ids (fd_data (b_filter r0)) -> 0 <= p_diag (b_par r0) ->
  b_geo r0 = Some g -> i_geo (b_in r0) = None ->
  rbf_execute O h (setDisplacements D r0) = Some r' ->
  let nodes := i_nodes (b_in r') in let W := e_weights (b_res r') in let k := p_kernel (b_par r0) in
  map fst nodes = map fst (i_nodes (b_in r0)) /\
  (p_mode (b_par r0) <> MGreedy -> nodes = i_nodes (b_in r0)) /\
  exists d, getDisplacements r' = Some d /\
  forall id i e, In (id, fst e) (so_verts (h g)) -> nth_error nodes i = Some e -> 0 <= nth i (getRadii r') 0 ->
  exists c, factor (so_verts (h g)) g r0 id c /\
    In (id, vscale c (V3 (combination k nodes (getRadii r') (fun i => nth i (nth 0 W []) 0) (fst e))
                         (combination k nodes (getRadii r') (fun i => nth i (nth 1 W []) 0) (fst e))
                         (combination k nodes (getRadii r') (fun i => nth i (nth 2 W []) 0) (fst e)))) (fd_data d).
Proof.
  intros O h r0 D g r' W N Dg G I H. rewrite (execute_list _ _ _ g) in H by assumption.
  set (r := setDisplacements D r0) in *. destruct (run_vector O h g r r' W N Dg H eq_refl) as [filt [d [-> [A1 [A2 [A3 A4]]]]]].
  cbv zeta. unfold getRadii. cbn [run_done b_in i_nodes b_res e_weights e_radii].
  split; [|split].
  - unfold run_solve. destruct (p_mode (b_par r)); [reflexivity|reflexivity|]. destruct (o_greedy _ _ _ _ _ _) as [fl ws].
    cbn [fst]. apply set_flags_pos.
  - intros M. unfold run_solve. change (p_mode (b_par r)) with (p_mode (b_par r0)).
    destruct (p_mode (b_par r0)); [reflexivity|reflexivity|destruct (M eq_refl)].
  - exists d. split; [reflexivity|]. intros id i e He Hi Hr. destruct (A4 id (fst e) He) as [B1 _].
    assert (S' : supported (fst (run_solve O h g r)) (fst (run_radii h g r)) (fst e)).
    { exists i, e, (nth i (fst (run_radii h g r)) 0). split; [exact Hi|]. split.
      - apply nth_error_nth'. unfold run_radii. rewrite effective_length.
        assert (K : (i < length (fst (run_solve O h g r)))%nat) by (apply nth_error_Some; congruence).
        replace (length (fst (run_solve O h g r))) with (length (i_nodes (b_in r))) in K; [exact K|].
        unfold run_solve. destruct (p_mode (b_par r)); [reflexivity|reflexivity|]. destruct (o_greedy _ _ _ _ _ _) as [fl ws].
        cbn [fst]. symmetry. apply set_flags_length.
      - replace (dist (fst e) (fst e)) with 0; [exact Hr|]. unfold dist, dot, vsub. cbn [vx vy vz].
        replace (_ + _ + _) with 0 by ring. symmetry. apply sqrt_0. }
    destruct (B1 (or_intror S')) as [_ [_ [c [Fc V]]]]. exists c. split; [exact Fc|exact V].
Qed.

(** ** The support radii *)
Lemma fit_nth_error : forall A (z : A) n l i, (i < n)%nat -> nth_error (fit z n l) i = Some (nth i l z).
Proof.
  intros A z n l i H. rewrite <- (fit_nth _ z n l i H). apply nth_error_nth'. rewrite fit_length. exact H.
Qed.

Lemma execute_radii : forall O h r g r', b_geo r = Some g -> i_geo (b_in r) = None -> rbf_execute O h r = Some r' ->
  getRadii r' = fst (run_radii h g r).
Proof. intros O h r g r' G I H. rewrite (execute_list _ _ _ g G I) in H. exact (run_radii_of _ _ _ _ _ H). Qed.

Lemma max_norm_ok : forall data n, 0 <= max_norm data n /\ (forall i, (i < n)%nat -> data_norm data i <= max_norm data n) /\
  (max_norm data n = 0 \/ exists i, (i < n)%nat /\ max_norm data n = data_norm data i).
Proof.
  intros data n. unfold max_norm.
  assert (X : forall l m, m <= fold_left (fun m i => Rmax m (data_norm data i)) l m /\
    (forall i, In i l -> data_norm data i <= fold_left (fun m i => Rmax m (data_norm data i)) l m) /\
    (fold_left (fun m i => Rmax m (data_norm data i)) l m = m \/
     exists i, In i l /\ fold_left (fun m i => Rmax m (data_norm data i)) l m = data_norm data i)).
  { induction l as [|a l IH]; intros m; cbn [fold_left]; [split; [lra|split; [intros i []|left; reflexivity]]|].
    destruct (IH (Rmax m (data_norm data a))) as [H1 [H2 H3]].
    pose proof (Rmax_l m (data_norm data a)). pose proof (Rmax_r m (data_norm data a)).
    split; [lra|]. split; [intros i [<-|Hi]; [lra|exact (H2 i Hi)]|].
    destruct H3 as [H3|[i [Hi H3]]]; [|right; exists i; split; [right; exact Hi|exact H3]].
    rewrite H3. unfold Rmax. destruct (Rle_dec m (data_norm data a)); [right; exists a; split; [left; reflexivity|reflexivity]|left; reflexivity]. }
  destruct (X (seq 0 n) 0) as [H1 [H2 H3]]. split; [exact H1|]. split.
  - intros i Hi. apply H2. apply in_seq. lia.
  - destruct H3 as [H3|[i [Hi H3]]]; [left; exact H3|right; exists i; apply in_seq in Hi; split; [lia|exact H3]].
Qed.
Lemma data_norm_vec : forall n D i, (i < n)%nat ->
  data_norm (map (fit 0 n) [map vx D; map vy D; map vz D]) i = norm (nth i D vzero).
Proof.
  intros n D i H. unfold data_norm, norm, dot. cbn [map fold_left]. rewrite !fit_nth by exact H.
  rewrite !map_nth0 by reflexivity. f_equal. ring.
Qed.

(** ** Nodes from a geometry *)
Definition lt_id (a b : nat * vec) : Prop := (fst a < fst b)%nat.
Lemma ins_id_perm : forall e l, Permutation (e :: l) (ins_id e l).
Proof.
  intros e l. induction l as [|a l IH]; cbn [ins_id]; [apply Permutation_refl|].
  destruct (Nat.leb (fst e) (fst a)); [apply Permutation_refl|].
  apply perm_trans with (a :: e :: l); [apply perm_swap|apply perm_skip, IH].
Qed.
Lemma by_id_perm : forall l, Permutation l (by_id l).
Proof.
  induction l as [|e l IH]; cbn [by_id fold_right]; [apply perm_nil|].
  apply perm_trans with (e :: by_id l); [apply perm_skip, IH|apply ins_id_perm].
Qed.
Lemma ins_id_sorted : forall e l, ~ In (fst e) (map fst l) -> StronglySorted lt_id l -> StronglySorted lt_id (ins_id e l).
Proof.
  intros e l. induction l as [|a l IH]; intros N H; cbn [ins_id]; [constructor; constructor|].
  inversion H as [|? ? H1 H2]. cbn [map] in N. destruct (Nat.leb (fst e) (fst a)) eqn:E.
  - apply Nat.leb_le in E. assert (lt_id e a) by (unfold lt_id; destruct (Nat.eq_dec (fst e) (fst a)) as [K|K]; [destruct N; left; auto|lia]).
    constructor; [exact H|]. constructor; [assumption|].
    eapply Forall_impl; [|exact H2]. intros b. unfold lt_id in *. intros. lia.
  - apply Nat.leb_gt in E. constructor; [apply IH; [intros K; apply N; right; exact K|exact H1]|].
    rewrite Forall_forall in H2 |- *. intros b Hb. apply (Permutation_in _ (Permutation_sym (ins_id_perm e l))) in Hb.
    destruct Hb as [<-|Hb]; [exact E|exact (H2 b Hb)].
Qed.
Lemma by_id_sorted : forall l, distinct_ids l -> StronglySorted lt_id (by_id l).
Proof.
  unfold distinct_ids. induction l as [|e l IH]; intros N; cbn [by_id fold_right]; [constructor|].
  cbn [map] in N. inversion N as [|? ? N1 N2]. apply ins_id_sorted; [|exact (IH N2)].
  intros K. apply N1. apply (Permutation_in _ (Permutation_map fst (Permutation_sym (by_id_perm l)))). exact K.
Qed.
Lemma sorted_unique : forall l l', StronglySorted lt_id l -> StronglySorted lt_id l' -> Permutation l l' -> l = l'.
Proof.
  induction l as [|a l IH]; intros l' H H' P.
  - apply Permutation_nil in P. auto.
  - destruct l' as [|b l']; [apply Permutation_sym, Permutation_nil in P; discriminate|].
    inversion H as [|? ? H1 H2]. inversion H' as [|? ? H1' H2']. rewrite Forall_forall in H2, H2'.
    assert (Eab : a = b).
    { assert (Ia : In a (b :: l')) by (apply (Permutation_in _ P); left; reflexivity).
      assert (Ib : In b (a :: l)) by (apply (Permutation_in _ (Permutation_sym P)); left; reflexivity).
      destruct Ia as [<-|Ia]; [reflexivity|]. destruct Ib as [<-|Ib]; [reflexivity|].
      specialize (H2 b Ib). specialize (H2' a Ia). unfold lt_id in *. lia. }
    rewrite <- Eab in P |- *. f_equal. apply IH; [exact H1|exact H1'|]. exact (Permutation_cons_inv P).
Qed.
Lemma listed_by_id : forall vs l, distinct_ids vs -> listed vs l -> l = by_id vs.
Proof.
  intros vs l N [P H]. apply sorted_unique; [exact H|apply by_id_sorted, N|].
  apply perm_trans with vs; [apply Permutation_sym, P|apply by_id_perm].
Qed.

Lemma set_at_app : forall pre n v post, length pre = n -> set_at n v (pre ++ 0 :: post) = Some (pre ++ v :: post).
Proof.
  induction pre as [|a pre IH]; intros [|n] v post L; cbn in L; try discriminate; cbn [List.app set_at]; [reflexivity|].
  rewrite IH by lia. reflexivity.
Qed.
Lemma put_radii_all : forall f ids pre count, length pre = count -> (forall i, In i ids -> field_at f i <> None) ->
  put_radii f ids count (pre ++ repeat 0 (length ids)) = Some (pre ++ map (value_at 0 f) ids).
Proof.
  intros f ids. induction ids as [|i ids IH]; intros pre count L H; cbn [put_radii length repeat map]; [reflexivity|].
  unfold value_at at 1. destruct (field_at f i) as [v|] eqn:E; [|destruct (H i (or_introl eq_refl) E)].
  rewrite set_at_app by exact L. replace (pre ++ v :: repeat 0 (length ids)) with ((pre ++ [v]) ++ repeat 0 (length ids)) by (rewrite <- app_assoc; reflexivity).
  rewrite IH; [rewrite <- app_assoc; reflexivity|rewrite app_length; cbn; lia|intros j Hj; apply H; right; exact Hj].
Qed.
Lemma put_radii_none : forall ids count l, put_radii None ids count l = Some l.
Proof. induction ids as [|i ids IH]; intros count l; cbn [put_radii field_at]; [reflexivity|apply IH]. Qed.
Lemma has_radius_all : forall f ids, (forall i, In i ids -> field_at f i <> None) -> filter (has_radius f) ids = ids.
Proof.
  intros f ids. induction ids as [|i ids IH]; intros H; cbn [filter]; [reflexivity|]. unfold has_radius at 1.
  destruct (field_at f i) eqn:E; [|destruct (H i (or_introl eq_refl) E)]. rewrite IH; [reflexivity|]. intros j Hj. apply H. right. exact Hj.
Qed.
Lemma has_radius_none : forall ids, filter (has_radius None) ids = [].
Proof. induction ids as [|i ids IH]; cbn; [reflexivity|exact IH]. Qed.

(** The list of values of a field at the listed vertices *)
Lemma values_listed : forall A (z : A) f (l : list (nat * vec)) D, distinct_ids (fd_data f) ->
  Forall2 (fun e d => value_or z f (fst e) d) l D -> D = map (value_at z (Some f)) (map fst l).
Proof.
  intros A z f l D N H. induction H as [|e d l D He _ IH]; cbn [map]; [reflexivity|]. rewrite <- IH. f_equal.
  apply (value_or_look _ _ _ _ _ N) in He. exact He.
Qed.

(** Executions from equal nodes, data, radii and parameters give equal results. *)
Lemma run_same : forall O h g r r2,
  i_nodes (b_in r) = i_nodes (b_in r2) -> i_data (b_in r) = i_data (b_in r2) -> i_scalar (b_in r) = i_scalar (b_in r2) ->
  p_mode (b_par r) = p_mode (b_par r2) -> p_kernel (b_par r) = p_kernel (b_par r2) -> p_compact (b_par r) = p_compact (b_par r2) ->
  p_diag (b_par r) = p_diag (b_par r2) -> p_tol (b_par r) = p_tol (b_par r2) ->
  run_radii h g r = run_radii h g r2 -> b_filter r = b_filter r2 -> b_bfilter r = b_bfilter r2 ->
  option_map b_res (rbf_run O h g r) = option_map b_res (rbf_run O h g r2).
Proof.
  intros O h g r r2 E1 E2 E3 E4 E5 E6 E7 E8 E9 E10 E11. rewrite !rbf_run_eq.
  assert (Ed : run_data r = run_data r2) by (unfold run_data; rewrite E1, E2; reflexivity).
  assert (Es : run_solve O h g r = run_solve O h g r2) by (unfold run_solve; rewrite E1, E4, E5, E8, E9, Ed; reflexivity).
  assert (Ef : filter_of h g r = filter_of h g r2) by (unfold filter_of; rewrite E10, E11; reflexivity).
  assert (Ea : run_active O h g r = run_active O h g r2).
  { unfold run_active. rewrite E9, Es. unfold is_compact_run. rewrite E6, E7. reflexivity. }
  assert (Ev : run_ev O h g r = run_ev O h g r2) by (unfold run_ev; rewrite E5, E9, Es; reflexivity).
  rewrite Ef, Ea, Ev, E3. destruct (filter_of h g r2) as [o|]; [|reflexivity]. cbv zeta.
  destruct (i_scalar (b_in r2)); destruct (field_of _ _ _ _ _ _ _ _); cbn [option_map]; try reflexivity;
    unfold run_done; cbn [b_res]; rewrite E9, Es; reflexivity.
Qed.

Lemma moved_in : forall F vs ws id p, moved F vs ws -> In (id, p) vs -> exists q, In (id, q) ws /\ F id p q.
Proof.
  intros F vs ws id p H. unfold moved in H. induction H as [|[i a] [j b] vs ws [E K] H IH]; intros Hp; [destruct Hp|].
  cbn [fst snd] in E, K. destruct Hp as [X|Hp].
  - injection X as -> ->. exists b. split; [left; rewrite E; reflexivity|exact K].
  - destruct (IH Hp) as [q [A B]]. exists q. split; [right; exact A|exact B].
Qed.
Lemma restricted_dec : forall (vs : list (nat * vec)) p radii id x, In (id, x) vs -> 0 <= p_diag p ->
  restricted (map snd vs) p radii \/ ~ restricted (map snd vs) p radii.
Proof.
  intros vs p radii id x Hx D. assert (N : map snd vs <> []).
  { intros E. apply (in_map snd) in Hx. rewrite E in Hx. destruct Hx. }
  pose proof (compact_run_iff _ p radii N D) as C. destruct (is_compact_run _ _ _); [left; apply C; reflexivity|].
  right. intros K. apply C in K. discriminate.
Qed.
Lemma exec_radii : forall O h r g h' r', b_geo r = Some g -> i_geo (b_in r) = None -> rbf_exec O h r = Some (h', r') ->
  getRadii r' = fst (run_radii h g r).
Proof.
  intros O h r g h' r' G I H. unfold rbf_exec in H. destruct (rbf_execute O h r) as [r1|] eqn:E; [|discriminate].
  rewrite <- (execute_radii O h r g r1 G I E). unfold rbf_apply in H. destruct (b_geo r1); [|injection H as _ <-; reflexivity].
  destruct (i_scalar (b_in r1)); [|injection H as _ <-; reflexivity]. destruct (Nat.eqb _ 1); [|injection H as _ <-; reflexivity].
  destruct (along_normals _ _ _); [|discriminate]. injection H as _ <-. reflexivity.
Qed.

Lemma box_diag_zero : forall (vs : list (nat * vec)) a b p q, In (a, p) vs -> In (b, q) vs -> box_diag (map snd vs) = 0 -> p = q.
Proof.
  intros vs a b p q Hp Hq Z. apply (in_map snd) in Hp, Hq. cbn [snd] in Hp, Hq.
  assert (N : map snd vs <> []) by (intros E; rewrite E in Hp; destruct Hp).
  unfold box_diag in Z. apply sqrt_eq_0 in Z;
    [|unfold dot; cbn [vx vy vz]; apply Rplus_le_le_0_compat; [apply Rplus_le_le_0_compat|]; apply Rle_0_sqr]. unfold dot in Z. cbn [vx vy vz] in Z.
  destruct (low_least vx _ N) as [_ L1], (low_least vy _ N) as [_ L2], (low_least vz _ N) as [_ L3].
  destruct (high_greatest vx _ N) as [_ G1], (high_greatest vy _ N) as [_ G2], (high_greatest vz _ N) as [_ G3].
  pose proof (L1 p Hp); pose proof (L1 q Hq); pose proof (G1 p Hp); pose proof (G1 q Hq).
  pose proof (L2 p Hp); pose proof (L2 q Hq); pose proof (G2 p Hp); pose proof (G2 q Hq).
  pose proof (L3 p Hp); pose proof (L3 q Hq); pose proof (G3 p Hp); pose proof (G3 q Hq).
  assert (high vx (map snd vs) - low vx (map snd vs) = 0 /\ high vy (map snd vs) - low vy (map snd vs) = 0 /\
          high vz (map snd vs) - low vz (map snd vs) = 0) as [Z1 [Z2 Z3]].
  { set (x := high vx (map snd vs) - low vx (map snd vs)) in *. set (y := high vy (map snd vs) - low vy (map snd vs)) in *.
    set (z := high vz (map snd vs) - low vz (map snd vs)) in *. clearbody x y z. repeat split; nra. }
  destruct p as [p1 p2 p3], q as [q1 q2 q3]. cbn [vx vy vz] in *. f_equal; lra.
Qed.

(** ** Scalar displacements *)
Lemma along_incl : forall normal d vs l, along_normals normal d vs = Some l -> incl (map fst l) (map fst vs).
Proof.
  intros normal d vs. induction vs as [|[i p] vs IH]; intros l H; cbn [along_normals] in H; [injection H as <-; intros x []|].
  destruct (normal i) as [v|].
  - destruct (find i d); [|discriminate]. destruct (along_normals normal d vs) as [m|]; [|discriminate]. injection H as <-.
    intros x [<-|Hx]; [left; reflexivity|right; exact (IH m eq_refl x Hx)].
  - intros x Hx. right. exact (IH l H x Hx).
Qed.
Lemma along_normals_inv : forall normal d vs l, along_normals normal d vs = Some l -> distinct_ids vs ->
  forall id p, In (id, p) vs ->
    match normal id with None => find id l = None | Some v => exists k, find id d = Some k /\ find id l = Some (vscale k v) end.
Proof.
  intros normal d vs. induction vs as [|[i a] vs IH]; intros l H N id p Hp; [destruct Hp|].
  cbn [along_normals] in H. inversion N as [|? ? N1 N2].
  assert (X : forall l, along_normals normal d vs = Some l -> ~ In i (map fst l)).
  { intros m Hm K. exact (N1 (along_incl _ _ _ _ Hm i K)). }
  destruct (normal i) as [v|] eqn:En.
  - destruct (find i d) as [k|] eqn:Ed; [|discriminate]. destruct (along_normals normal d vs) as [m|] eqn:Em; [|discriminate].
    injection H as <-. destruct Hp as [E|Hp].
    + injection E as <- <-. rewrite En. exists k. split; [exact Ed|]. cbn. rewrite Nat.eqb_refl. reflexivity.
    + assert (Ni : Nat.eqb i id = false).
      { apply Nat.eqb_neq. intros ->. apply N1. apply in_map_iff. exists (id, p). auto. }
      specialize (IH m eq_refl N2 id p Hp). cbn [find]. destruct (normal id).
      * destruct IH as [k' [A B]]. exists k'. split; [exact A|]. cbn. rewrite Ni. exact B.
      * cbn. rewrite Ni. exact IH.
  - destruct Hp as [E|Hp].
    + injection E as <- <-. rewrite En. apply find_none_iff. exact (X l H).
    + exact (IH l H N2 id p Hp).
Qed.
Lemma moved_map2 : forall (F : nat -> vec -> vec -> Prop) d vs, (forall i p, In (i, p) vs -> F i p (snd (move d (i, p)))) -> moved F vs (map (move d) vs).
Proof.
  intros F d vs. unfold moved. induction vs as [|[i p] vs IH]; intros H; cbn [map]; constructor.
  - split; [rewrite find_move; destruct (find i d); reflexivity|]. cbn [fst]. exact (H i p (or_introl eq_refl)).
  - apply IH. intros j q Hj. apply H. right. exact Hj.
Qed.
Lemma zero_combination : forall k nodes radii w p, (forall i, w i = 0) -> combination k nodes radii w p = 0.
Proof.
  intros k nodes radii w p H. unfold combination. apply total_zero. intros i _. unfold node_term.
  destruct (nth_error nodes i) as [[x []]|]; try reflexivity. rewrite H. ring.
Qed.
