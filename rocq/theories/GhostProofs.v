(** Lemmas on the numbering of the vertices. *)
From Coq Require Import List ZArith Bool Lia Permutation.
From Verif Require Import Ghost GhostSpec.
Import ListNotations.
Open Scope Z_scope.

(** * Maps *)

Lemma zget_zput_same : forall m k v, zget (zput m k v) k = Some v.
Proof.
  induction m as [|[k' v'] m IH]; intros k v; simpl.
  - rewrite Z.eqb_refl. reflexivity.
  - destruct (k' =? k) eqn:E; simpl; [rewrite Z.eqb_refl; reflexivity|rewrite E; apply IH].
Qed.

Lemma zget_zput_other : forall m k v k', k' <> k -> zget (zput m k v) k' = zget m k'.
Proof.
  induction m as [|[a b] m IH]; intros k v k' N; simpl.
  - destruct (k =? k') eqn:E; [apply Z.eqb_eq in E; congruence|reflexivity].
  - destruct (a =? k) eqn:E; simpl.
    + apply Z.eqb_eq in E. subst a. destruct (k =? k') eqn:F; [apply Z.eqb_eq in F; congruence|reflexivity].
    + destruct (a =? k'); [reflexivity|apply IH; exact N].
Qed.

Lemma zget_zput : forall m k v k', zget (zput m k v) k' = if k' =? k then Some v else zget m k'.
Proof.
  intros m k v k'. destruct (k' =? k) eqn:E.
  - apply Z.eqb_eq in E. subst k'. apply zget_zput_same.
  - apply Z.eqb_neq in E. apply zget_zput_other. exact E.
Qed.

Lemma zget_In : forall m k v, zget m k = Some v -> In (k, v) m.
Proof.
  induction m as [|[a b] m IH]; intros k v H; simpl in H; [discriminate|].
  destruct (a =? k) eqn:E.
  - apply Z.eqb_eq in E. subst a. injection H as ->. left. reflexivity.
  - right. apply IH. exact H.
Qed.

Lemma zget_None : forall m k, zget m k = None <-> ~ In k (map fst m).
Proof.
  induction m as [|[a b] m IH]; intros k; simpl; [split; auto|].
  destruct (a =? k) eqn:E.
  - apply Z.eqb_eq in E. split; [discriminate|intros H; exfalso; apply H; left; exact E].
  - apply Z.eqb_neq in E. rewrite IH. split; intros H; [intros [A|A]; [congruence|exact (H A)]|intros A; apply H; right; exact A].
Qed.

Lemma In_zget : forall m k v, NoDup (map fst m) -> In (k, v) m -> zget m k = Some v.
Proof.
  induction m as [|[a b] m IH]; intros k v N H; [contradiction|]. simpl in N. inversion N; subst.
  destruct H as [H|H]; simpl.
  - injection H as -> ->. rewrite Z.eqb_refl. reflexivity.
  - destruct (a =? k) eqn:E; [|apply IH; assumption].
    apply Z.eqb_eq in E. subst a. exfalso. apply H2. apply in_map_iff. exists (k, v). split; [reflexivity|exact H].
Qed.

Lemma zput_keys : forall m k v, NoDup (map fst m) -> NoDup (map fst (zput m k v)).
Proof.
  induction m as [|[a b] m IH]; intros k v N; simpl; [constructor; [auto|constructor]|].
  simpl in N. inversion N; subst. destruct (a =? k) eqn:E; simpl.
  - apply Z.eqb_eq in E. subst. constructor; assumption.
  - apply Z.eqb_neq in E. constructor; [|apply IH; assumption].
    intros H. apply zget_None in H1. assert (zget (zput m k v) a = None) as G by (rewrite zget_zput_other; [exact H1|exact E]).
    apply zget_None in G. contradiction.
Qed.

(** * Counting *)

Lemma count_filter : forall f vs n, fold_left (fun n v => if (f : Z -> bool) v then n + 1 else n) vs n = n + Z.of_nat (length (filter f vs)).
Proof.
  intros f vs. induction vs as [|v vs IH]; intros n; cbn [fold_left filter length]; [lia|].
  rewrite IH. destruct (f v); cbn [length]; lia.
Qed.

Lemma ninterior_filter : forall p, ninterior p = Z.of_nat (length (filter (p_interior p) (p_verts p))).
Proof. intros p. unfold ninterior. rewrite count_filter. lia. Qed.

Lemma fold_add : forall l n, fold_left Z.add l n = n + fold_left Z.add l 0.
Proof.
  induction l as [|x l IH]; intros n; cbn [fold_left]; [lia|]. rewrite (IH (n + x)), (IH (0 + x)). lia.
Qed.

Lemma sum_nonneg : forall l, Forall (fun x => 0 <= x) l -> 0 <= fold_left Z.add l 0.
Proof.
  induction l as [|x l IH]; intros H; cbn [fold_left]; [lia|]. rewrite fold_add.
  pose proof (Forall_inv H). pose proof (IH (Forall_inv_tail H)). cbv beta in H0. lia.
Qed.

Lemma offset_next : forall l r x, nth_error l r = Some x ->
  fold_left Z.add (firstn (S r) l) 0 = fold_left Z.add (firstn r l) 0 + x.
Proof.
  induction l as [|y l IH]; intros [|r] x H; try discriminate.
  - injection H as ->. simpl. lia.
  - cbn [nth_error] in H. specialize (IH r x H).
    change (firstn (S (S r)) (y :: l)) with (y :: firstn (S r) l). change (firstn (S r) (y :: l)) with (y :: firstn r l).
    cbn [fold_left]. rewrite (fold_add (firstn (S r) l)), (fold_add (firstn r l)), IH. lia.
Qed.

Lemma offset_mono : forall l a b, Forall (fun x => 0 <= x) l -> (a <= b)%nat ->
  fold_left Z.add (firstn a l) 0 <= fold_left Z.add (firstn b l) 0.
Proof.
  induction l as [|y l IH]; intros a b H L; [destruct a, b; simpl; lia|].
  destruct a as [|a].
  - cbn [firstn fold_left]. apply sum_nonneg. apply Forall_forall. intros z Hz.
    rewrite Forall_forall in H. apply H. rewrite <- (firstn_skipn b (y :: l)). apply in_or_app. left. exact Hz.
  - destruct b as [|b]; [lia|]. cbn [firstn fold_left]. rewrite (fold_add (firstn a l)), (fold_add (firstn b l)).
    specialize (IH a b (Forall_inv_tail H) ltac:(lia)). lia.
Qed.

Lemma sum_locate : forall l c, Forall (fun x => 0 <= x) l -> 0 <= c < fold_left Z.add l 0 ->
  exists r x, nth_error l r = Some x /\ fold_left Z.add (firstn r l) 0 <= c < fold_left Z.add (firstn r l) 0 + x.
Proof.
  induction l as [|y l IH]; intros c H L; [simpl in L; lia|].
  cbn [fold_left] in L. rewrite fold_add in L.
  destruct (Z_lt_ge_dec c y) as [K|K].
  - exists 0%nat, y. split; [reflexivity|]. simpl. lia.
  - destruct (IH (c - y) (Forall_inv_tail H)) as [r [x [N B]]]; [lia|].
    exists (S r), x. split; [exact N|]. cbn [firstn fold_left]. rewrite fold_add. lia.
Qed.

Lemma counts_nonneg : forall w, Forall (fun x => 0 <= x) (map ninterior w).
Proof.
  intros w. apply Forall_forall. intros x H. apply in_map_iff in H. destruct H as [p [<- _]]. rewrite ninterior_filter. lia.
Qed.

(** * The numbers of the interior vertices *)

Lemma number_other : forall f vs n m v, ~ (In v vs /\ f v = true) -> zget (number f vs n m) v = zget m v.
Proof.
  intros f vs. induction vs as [|u vs IH]; intros n m v H; [reflexivity|]. cbn [number].
  destruct (f u) eqn:F; rewrite IH.
  - apply zget_zput_other. intros ->. apply H. split; [left; reflexivity|exact F].
  - intros [A B]. apply H. split; [right; exact A|exact B].
  - reflexivity.
  - intros [A B]. apply H. split; [right; exact A|exact B].
Qed.

Lemma number_nth : forall f vs n m i v, NoDup vs -> nth_error (filter f vs) i = Some v ->
  zget (number f vs n m) v = Some (n + Z.of_nat i).
Proof.
  intros f vs. induction vs as [|u vs IH]; intros n m i v N H; [destruct i; discriminate|].
  inversion N; subst. cbn [number filter] in *. destruct (f u) eqn:F.
  - destruct i as [|i]; cbn [nth_error] in H.
    + injection H as <-. rewrite number_other; [rewrite zget_zput_same; f_equal; lia|tauto].
    + rewrite (IH (n + 1) _ i v H3 H). f_equal. lia.
  - apply IH; assumption.
Qed.

Lemma filter_position : forall (f : Z -> bool) vs v, In v vs -> f v = true -> exists i, nth_error (filter f vs) i = Some v.
Proof. intros f vs v A B. apply In_nth_error. apply filter_In. split; assumption. Qed.

Lemma filter_NoDup_nth : forall (f : Z -> bool) vs i j v, NoDup vs -> nth_error (filter f vs) i = Some v -> nth_error (filter f vs) j = Some v -> i = j.
Proof.
  intros f vs i j v N A B. apply (NoDup_filter f) in N. rewrite NoDup_nth_error in N. apply N.
  - apply nth_error_Some. congruence.
  - congruence.
Qed.

Lemma number_keys : forall f vs n m, NoDup (map fst m) -> NoDup (map fst (number f vs n m)).
Proof.
  intros f vs. induction vs as [|u vs IH]; intros n m H; [exact H|]. cbn [number].
  destruct (f u); apply IH; [apply zput_keys|]; exact H.
Qed.

Section Numbering.
  Context {P : Type}.
  Variable w : list part.
  Variable point : nat -> Z -> P.
  Hypothesis part_ok : partitioned w point.

  Definition own (r : nat) (v : Z) : option Z :=
    match nth_error w r with Some p => zget (own_ids w r p) v | None => None end.

  Lemma own_interior : forall r p i v, nth_error w r = Some p ->
    nth_error (filter (p_interior p) (p_verts p)) i = Some v -> own r v = Some (globaloffset w r + Z.of_nat i).
  Proof.
    intros r p i v E H. unfold own. rewrite E. unfold own_ids. apply number_nth; [|exact H].
    apply (ids_unique w point part_ok r). exact E.
  Qed.

  Lemma own_none : forall r v, ~ interior_of w r v -> own r v = None.
  Proof.
    intros r v H. unfold own. destruct (nth_error w r) as [p|] eqn:E; [|reflexivity].
    unfold own_ids. rewrite number_other; [reflexivity|]. intros [A B]. apply H. exists p. split; [exact E|split; assumption].
  Qed.

  Lemma own_some : forall r v, interior_of w r v -> exists p i, nth_error w r = Some p /\
    nth_error (filter (p_interior p) (p_verts p)) i = Some v /\ own r v = Some (globaloffset w r + Z.of_nat i).
  Proof.
    intros r v [p [E [A B]]]. destruct (filter_position _ _ _ A B) as [i H]. exists p, i. split; [exact E|]. split; [exact H|].
    apply own_interior with (p := p); assumption.
  Qed.

  Lemma offset_nth : forall r p, nth_error w r = Some p -> globaloffset w (S r) = globaloffset w r + Z.of_nat (length (filter (p_interior p) (p_verts p))).
  Proof.
    intros r p E. unfold globaloffset. rewrite (offset_next (map ninterior w) r (ninterior p)).
    - rewrite ninterior_filter. reflexivity.
    - apply map_nth_error. exact E.
  Qed.

  Lemma own_range : forall r v c, own r v = Some c -> globaloffset w r <= c < globaloffset w (S r).
  Proof.
    intros r v c H. unfold own in H. destruct (nth_error w r) as [p|] eqn:E; [|discriminate].
    destruct (in_dec Z.eq_dec v (filter (p_interior p) (p_verts p))) as [K|K].
    - destruct (In_nth_error _ _ K) as [i Hi]. pose proof (own_interior r p i v E Hi) as O. unfold own in O. rewrite E in O.
      rewrite O in H. injection H as <-. rewrite (offset_nth r p E). assert ((i < length (filter (p_interior p) (p_verts p)))%nat).
      { apply nth_error_Some. congruence. } lia.
    - exfalso. unfold own_ids in H. rewrite number_other in H; [discriminate|]. intros A. apply K. apply filter_In. exact A.
  Qed.

  Lemma nglobal_offset : nglobal w = globaloffset w (length w).
  Proof. unfold nglobal, globaloffset. rewrite <- (map_length ninterior w), firstn_all. reflexivity. Qed.

  Lemma own_lt_nglobal : forall r v c, own r v = Some c -> 0 <= c < nglobal w.
  Proof.
    intros r v c H. pose proof (own_range r v c H) as R.
    assert ((S r <= length w)%nat). { unfold own in H. destruct (nth_error w r) eqn:E; [|discriminate]. apply nth_error_Some. congruence. }
    pose proof (offset_mono (map ninterior w) 0 r (counts_nonneg w) ltac:(lia)) as A.
    pose proof (offset_mono (map ninterior w) (S r) (length w) (counts_nonneg w) H0) as B.
    rewrite nglobal_offset. unfold globaloffset in *. change (fold_left Z.add (firstn 0 (map ninterior w)) 0) with 0 in A. lia.
  Qed.

  Lemma own_inj : forall r v s u c, own r v = Some c -> own s u = Some c -> r = s /\ v = u.
  Proof.
    intros r v s u c A B. pose proof (own_range _ _ _ A) as RA. pose proof (own_range _ _ _ B) as RB.
    assert (r = s) as ->.
    { destruct (lt_eq_lt_dec r s) as [[L|L]|L]; [|exact L|].
      - pose proof (offset_mono (map ninterior w) (S r) s (counts_nonneg w) ltac:(lia)). unfold globaloffset in *. lia.
      - pose proof (offset_mono (map ninterior w) (S s) r (counts_nonneg w) ltac:(lia)). unfold globaloffset in *. lia. }
    split; [reflexivity|].
    assert (forall v, own s v = Some c -> exists p i, nth_error w s = Some p /\ nth_error (filter (p_interior p) (p_verts p)) i = Some v /\ c = globaloffset w s + Z.of_nat i) as K.
    { intros z Hz. assert (interior_of w s z) as I.
      { unfold own in Hz. destruct (nth_error w s) as [p|] eqn:E; [|discriminate].
        destruct (in_dec Z.eq_dec z (filter (p_interior p) (p_verts p))) as [J|J].
        - apply filter_In in J. exists p. split; [exact E|exact J].
        - exfalso. unfold own_ids in Hz. rewrite number_other in Hz; [discriminate|]. intros X. apply J. apply filter_In. exact X. }
      destruct (own_some s z I) as [p [i [E [N O]]]]. exists p, i. split; [exact E|]. split; [exact N|]. congruence. }
    destruct (K v A) as [p [i [E [N O]]]]. destruct (K u B) as [p' [i' [E' [N' O']]]].
    assert (p' = p) by congruence. subst p'. assert (i' = i) by lia. subst i'. congruence.
  Qed.

  Lemma own_onto : forall c, 0 <= c < nglobal w -> exists r v, interior_of w r v /\ own r v = Some c.
  Proof.
    intros c H. unfold nglobal in H. destruct (sum_locate _ _ (counts_nonneg w) H) as [r [x [N B]]].
    destruct (nth_error w r) as [p|] eqn:E.
    - rewrite (map_nth_error ninterior r w E) in N. injection N as <-.
      rewrite ninterior_filter in B. change (fold_left Z.add (firstn r (map ninterior w)) 0) with (globaloffset w r) in B.
      destruct (nth_error (filter (p_interior p) (p_verts p)) (Z.to_nat (c - globaloffset w r))) as [v|] eqn:F.
      + exists r, v. assert (In v (filter (p_interior p) (p_verts p))) as I by (apply (nth_error_In _ _ F)).
        apply filter_In in I. split; [exists p; split; [exact E|exact I]|].
        rewrite (own_interior r p _ v E F). f_equal. rewrite Z2Nat.id; lia.
      + apply nth_error_None in F. lia.
    - exfalso. apply nth_error_None in E. assert (nth_error (map ninterior w) r <> None) by congruence.
      apply nth_error_Some in H0. rewrite map_length in H0. lia.
  Qed.

  (** * The number of a vertex, wherever its point is interior *)

  (** The number of the point of [v] on rank [r]. *)
  Definition good (r : nat) (m : list (Z * Z)) : Prop :=
    (forall v, interior_of w r v -> zget m v = own r v) /\
    (forall v c, zget m v = Some c -> exists o u, vertex_of w r v /\ interior_of w o u /\ point o u = point r v /\ own o u = Some c).

  Lemma own_ids_good : forall r p, nth_error w r = Some p -> good r (own_ids w r p).
  Proof.
    intros r p E. assert (forall v, zget (own_ids w r p) v = own r v) as G by (intros v; unfold own; rewrite E; reflexivity).
    split; [intros v _; apply G|]. intros v c H. rewrite G in H.
    assert (interior_of w r v) as I.
    { destruct (in_dec Z.eq_dec v (filter (p_interior p) (p_verts p))) as [J|J].
      - apply filter_In in J. exists p. split; [exact E|exact J].
      - exfalso. rewrite own_none in H; [discriminate|]. intros [p' [E' X]]. assert (p' = p) by congruence. subst. apply J. apply filter_In. exact X. }
    exists r, v. split; [destruct I as [p' [E' [A _]]]; exists p'; split; assumption|]. split; [exact I|]. split; [reflexivity|exact H].
  Qed.

  Lemma unpack_good : forall s r l l' m, good r m -> length l = length l' ->
    (forall i a b, nth_error l i = Some a -> nth_error l' i = Some b -> vertex_of w s a /\ vertex_of w r b /\ point s a = point r b) ->
    forall p, nth_error w s = Some p ->
    exists m', unpack l' (packet (own_ids w s p) l) m = Some m' /\ good r m' /\
      (forall v c, zget m v = Some c -> zget m' v <> None) /\
      (forall v u, In v l' -> interior_of w s u -> point s u = point r v -> zget m' v = own s u).
  Proof.
    intros s r l l'. revert l. induction l' as [|b l' IH]; intros l m G L A p E.
    - exists m. split; [reflexivity|]. split; [exact G|]. split; [intros v c H; congruence|intros v u []].
    - destruct l as [|a l]; [discriminate|]. cbn [packet map unpack].
      assert (forall i x y, nth_error l i = Some x -> nth_error l' i = Some y -> vertex_of w s x /\ vertex_of w r y /\ point s x = point r y) as A'.
      { intros i x y Hx Hy. apply (A (S i) x y Hx Hy). }
      destruct (A 0%nat a b eq_refl eq_refl) as [Va [Vb Pab]].
      assert (zget (own_ids w s p) a = own s a) as O by (unfold own; rewrite E; reflexivity).
      set (m1 := if -1 <? match zget (own_ids w s p) a with Some c => c | None => -1 end then zput m b match zget (own_ids w s p) a with Some c => c | None => -1 end else m).
      assert (good r m1 /\ (forall v c, zget m v = Some c -> zget m1 v <> None) /\
              (forall u, interior_of w s u -> point s u = point r b -> zget m1 b = own s u)) as [G1 [K1 X1]].
      { subst m1. rewrite O. destruct (own s a) as [c|] eqn:OC.
        - pose proof (own_lt_nglobal s a c OC) as R. replace (-1 <? c) with true by (symmetry; apply Z.ltb_lt; lia).
          assert (interior_of w s a) as Ia.
          { destruct (own_ids_good s p E) as [_ G2]. destruct (G2 a c) as [o [u [_ [I2 [P2 O2]]]]]; [congruence|].
            destruct (own_inj s a o u c OC O2) as [-> ->]. exact I2. }
          split; [split|split].
          + intros v I. rewrite zget_zput. destruct (v =? b) eqn:F; [|apply (proj1 G); exact I].
            apply Z.eqb_eq in F. subst v. assert (r = s) as ->.
            { apply (owned_once w point part_ok r b s a I Ia). symmetry. exact Pab. }
            assert (a = b) as -> by (apply (points_unique w point part_ok s a b Va Vb Pab)). symmetry. exact OC.
          + intros v d H. rewrite zget_zput in H. destruct (v =? b) eqn:F; [|apply (proj2 G); exact H].
            apply Z.eqb_eq in F. subst v. injection H as <-. exists s, a. split; [exact Vb|]. split; [exact Ia|]. split; [exact Pab|exact OC].
          + intros v d H. rewrite zget_zput. destruct (v =? b); congruence.
          + intros u Iu Pu. rewrite zget_zput_same. assert (u = a) as ->; [|symmetry; exact OC].
            apply (points_unique w point part_ok s u a); [destruct Iu as [q [Q [B _]]]; exists q; split; assumption|exact Va|congruence].
        - change (-1 <? -1) with false. split; [exact G|]. split; [intros v c H; congruence|].
          intros u Iu Pu. exfalso. assert (u = a) as ->.
          { apply (points_unique w point part_ok s u a); [destruct Iu as [q [Q [B _]]]; exists q; split; assumption|exact Va|congruence]. }
          destruct (own_some s a Iu) as [q [i [_ [_ Z]]]]. congruence. }
      destruct (IH l m1 G1 ltac:(simpl in L; lia) A' p E) as [m' [U [G' [K' X']]]].
      exists m'. split; [exact U|]. split; [exact G'|]. split.
      + intros v c H. destruct (zget m1 v) as [d|] eqn:D; [apply (K' v d D)|exfalso; apply (K1 v c H D)].
      + intros v u [<-|I] Iu Pu; [|apply X'; assumption].
        pose proof (X1 u Iu Pu) as Y. destruct (own_some s u Iu) as [q [i [_ [_ Z]]]]. rewrite Z in *.
        destruct (zget m' b) as [d|] eqn:D; [|exfalso; apply (K' b _ Y D)].
        destruct (proj2 G' b d D) as [o [u' [_ [Io [Po Oo]]]]].
        assert (o = s) as -> by (apply (owned_once w point part_ok o u' s u Io Iu); congruence).
        assert (u' = u) as ->.
        { apply (points_unique w point part_ok s u' u); [destruct Io as [q' [Q [B _]]]; exists q'; split; assumption|destruct Iu as [q' [Q [B _]]]; exists q'; split; assumption|congruence]. }
        congruence.
  Qed.

  Lemma receive_good : forall r p arrivals m, nth_error w r = Some p -> good r m ->
    (forall s, In s arrivals -> exists l, sends w s r l) ->
    exists m', receive w r p arrivals m = Some m' /\ good r m' /\ (forall v c, zget m v = Some c -> zget m' v <> None) /\
      (forall s l v u, In s arrivals -> expects w r s l -> In v l -> interior_of w s u -> point s u = point r v -> zget m' v <> None).
  Proof.
    intros r p arrivals. induction arrivals as [|s rest IH]; intros m E G A.
    - exists m. split; [reflexivity|]. split; [exact G|]. split; [intros v c H; congruence|intros s l v u []].
    - destruct (A s (or_introl eq_refl)) as [l [q [Q S]]].
      destruct (send_expect w point part_ok s r l) as [l' [X [L N]]]; [exists q; split; assumption|].
      destruct X as [p' [E' T]]. assert (p' = p) by congruence. subst p'.
      destruct (unpack_good s r l l' m G L N q Q) as [m1 [U [G1 [K1 X1]]]].
      destruct (IH m1 E G1) as [m' [R [G' [K' X']]]]; [intros z Hz; apply A; right; exact Hz|].
      exists m'. split; [|split; [exact G'|split]].
      + cbn [receive]. rewrite T. unfold sent. rewrite Q, S, U. exact R.
      + intros v c H. destruct (zget m1 v) as [d|] eqn:D; [apply (K' v d D)|exfalso; apply (K1 v c H D)].
      + intros z lz v u [<-|I] Xz Iv Iu Pu; [|apply (X' z lz v u I Xz Iv Iu Pu)].
        destruct Xz as [p'' [E'' T']]. assert (p'' = p) by congruence. subst p''. assert (lz = l') by congruence. subst lz.
        pose proof (X1 v u Iv Iu Pu) as Y. destruct (own_some s u Iu) as [q' [i [_ [_ Z]]]]. rewrite Z in Y. apply (K' v _ Y).
  Qed.

  Lemma update_good : forall r arrivals, (r < length w)%nat -> arrive w r arrivals ->
    exists m, updatePointGhostExchangeInfo w r arrivals = Some m /\
      forall v o u, vertex_of w r v -> interior_of w o u -> point o u = point r v -> zget m v = own o u.
  Proof.
    intros r arrivals L [_ A]. unfold updatePointGhostExchangeInfo.
    destruct (nth_error w r) as [p|] eqn:E; [|apply nth_error_None in E; lia].
    destruct (receive_good r p arrivals (own_ids w r p) E (own_ids_good r p E)) as [m [R [G [K X]]]]; [intros s I; apply A; exact I|].
    exists m. split; [exact R|]. intros v o u V I PU.
    assert (zget m v <> None) as N.
    { assert (interior_of w r v \/ ~ interior_of w r v) as [D|D].
      { destruct (in_dec Z.eq_dec v (p_verts p)) as [J|J]; [destruct (p_interior p v) eqn:F|].
        - left. exists p. split; [exact E|split; assumption].
        - right. intros [q [Q [_ F']]]. assert (q = p) by congruence. subst. congruence.
        - right. intros [q [Q [J' _]]]. assert (q = p) by congruence. subst. contradiction. }
      - rewrite (proj1 G v D). destruct (own_some r v D) as [q [i [_ [_ Z]]]]. congruence.
      - destruct (ghosts_expected w point part_ok r v o u V D I PU) as [l [Y J]].
        apply (X o l v u); [|exact Y|exact J|exact I|exact PU]. apply A.
        destruct (expect_send w point part_ok r o l Y) as [l' S]. exists l'. exact S. }
    destruct (zget m v) as [c|] eqn:C; [|congruence].
    destruct (proj2 G v c C) as [o' [u' [_ [I' [P' O']]]]].
    assert (o' = o) as -> by (apply (owned_once w point part_ok o' u' o u I' I); congruence).
    assert (u' = u) as ->.
    { apply (points_unique w point part_ok o u' u); [destruct I' as [q' [Q [B _]]]; exists q'; split; assumption|destruct I as [q' [Q [B _]]]; exists q'; split; assumption|congruence]. }
    symmetry. exact O'.
  Qed.

  Lemma update_known : forall r arrivals m v c, arrive w r arrivals -> updatePointGhostExchangeInfo w r arrivals = Some m ->
    zget m v = Some c -> vertex_of w r v.
  Proof.
    intros r arrivals m v c [_ A] U Z. unfold updatePointGhostExchangeInfo in U.
    destruct (nth_error w r) as [p|] eqn:E; [|discriminate].
    destruct (receive_good r p arrivals (own_ids w r p) E (own_ids_good r p E)) as [m' [R [G _]]]; [intros s I; apply A; exact I|].
    assert (m' = m) by congruence. subst m'. destruct (proj2 G v c Z) as [o [u [V _]]]. exact V.
  Qed.
End Numbering.

(** Counting interior vertices. *)
Lemma interior_count_nglobal_aux : forall w k,
  (forall r p, nth_error w r = Some p -> NoDup (p_verts p)) ->
  exists L : list (nat * Z), NoDup L /\ (forall r v, In (r, v) L <-> (k <= r)%nat /\ interior_of w (r - k) v) /\ Z.of_nat (length L) = nglobal w.
Proof.
  induction w as [|p w IH]; intros k N.
  - exists []. split; [constructor|]. split; [|reflexivity]. intros r v. split; [contradiction|].
    intros [_ [p [E _]]]. destruct (r - k)%nat; discriminate.
  - destruct (IH (S k)) as [L [NL [IL C]]]; [intros r q E; apply (N (S r)); exact E|].
    exists (map (fun v => (k, v)) (filter (p_interior p) (p_verts p)) ++ L). split; [|split].
    + assert (NoDup (map (fun v => (k, v)) (filter (p_interior p) (p_verts p)))) as N1.
      { apply FinFun.Injective_map_NoDup; [intros a b H; congruence|]. apply NoDup_filter. apply (N 0%nat). reflexivity. }
      assert (forall x, In x (map (fun v : Z => (k, v)) (filter (p_interior p) (p_verts p))) -> ~ In x L) as D.
      { intros [r v] A B. apply in_map_iff in A. destruct A as [z [A _]]. injection A as <- <-. apply IL in B. lia. }
      revert N1 D. generalize (map (fun v : Z => (k, v)) (filter (p_interior p) (p_verts p))). intros M N1 D.
      induction M as [|x M IHM]; [exact NL|]. inversion N1; subst. simpl. constructor.
      * intros A. apply in_app_or in A. destruct A as [A|A]; [contradiction|]. apply (D x); [left; reflexivity|exact A].
      * apply IHM; [assumption|intros y Hy; apply D; right; exact Hy].
    + intros r v. rewrite in_app_iff, in_map_iff, IL. split.
      * intros [[z [A B]]|[A B]].
        -- injection A as <- <-. split; [lia|]. rewrite Nat.sub_diag. apply filter_In in B. exists p. split; [reflexivity|exact B].
        -- split; [lia|]. destruct B as [q [E B]]. exists q. replace (r - k)%nat with (S (r - S k)) by lia. split; [exact E|exact B].
      * intros [A [q [E B]]]. destruct (Nat.eq_dec r k) as [->|D].
        -- left. rewrite Nat.sub_diag in E. injection E as <-. exists v. split; [reflexivity|]. apply filter_In. exact B.
        -- right. split; [lia|]. exists q. replace (r - k)%nat with (S (r - S k)) in E by lia. split; [exact E|exact B].
    + rewrite app_length, map_length. unfold nglobal in *. cbn [map fold_left]. rewrite fold_add, <- C, ninterior_filter. lia.
Qed.

Lemma interior_count_nglobal : forall {P} w (point : nat -> Z -> P), partitioned w point -> interior_count w (nglobal w).
Proof.
  intros P w point H. destruct (interior_count_nglobal_aux w 0) as [L [N [I C]]].
  - intros r p E. apply (ids_unique w point H r). exact E.
  - exists L. split; [exact N|]. split; [|exact C]. intros r v. rewrite I, Nat.sub_0_r. split; [tauto|]. intros X. split; [lia|exact X].
Qed.

(** * The maps between ids and numbers *)

Lemma enumerate_other : forall vs i m v, ~ In v vs -> zget (enumerate vs i m) v = zget m v.
Proof.
  induction vs as [|u vs IH]; intros i m v H; [reflexivity|]. cbn [enumerate]. rewrite IH; [|intros A; apply H; right; exact A].
  apply zget_zput_other. intros ->. apply H. left. reflexivity.
Qed.

Lemma enumerate_nth : forall vs i m k v, NoDup vs -> nth_error vs k = Some v -> zget (enumerate vs i m) v = Some (i + Z.of_nat k).
Proof.
  induction vs as [|u vs IH]; intros i m k v N H; [destruct k; discriminate|]. inversion N; subst. cbn [enumerate].
  destruct k as [|k]; cbn [nth_error] in H.
  - injection H as <-. rewrite enumerate_other; [|assumption]. rewrite zget_zput_same. f_equal. lia.
  - rewrite (IH (i + 1) _ k v H3 H). f_equal. lia.
Qed.

Lemma getMapData_get : forall vs inv m c v,
  (forall a b x, In a vs -> In b vs -> zget inv a = Some x -> zget inv b = Some x -> a = b) ->
  zget (getMapData vs inv m) c = Some v -> (In v vs /\ zget inv v = Some c) \/ zget m c = Some v.
Proof.
  induction vs as [|u vs IH]; intros inv m c v J H; [right; exact H|]. cbn [getMapData] in H.
  apply IH in H; [|intros a b x A B; apply J; right; assumption]. destruct H as [[A B]|H].
  - left. split; [right; exact A|exact B].
  - destruct (zget inv u) as [d|] eqn:E; [|right; exact H]. rewrite zget_zput in H. destruct (c =? d) eqn:F; [|right; exact H].
    apply Z.eqb_eq in F. subst d. injection H as <-. left. split; [left; reflexivity|exact E].
Qed.

Lemma getMapData_put : forall vs inv m c v,
  (forall a b x, In a vs -> In b vs -> zget inv a = Some x -> zget inv b = Some x -> a = b) ->
  (In v vs -> zget inv v = Some c -> zget (getMapData vs inv m) c = Some v) /\
  ((forall u, In u vs -> zget inv u <> Some c) -> zget (getMapData vs inv m) c = zget m c).
Proof.
  induction vs as [|u vs IH]; intros inv m c v J; [split; [contradiction|reflexivity]|].
  assert (forall a b x, In a vs -> In b vs -> zget inv a = Some x -> zget inv b = Some x -> a = b) as J'
    by (intros a b x A B; apply J; right; assumption).
  cbn [getMapData]. split.
  - intros I Z. destruct (in_dec Z.eq_dec v vs) as [K|K].
    + apply IH; [exact J'|exact K|exact Z].
    + destruct I as [->|I]; [|contradiction]. rewrite Z.
      rewrite (proj2 (IH inv (zput m c v) c v J')); [apply zget_zput_same|].
      intros z Hz Y. apply K. rewrite (J v z c (or_introl eq_refl) (or_intror Hz) Z Y). exact Hz.
  - intros N. rewrite (proj2 (IH inv _ c v J')); [|intros z Hz; apply N; right; exact Hz].
    destruct (zget inv u) as [d|] eqn:E; [|reflexivity]. apply zget_zput_other. intros <-.
    apply (N u (or_introl eq_refl)). exact E.
Qed.

Lemma getMapData_inverse : forall vs inv,
  (forall v c, zget inv v = Some c -> In v vs) ->
  (forall a b x, zget inv a = Some x -> zget inv b = Some x -> a = b) ->
  inverse_maps (getMapData vs inv []) inv.
Proof.
  intros vs inv K J k c. split.
  - intros H. apply (proj1 (getMapData_put vs inv [] c k (fun a b x _ _ => J a b x)) (K k c H) H).
  - intros H. apply getMapData_get in H; [|intros a b x _ _; apply J]. destruct H as [[_ H]|H]; [exact H|discriminate].
Qed.

Lemma zget_filter : forall f m k, NoDup (map fst m) ->
  zget (filter f m) k = match zget m k with Some c => if f (k, c) then Some c else None | None => None end.
Proof.
  induction m as [|[a b] m IH]; intros k N; [reflexivity|]. simpl in N. inversion N; subst. cbn [filter zget].
  destruct (f (a, b)) eqn:F; cbn [zget].
  - destruct (a =? k) eqn:E; [apply Z.eqb_eq in E; subst; rewrite F; reflexivity|apply IH; assumption].
  - rewrite IH; [|assumption]. destruct (a =? k) eqn:E; [|reflexivity]. apply Z.eqb_eq in E. subst a. rewrite F.
    apply zget_None in H1. rewrite H1. reflexivity.
Qed.

Lemma unpack_keys : forall l buf m m', NoDup (map fst m) -> unpack l buf m = Some m' -> NoDup (map fst m').
Proof.
  induction l as [|a l IH]; intros buf m m' N H; cbn [unpack] in H; [injection H as <-; exact N|].
  destruct buf as [|c buf]; [discriminate|]. apply IH in H; [exact H|]. destruct (-1 <? c); [apply zput_keys; exact N|exact N].
Qed.

Lemma receive_keys : forall w r p arr m m', NoDup (map fst m) -> receive w r p arr m = Some m' -> NoDup (map fst m').
Proof.
  intros w r p arr. induction arr as [|s arr IH]; intros m m' N H; cbn [receive] in H; [injection H as <-; exact N|].
  destruct (rfind (p_targets p) s); [|discriminate]. destruct (sent w s r); [|discriminate].
  destruct (unpack l l0 m) as [m1|] eqn:U; [|discriminate]. apply IH in H; [exact H|]. apply (unpack_keys _ _ _ _ N U).
Qed.

Lemma update_keys : forall w r arr m, updatePointGhostExchangeInfo w r arr = Some m -> NoDup (map fst m).
Proof.
  intros w r arr m H. unfold updatePointGhostExchangeInfo in H. destruct (nth_error w r) as [p|]; [|discriminate].
  apply (receive_keys _ _ _ _ _ _ (number_keys _ _ _ [] ltac:(constructor)) H).
Qed.

(** * Cells *)

Lemma getMapCell_put : forall cells number_of wg m,
  (forall a b, In a cells -> In b cells -> number_of (gc_id a) = number_of (gc_id b) -> gc_id a = gc_id b) ->
  forall n, (forall c, In c cells -> (wg = true \/ gc_interior c = true) -> number_of (gc_id c) = n ->
               zget (getMapCell cells number_of wg m) n = Some (gc_id c)) /\
            ((forall c, In c cells -> (wg = true \/ gc_interior c = true) -> number_of (gc_id c) <> n) ->
               zget (getMapCell cells number_of wg m) n = zget m n).
Proof.
  intros cells number_of wg. induction cells as [|d cells IH]; intros m J n; [split; [contradiction|reflexivity]|].
  assert (forall a b, In a cells -> In b cells -> number_of (gc_id a) = number_of (gc_id b) -> gc_id a = gc_id b) as J'
    by (intros a b A B; apply J; right; assumption).
  cbn [getMapCell]. destruct (negb wg && negb (gc_interior d)) eqn:E.
  - assert (~ (wg = true \/ gc_interior d = true)) as ND by (destruct wg, (gc_interior d); simpl in E; try discriminate; intros [?|?]; discriminate).
    split.
    + intros c [<-|I] V Hn; [contradiction|]. apply (proj1 (IH m J' n) c I V Hn).
    + intros N. apply (proj2 (IH m J' n)). intros c I; apply N; right; exact I.
  - assert (wg = true \/ gc_interior d = true) as YD by (destruct wg, (gc_interior d); simpl in E; try discriminate; auto).
    assert (forall c, In c cells -> (wg = true \/ gc_interior c = true) -> number_of (gc_id c) = n -> zget (getMapCell cells number_of wg (zput m (number_of (gc_id d)) (gc_id d))) n = Some (gc_id c)) as T
      by (apply (proj1 (IH _ J' n))).
    split.
    + intros c [<-|I] V Hn; [|apply T; assumption].
      destruct (existsb (fun c => (wg || gc_interior c) && (number_of (gc_id c) =? n)) cells) eqn:X.
      * apply existsb_exists in X. destruct X as [c [I B]]. apply andb_true_iff in B. destruct B as [B1 B2]. apply orb_true_iff in B1. apply Z.eqb_eq in B2.
        rewrite (T c I B1 B2). f_equal. apply J; [right; exact I|left; reflexivity|congruence].
      * rewrite (proj2 (IH _ J' n)); [rewrite <- Hn; apply zget_zput_same|].
        intros c I V' Y. assert (existsb (fun c => (wg || gc_interior c) && (number_of (gc_id c) =? n)) cells = true); [|congruence].
        apply existsb_exists. exists c. split; [exact I|]. apply andb_true_iff. split; [apply orb_true_iff; exact V'|apply Z.eqb_eq; exact Y].
    + intros N. rewrite (proj2 (IH _ J' n)); [|intros c I; apply N; right; exact I].
      apply zget_zput_other. intros ->. apply (N d (or_introl eq_refl) YD). reflexivity.
Qed.

Lemma NoDup_filter_fst_aux : forall m k, NoDup (map fst m) -> NoDup (map fst (zerase m k)).
Proof.
  intros m k. induction m as [|[a b] m IH]; intros N; [exact N|]. simpl in N. inversion N; subst. unfold zerase. cbn [filter fst].
  destruct (negb (a =? k)); [|apply IH; assumption]. cbn [map fst]. constructor; [|apply IH; assumption].
  intros H. apply H1. apply in_map_iff in H. destruct H as [x [E H]]. apply filter_In in H. apply in_map_iff. exists x. split; [exact E|apply H].
Qed.
