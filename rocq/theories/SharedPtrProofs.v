(** Proofs about MimmoSharedPointer (C20, C43). *)
From Coq Require Import List Arith Bool Lia Permutation.
From Verif Require Import SharedPtr SharedPtrSpec.
Import ListNotations.

(** * Finite maps *)
Section Maps.
  Context {A : Type}.
  Implicit Types l : list (nat * A).
  Definition keys l := map fst l.

  Lemma find_set : forall k v k' l, find k' (set k v l) = if Nat.eqb k k' then Some v else find k' l.
  Proof.
    induction l as [|[j x] l IH]; simpl.
    - reflexivity.
    - destruct (Nat.eqb_spec j k) as [->|N]; simpl.
      + destruct (Nat.eqb_spec k k'); reflexivity.
      + rewrite IH. destruct (Nat.eqb_spec j k') as [->|N']; destruct (Nat.eqb_spec k k'); congruence.
  Qed.
  Lemma keys_set_in : forall k v l, In k (keys l) -> keys (set k v l) = keys l.
  Proof.
    induction l as [|[j x] l IH]; simpl; [tauto|]. intros H.
    destruct (Nat.eqb_spec j k) as [->|N]; simpl; [reflexivity|]. f_equal. apply IH. tauto.
  Qed.
  Lemma keys_set_out : forall k v l, ~ In k (keys l) -> set k v l = l ++ [(k, v)].
  Proof.
    induction l as [|[j x] l IH]; simpl; intros H; [reflexivity|].
    destruct (Nat.eqb_spec j k) as [->|N]; [tauto|]. f_equal. apply IH. tauto.
  Qed.
  Lemma find_in_keys : forall k v l, find k l = Some v -> In k (keys l).
  Proof.
    induction l as [|[j x] l IH]; simpl; [discriminate|].
    destruct (Nat.eqb_spec j k); [auto|]. intros. right. auto.
  Qed.
  Lemma find_none_keys : forall k l, find k l = None <-> ~ In k (keys l).
  Proof.
    induction l as [|[j x] l IH]; simpl; [tauto|].
    destruct (Nat.eqb_spec j k).
    - split; [discriminate|tauto].
    - rewrite IH. tauto.
  Qed.
  Lemma find_in : forall k v l, find k l = Some v -> In (k, v) l.
  Proof.
    induction l as [|[j x] l IH]; simpl; [discriminate|].
    destruct (Nat.eqb_spec j k); [intros [= ->]; subst; auto|]. auto.
  Qed.
  Lemma in_find : forall k v l, NoDup (keys l) -> In (k, v) l -> find k l = Some v.
  Proof.
    induction l as [|[j x] l IH]; simpl; [tauto|]. intros N H. apply NoDup_cons_iff in N. destruct N as [N1 N2].
    destruct H as [[= -> ->]|H]; [now rewrite Nat.eqb_refl|].
    destruct (Nat.eqb_spec j k) as [->|]; [|auto]. destruct N1. apply in_map_iff. exists (k, v). auto.
  Qed.
  Lemma nodup_set : forall k v l, NoDup (keys l) -> NoDup (keys (set k v l)).
  Proof.
    intros k v l N. destruct (in_dec Nat.eq_dec k (keys l)) as [I|I].
    - now rewrite keys_set_in.
    - rewrite keys_set_out by assumption. unfold keys. rewrite map_app. simpl.
      apply (Permutation_NoDup (Permutation_cons_append (keys l) k)).
      now constructor.
  Qed.
  Lemma find_del : forall k k' l, find k' (del k l) = if Nat.eqb k k' then None else find k' l.
  Proof.
    induction l as [|[j x] l IH]; simpl.
    - now destruct (Nat.eqb k k').
    - destruct (Nat.eqb_spec j k) as [->|N]; simpl.
      + rewrite IH. destruct (Nat.eqb_spec k k'); reflexivity.
      + rewrite IH. destruct (Nat.eqb_spec j k') as [->|N']; destruct (Nat.eqb_spec k k'); congruence.
  Qed.
  Lemma nodup_filter : forall (f : nat * A -> bool) l, NoDup (keys l) -> NoDup (keys (filter f l)).
  Proof.
    induction l as [|[j x] l IH]; simpl; intros N; [constructor|].
    apply NoDup_cons_iff in N. destruct N as [N1 N2]. destruct (f (j, x)); simpl; auto.
    constructor; auto. intros H. apply N1. apply in_map_iff in H. destruct H as (e & <- & H).
    apply in_map_iff. exists e. split; auto. now apply filter_In in H.
  Qed.
  Lemma find_filter : forall (f : nat * A -> bool) k v l, NoDup (keys l) ->
    find k (filter f l) = Some v -> find k l = Some v /\ f (k, v) = true.
  Proof.
    intros f k v l N H. apply find_in in H. apply filter_In in H. destruct H as [H1 H2].
    split; auto. now apply in_find.
  Qed.

  Definition cnt (f : A -> bool) l : nat := length (filter (fun e => f (snd e)) l).
  Definition b2n (b : bool) : nat := if b then 1 else 0.
  Lemma cnt_cons : forall f k v l, cnt f ((k, v) :: l) = b2n (f v) + cnt f l.
  Proof. intros. unfold cnt. simpl. now destruct (f v). Qed.
  Lemma cnt_set_in : forall f k v v' l, find k l = Some v' ->
    cnt f (set k v l) + b2n (f v') = cnt f l + b2n (f v).
  Proof.
    induction l as [|[j x] l IH]; simpl; [discriminate|].
    destruct (Nat.eqb_spec j k) as [->|N]; intros H.
    - injection H as ->. rewrite !cnt_cons. lia.
    - rewrite !cnt_cons. specialize (IH H). lia.
  Qed.
  Lemma cnt_set_out : forall f k v l, find k l = None -> cnt f (set k v l) = cnt f l + b2n (f v).
  Proof.
    induction l as [|[j x] l IH]; simpl; intros H.
    - rewrite cnt_cons. unfold cnt. simpl. lia.
    - destruct (Nat.eqb_spec j k) as [->|N]; [discriminate|]. rewrite !cnt_cons, IH by assumption. lia.
  Qed.
  Lemma cnt_del : forall f k v l, NoDup (keys l) -> find k l = Some v -> cnt f (del k l) + b2n (f v) = cnt f l.
  Proof.
    induction l as [|[j x] l IH]; simpl; [discriminate|]. intros N H.
    apply NoDup_cons_iff in N. destruct N as [N1 N2].
    destruct (Nat.eqb_spec j k) as [->|Nk]; simpl.
    - injection H as ->. rewrite cnt_cons. unfold del.
      assert (E : filter (fun e => negb (Nat.eqb (fst e) k)) l = l).
      { clear - N1. induction l as [|[j x] l IH]; simpl in *; [reflexivity|].
        destruct (Nat.eqb_spec j k); [subst; tauto|]. simpl. f_equal. apply IH. tauto. }
      rewrite E. lia.
    - rewrite !cnt_cons. specialize (IH N2 H). lia.
  Qed.
  Lemma cnt_pos : forall f l, cnt f l > 0 <-> exists k v, In (k, v) l /\ f v = true.
  Proof.
    induction l as [|[j x] l IH].
    - unfold cnt. simpl. split; [lia|]. intros (? & ? & [] & _).
    - rewrite cnt_cons. destruct (f x) eqn:E; simpl.
      + split; [|lia]. intros _. exists j, x. auto.
      + rewrite IH. split.
        * intros (k & v & H & F). exists k, v. auto.
        * intros (k & v & [[= -> ->]|H] & F); [congruence|]. exists k, v. auto.
  Qed.
  Lemma cnt_ext : forall f g l, (forall k v, In (k, v) l -> f v = g v) -> cnt f l = cnt g l.
  Proof.
    induction l as [|[j x] l IH]; intros H; [reflexivity|].
    rewrite !cnt_cons, (H j x) by (left; auto). f_equal. apply IH. intros k v I. apply (H k v). now right.
  Qed.
End Maps.

(** * The invariant *)
Definition is_cnt (c : nat) (v : hval) : bool := match h_cnt v with Some c' => Nat.eqb c c' | None => false end.
Definition is_obj (o : nat) (v : hval) : bool := match h_obj v with Some o' => Nat.eqb o o' | None => false end.

Notation hmap := (list (nat * hval)) (only parsing).
Record inv (H : hmap) (C : list (nat * nat)) (O R : list nat) : Prop := {
  i_keys : NoDup (keys H);
  i_ckeys : NoDup (keys C);
  i_null : forall k v, In (k, v) H -> (h_obj v = None <-> h_cnt v = None);
  i_same : forall k v k' v', In (k, v) H -> In (k', v') H -> (h_obj v = h_obj v' <-> h_cnt v = h_cnt v');
  i_cnt : forall c, match find c C with Some n => n = cnt (is_cnt c) H /\ n > 0 | None => cnt (is_cnt c) H = 0 end;
  i_obj : forall o, In o O <-> In o R \/ cnt (is_obj o) H > 0;
  i_raw : forall o, In o R -> cnt (is_obj o) H = 0
}.

Definition hval_eqb (x y : hval) : bool :=
  match h_obj x, h_obj y with Some a, Some b => Nat.eqb a b | None, None => true | _, _ => false end &&
  match h_cnt x, h_cnt y with Some a, Some b => Nat.eqb a b | None, None => true | _, _ => false end.
Lemma hval_eqb_eq : forall x y, hval_eqb x y = true <-> x = y.
Proof.
  intros [a b] [c d]. unfold hval_eqb. simpl. rewrite andb_true_iff.
  destruct a, b, c, d; rewrite ?Nat.eqb_eq; split; intros; intuition (try discriminate); try congruence;
    match goal with H : _ = _ |- _ => injection H; intros; subst; auto end.
Qed.

Lemma in_cnt : forall v (H : hmap), (exists k, In (k, v) H) <-> cnt (hval_eqb v) H > 0.
Proof.
  intros v H. rewrite cnt_pos. split.
  - intros [k I]. exists k, v. split; auto. now apply hval_eqb_eq.
  - intros (k & v' & I & E). apply hval_eqb_eq in E. subst. eauto.
Qed.

(** The invariant depends only on how many variables hold each non-empty value. *)
Lemma inv_counts : forall H H' C O R, inv H C O R -> NoDup (keys H') ->
  (forall f, f empty = false -> cnt f H' = cnt f H) -> inv H' C O R.
Proof.
  intros H H' C O R I N E.
  assert (B : forall k v, In (k, v) H' -> v = empty \/ exists k', In (k', v) H).
  { intros k v J. destruct (hval_eqb v empty) eqn:Q.
    - left. now apply hval_eqb_eq.
    - right. apply in_cnt. rewrite <- E; auto. apply in_cnt. eauto. }
  constructor; auto.
  - apply I.
  - intros k v J. destruct (B k v J) as [->|[k' J']]; [simpl; tauto|]. eapply (i_null _ _ _ _ I); eauto.
  - intros k v k' v' J J'.
    destruct (B _ _ J) as [->|[k1 J1]], (B _ _ J') as [->|[k2 J2]]; simpl; try tauto.
    + split; intros X; symmetry; apply (i_null _ _ _ _ I _ _ J2); auto.
    + apply (i_null _ _ _ _ I _ _ J1).
    + eapply (i_same _ _ _ _ I); eauto.
  - intros c. rewrite (E (is_cnt c)) by reflexivity. apply I.
  - intros o. rewrite (E (is_obj o)) by reflexivity. apply I.
  - intros o. rewrite (E (is_obj o)) by reflexivity. apply I.
Qed.

Lemma owners_of_counter : forall H C O R k v o c, inv H C O R -> In (k, v) H ->
  h_obj v = Some o -> h_cnt v = Some c -> cnt (is_cnt c) H = cnt (is_obj o) H.
Proof.
  intros H C O R k v o c I J Eo Ec. apply cnt_ext. intros k' v' J'.
  pose proof (i_same _ _ _ _ I _ _ _ _ J J') as S. rewrite Eo, Ec in S.
  unfold is_cnt, is_obj.
  destruct (h_cnt v') as [c'|] eqn:E1, (h_obj v') as [o'|] eqn:E2; try reflexivity.
  - destruct (Nat.eqb_spec c c'), (Nat.eqb_spec o o'); try reflexivity; subst; exfalso.
    + assert (X : Some o = Some o') by (apply S; reflexivity). congruence.
    + assert (X : Some c = Some c') by (apply S; reflexivity). congruence.
  - pose proof (i_null _ _ _ _ I _ _ J') as Z. rewrite E1, E2 in Z. destruct Z as [Z _]. specialize (Z eq_refl). discriminate.
  - pose proof (i_null _ _ _ _ I _ _ J') as Z. rewrite E1, E2 in Z. destruct Z as [_ Z]. specialize (Z eq_refl). discriminate.
Qed.

Lemma set_in_cases : forall k (v : hval) H j x, NoDup (keys H) -> In (j, x) (set k v H) ->
  (j = k /\ x = v) \/ (j <> k /\ In (j, x) H).
Proof.
  intros k v H j x N J. apply in_find in J; [|now apply nodup_set]. rewrite find_set in J.
  destruct (Nat.eqb_spec k j) as [->|D].
  - left. split; congruence.
  - right. split; auto. now apply find_in.
Qed.

Lemma in_set_back : forall k (v : hval) H j x, NoDup (keys H) -> j <> k -> In (j, x) H -> In (j, x) (set k v H).
Proof.
  intros k v H j x N D J. apply find_in. rewrite find_set.
  destruct (Nat.eqb_spec k j); [congruence|]. now apply in_find.
Qed.

(** Release of the content of a variable. *)
Lemma inv_release : forall s h v R, inv (handles s) (counters s) (objects s) R ->
  find h (handles s) = Some v ->
  exists s', release v s = Ok s' /\ handles s' = handles s /\ msgs s' = msgs s /\
    inv (set h empty (handles s)) (counters s') (objects s') R.
Proof.
  intros s h v R I F. unfold release. pose proof (find_in _ _ _ F) as J.
  set (H := handles s) in *.
  assert (N : NoDup (keys (set h empty H))) by (apply nodup_set, I).
  assert (CE : forall f, f empty = false -> cnt f (set h empty H) + b2n (f v) = cnt f H).
  { intros f Fe. pose proof (cnt_set_in f h empty v H F) as X. rewrite Fe in X. simpl in X. lia. }
  destruct (h_cnt v) as [c|] eqn:Ec.
  - destruct (h_obj v) as [o|] eqn:Eo.
    2:{ pose proof (i_null _ _ _ _ I _ _ J) as Z. rewrite Ec in Z. destruct Z as [Z _]. specialize (Z Eo). discriminate. }
    assert (CV : is_cnt c v = true) by (unfold is_cnt; rewrite Ec; apply Nat.eqb_refl).
    assert (OV : is_obj o v = true) by (unfold is_obj; rewrite Eo; apply Nat.eqb_refl).
    assert (CP : cnt (is_cnt c) H > 0) by (apply cnt_pos; eauto).
    pose proof (i_cnt _ _ _ _ I c) as IC. pose proof (owners_of_counter _ _ _ _ _ _ _ _ I J Eo Ec) as OC.
    assert (OO : In o (objects s)) by (apply I; right; lia).
    assert (NR : ~ In o R) by (intros X; apply (i_raw _ _ _ _ I) in X; lia).
    pose proof (CE (is_cnt c) eq_refl) as Cc. rewrite CV in Cc. simpl in Cc.
    pose proof (CE (is_obj o) eq_refl) as Co. rewrite OV in Co. simpl in Co.
    assert (Cc' : forall c', c' <> c -> cnt (is_cnt c') (set h empty H) = cnt (is_cnt c') H).
    { intros c' D. pose proof (CE (is_cnt c') eq_refl) as X. unfold is_cnt at 2 in X. rewrite Ec in X.
      destruct (Nat.eqb_spec c' c); [congruence|]. simpl in X. lia. }
    assert (Co' : forall o', o' <> o -> cnt (is_obj o') (set h empty H) = cnt (is_obj o') H).
    { intros o' D. pose proof (CE (is_obj o') eq_refl) as X. unfold is_obj at 2 in X. rewrite Eo in X.
      destruct (Nat.eqb_spec o' o); [congruence|]. simpl in X. lia. }
    assert (I1 : forall k w, In (k, w) (set h empty H) -> (h_obj w = None <-> h_cnt w = None)).
    { intros k w K. apply set_in_cases in K; [|apply I]. destruct K as [[-> ->]|[_ K]]; [simpl; tauto|].
      eapply (i_null _ _ _ _ I); eauto. }
    assert (I2 : forall k w k' w', In (k, w) (set h empty H) -> In (k', w') (set h empty H) ->
                 (h_obj w = h_obj w' <-> h_cnt w = h_cnt w')).
    { intros k w k' w' K K'. apply set_in_cases in K, K'; try apply I.
      destruct K as [[-> ->]|[_ K]], K' as [[-> ->]|[_ K']]; simpl; try tauto.
      - split; intros X; symmetry; apply (i_null _ _ _ _ I _ _ K'); auto.
      - apply (i_null _ _ _ _ I _ _ K).
      - eapply (i_same _ _ _ _ I); eauto. }
    destruct (find c (counters s)) as [n|] eqn:Fc; [|lia]. destruct IC as [-> _].
    destruct (cnt (is_cnt c) H) as [|n] eqn:En; [lia|].
    destruct (Nat.eqb_spec n 0) as [->|Nn].
    + unfold delete_object. assert (X : existsb (Nat.eqb o) (objects s) = true).
      { apply existsb_exists. exists o. split; auto. apply Nat.eqb_refl. }
      rewrite X. simpl. eexists. split; [reflexivity|]. simpl. split; [reflexivity|]. split; [reflexivity|].
      constructor; auto.
      * apply nodup_filter, I.
      * intros c'. rewrite find_del. destruct (Nat.eqb_spec c c') as [<-|D]; [lia|].
        rewrite Cc' by congruence. apply I.
      * intros o'. destruct (Nat.eq_dec o' o) as [->|D].
        -- split; [intros Y; apply remove_In in Y; tauto|]. intros [Y|Y]; [tauto|lia].
        -- rewrite Co' by auto. rewrite <- (i_obj _ _ _ _ I o'). split; intros Y.
           ++ now apply in_remove in Y.
           ++ apply in_in_remove; auto.
      * intros o' Y. destruct (Nat.eq_dec o' o) as [->|D]; [tauto|]. rewrite Co' by auto. now apply I.
    + eexists. split; [reflexivity|]. simpl. split; [reflexivity|]. split; [reflexivity|].
      constructor; auto.
      * apply nodup_set, I.
      * intros c'. rewrite find_set. destruct (Nat.eqb_spec c c') as [<-|D]; [lia|].
        rewrite Cc' by congruence. apply I.
      * intros o'. rewrite (i_obj _ _ _ _ I o'). destruct (Nat.eq_dec o' o) as [->|D].
        -- split; intros [Y|Y]; try tauto; right; lia.
        -- rewrite Co' by auto. tauto.
      * intros o' Y. destruct (Nat.eq_dec o' o) as [->|D]; [tauto|]. rewrite Co' by auto. now apply I.
  - exists s. split; [reflexivity|]. split; [reflexivity|]. split; [reflexivity|].
    apply (inv_counts H); auto. intros f Fe. pose proof (CE f Fe) as X.
    assert (Ev : v = empty).
    { destruct v as [o c]. simpl in *. subst. pose proof (i_null _ _ _ _ I _ _ J) as Z. simpl in Z.
      unfold empty. f_equal. now apply Z. }
    rewrite Ev, Fe in X. simpl in X. lia.
Qed.

Definition vacant (h : nat) (H : hmap) : Prop := find h H = None \/ find h H = Some empty.

Lemma cnt_set_vacant : forall f h v H, vacant h H -> f empty = false -> cnt f (set h v H) = cnt f H + b2n (f v).
Proof.
  intros f h v H [V|V] E.
  - now apply cnt_set_out.
  - pose proof (cnt_set_in f h v empty H V) as X. rewrite E in X. simpl in X. lia.
Qed.

(** One more variable for a value already held. *)
Lemma inv_share : forall s h k v R, inv (handles s) (counters s) (objects s) R ->
  vacant h (handles s) -> In (k, v) (handles s) ->
  exists s', match h_cnt v with Some c => incr c s | None => Ok s end = Ok s' /\
    handles s' = handles s /\ objects s' = objects s /\ msgs s' = msgs s /\
    inv (set h v (handles s)) (counters s') (objects s') R.
Proof.
  intros s h k v R I V J. set (H := handles s) in *.
  assert (N : NoDup (keys (set h v H))) by (apply nodup_set, I).
  assert (CE : forall f, f empty = false -> cnt f (set h v H) = cnt f H + b2n (f v)) by (intros; now apply cnt_set_vacant).
  assert (B : forall j w, In (j, w) (set h v H) -> exists i, In (i, w) H).
  { intros j w K. apply set_in_cases in K; [|apply I]. destruct K as [[-> ->]|[_ K]]; eauto. }
  assert (I1 : forall j w, In (j, w) (set h v H) -> (h_obj w = None <-> h_cnt w = None)).
  { intros j w K. destruct (B _ _ K) as [i K']. eapply (i_null _ _ _ _ I); eauto. }
  assert (I2 : forall j w j' w', In (j, w) (set h v H) -> In (j', w') (set h v H) ->
               (h_obj w = h_obj w' <-> h_cnt w = h_cnt w')).
  { intros j w j' w' K K'. destruct (B _ _ K) as [i L], (B _ _ K') as [i' L']. eapply (i_same _ _ _ _ I); eauto. }
  destruct (h_cnt v) as [c|] eqn:Ec.
  - assert (CV : is_cnt c v = true) by (unfold is_cnt; rewrite Ec; apply Nat.eqb_refl).
    destruct (h_obj v) as [o|] eqn:Eo.
    2:{ pose proof (i_null _ _ _ _ I _ _ J) as Z. rewrite Ec in Z. destruct Z as [Z _]. specialize (Z Eo). discriminate. }
    assert (OV : is_obj o v = true) by (unfold is_obj; rewrite Eo; apply Nat.eqb_refl).
    assert (CP : cnt (is_cnt c) H > 0) by (apply cnt_pos; eauto).
    assert (OP : cnt (is_obj o) H > 0) by (apply cnt_pos; eauto).
    pose proof (i_cnt _ _ _ _ I c) as IC. unfold incr.
    destruct (find c (counters s)) as [n|] eqn:Fc; [|lia]. destruct IC as [-> _].
    eexists. split; [reflexivity|]. simpl. split; [reflexivity|]. split; [reflexivity|]. split; [reflexivity|].
    constructor; auto.
    + apply nodup_set, I.
    + intros c'. rewrite find_set, CE by reflexivity. destruct (Nat.eqb_spec c c') as [<-|D].
      * rewrite CV. simpl. lia.
      * unfold is_cnt at 2 4. rewrite Ec. destruct (Nat.eqb_spec c' c); [congruence|]. simpl.
        rewrite Nat.add_0_r. apply I.
    + intros o'. rewrite CE by reflexivity. rewrite (i_obj _ _ _ _ I o').
      destruct (is_obj o' v) eqn:Q; simpl; [|rewrite Nat.add_0_r; tauto].
      split; intros [Y|Y]; auto; right; try lia.
      apply cnt_pos. eauto.
    + intros o' Y. rewrite CE by reflexivity. pose proof (i_raw _ _ _ _ I _ Y) as Z.
      destruct (is_obj o' v) eqn:Q; simpl; [|lia].
      exfalso. assert (cnt (is_obj o') H > 0) by (apply cnt_pos; eauto). lia.
  - exists s. split; [reflexivity|]. split; [reflexivity|]. split; [reflexivity|]. split; [reflexivity|].
    apply (inv_counts H); auto. intros f Fe. rewrite CE by auto.
    assert (Ev : v = empty).
    { destruct v as [o c]. simpl in *. subst. pose proof (i_null _ _ _ _ I _ _ J) as Z. simpl in Z.
      unfold empty. f_equal. now apply Z. }
    rewrite Ev, Fe. simpl. lia.
Qed.

(** A raw object taken by a variable. *)
Lemma inv_new : forall H C O R h o c, inv H C O R -> vacant h H -> In o R -> find c C = None ->
  inv (set h {| h_obj := Some o; h_cnt := Some c |} H) ((c, 1) :: C) O (remove Nat.eq_dec o R).
Proof.
  intros H C O R h o c I V Ro Fc. set (v := {| h_obj := Some o; h_cnt := Some c |}).
  assert (CE : forall f, f empty = false -> cnt f (set h v H) = cnt f H + b2n (f v)) by (intros; now apply cnt_set_vacant).
  pose proof (i_cnt _ _ _ _ I c) as Zc. rewrite Fc in Zc. pose proof (i_raw _ _ _ _ I _ Ro) as Zo.
  assert (D : forall j w, In (j, w) H -> h_cnt w <> Some c /\ h_obj w <> Some o).
  { intros j w K. split; intros E.
    - assert (cnt (is_cnt c) H > 0) by (apply cnt_pos; exists j, w; split; auto; unfold is_cnt; rewrite E; apply Nat.eqb_refl). lia.
    - assert (cnt (is_obj o) H > 0) by (apply cnt_pos; exists j, w; split; auto; unfold is_obj; rewrite E; apply Nat.eqb_refl). lia. }
  constructor.
  - apply nodup_set, I.
  - simpl. constructor; [|apply I]. now apply find_none_keys.
  - intros j w K. apply set_in_cases in K; [|apply I]. destruct K as [[-> ->]|[_ K]].
    + simpl. split; discriminate.
    + eapply (i_null _ _ _ _ I); eauto.
  - intros j w j' w' K K'. apply set_in_cases in K, K'; try apply I.
    destruct K as [[-> ->]|[_ K]], K' as [[-> ->]|[_ K']].
    + tauto.
    + destruct (D _ _ K'). simpl. split; intros X; congruence.
    + destruct (D _ _ K). simpl. split; intros X; congruence.
    + eapply (i_same _ _ _ _ I); eauto.
  - intros c'. simpl find. rewrite CE by reflexivity. change (is_cnt c' v) with (Nat.eqb c' c).
    destruct (Nat.eqb_spec c c') as [<-|E].
    + rewrite Nat.eqb_refl. simpl. lia.
    + destruct (Nat.eqb_spec c' c); [congruence|]. simpl. rewrite Nat.add_0_r. apply I.
  - intros o'. rewrite CE by reflexivity. rewrite (i_obj _ _ _ _ I o'). change (is_obj o' v) with (Nat.eqb o' o).
    destruct (Nat.eqb_spec o' o) as [->|E]; simpl.
    + split; [intros _; right; lia|auto].
    + rewrite Nat.add_0_r. split; intros [Y|Y]; auto; left.
      * now apply in_in_remove.
      * now apply in_remove in Y.
  - intros o' Y. apply in_remove in Y. destruct Y as [Y E]. rewrite CE by reflexivity.
    change (is_obj o' v) with (Nat.eqb o' o). destruct (Nat.eqb_spec o' o); [congruence|]. simpl. rewrite Nat.add_0_r. now apply I.
Qed.

Lemma inv_del : forall H C O R h, inv H C O R -> find h H = Some empty -> inv (del h H) C O R.
Proof.
  intros H C O R h I F. apply (inv_counts H); auto.
  - apply nodup_filter, I.
  - intros f E. pose proof (cnt_del f h empty H (i_keys _ _ _ _ I) F) as X. rewrite E in X. simpl in X. lia.
Qed.

Lemma inv_empty : forall H C O R h, inv H C O R -> vacant h H -> inv (set h empty H) C O R.
Proof.
  intros H C O R h I V. apply (inv_counts H); auto.
  - apply nodup_set, I.
  - intros f E. rewrite cnt_set_vacant by auto. rewrite E. simpl. lia.
Qed.

Lemma inv_move : forall H C O R h k v, inv H C O R -> vacant h H -> h <> k -> find k H = Some v ->
  inv (set k empty (set h v H)) C O R.
Proof.
  intros H C O R h k v I V D F. apply (inv_counts H); auto.
  - apply nodup_set, nodup_set, I.
  - intros f E.
    assert (F' : find k (set h v H) = Some v) by (rewrite find_set; destruct (Nat.eqb_spec h k); [congruence|auto]).
    pose proof (cnt_set_in f k empty v _ F') as X. rewrite (cnt_set_vacant f h v H) in X by auto.
    rewrite E in X. simpl in X. lia.
Qed.

Lemma inv_swap : forall H C O R h k v v', inv H C O R -> find h H = Some v -> find k H = Some v' ->
  inv (set k v (set h v' H)) C O R.
Proof.
  intros H C O R h k v v' I F F'. apply (inv_counts H); auto.
  - apply nodup_set, nodup_set, I.
  - intros f E. destruct (Nat.eq_dec h k) as [->|D].
    + assert (G : find k (set k v' H) = Some v') by (rewrite find_set, Nat.eqb_refl; reflexivity).
      pose proof (cnt_set_in f k v v' _ G). pose proof (cnt_set_in f k v' v H F). lia.
    + assert (G : find k (set h v' H) = Some v') by (rewrite find_set; destruct (Nat.eqb_spec h k); [congruence|auto]).
      pose proof (cnt_set_in f k v v' _ G). pose proof (cnt_set_in f h v' v H F). lia.
Qed.

(** * The relation between an execution and its meaning *)
Definition objs (H : hmap) : list (nat * option nat) := map (fun e => (fst e, h_obj (snd e))) H.
Definition good_sent (H : hmap) (M : hmap) (S : list (nat * option nat)) : Prop :=
  forall m r, find m S = Some r -> exists v, find m M = Some v /\ h_obj v = r /\
    match r with None => h_cnt v = None | Some _ => exists k, In (k, v) H end.

Record matches (s : heap) (a : owners) : Prop := {
  m_inv : inv (handles s) (counters s) (objects s) (raw a);
  m_holds : holds a = objs (handles s);
  m_skeys : NoDup (keys (sent a));
  m_sent : good_sent (handles s) (msgs s) (sent a)
}.

Lemma objs_set : forall k v H, objs (set k v H) = set k (h_obj v) (objs H).
Proof.
  induction H as [|[j x] H IH]; simpl; [reflexivity|].
  destruct (Nat.eqb_spec j k); simpl; [reflexivity|]. now rewrite IH.
Qed.
Lemma objs_del : forall k H, objs (del k H) = del k (objs H).
Proof.
  induction H as [|[j x] H IH]; simpl; [reflexivity|].
  destruct (Nat.eqb_spec j k); simpl; [assumption|]. now rewrite IH.
Qed.
Lemma objs_find : forall k H, find k (objs H) = option_map h_obj (find k H).
Proof.
  induction H as [|[j x] H IH]; simpl; [reflexivity|]. destruct (Nat.eqb j k); auto.
Qed.
Lemma objs_owned : forall o H, owned o (objs H) = true <-> exists k v, In (k, v) H /\ h_obj v = Some o.
Proof.
  intros o H. unfold owned. rewrite existsb_exists. split.
  - intros ([k r] & I & E). apply in_map_iff in I. destruct I as ([j v] & X & I). injection X as -> <-.
    unfold holds_obj in E. simpl in E. exists k, v. split; auto. destruct (h_obj v) as [o'|]; [|discriminate].
    apply Nat.eqb_eq in E. now subst.
  - intros (k & v & I & E). exists (k, h_obj v). split.
    + apply in_map_iff. exists (k, v). auto.
    + unfold holds_obj. simpl. rewrite E. apply Nat.eqb_refl.
Qed.
Lemma objs_count : forall o H, n_owners o (objs H) = cnt (is_obj o) H.
Proof.
  intros o H. induction H as [|[j v] H IH]; [reflexivity|]. rewrite cnt_cons. unfold n_owners, objs in *.
  cbn [map filter fst snd]. unfold holds_obj at 1. cbn [snd]. unfold is_obj at 1.
  destruct (h_obj v) as [o'|]; [|exact IH]. destruct (Nat.eqb o o'); cbn [length b2n]; rewrite IH; reflexivity.
Qed.

(** After any change of the variables, the remaining streamed pointers are good, provided that
    no object changes its counter. *)
Lemma prune_good : forall H H' M S, NoDup (keys S) ->
  (forall k v k' v', In (k, v) H -> In (k', v') H' -> h_obj v <> None -> h_obj v = h_obj v' -> v = v') ->
  good_sent H M S ->
  good_sent H' M (filter (fun e => match snd e with Some o => owned o (objs H') | None => true end) S).
Proof.
  intros H H' M S N E G m r F. apply find_filter in F; auto. destruct F as [F O]. simpl in O.
  destruct (G _ _ F) as (v & Fv & Ev & Cv). exists v. split; auto. split; auto.
  destruct r as [o|]; auto. destruct Cv as [k K]. apply objs_owned in O. destruct O as (j & w & J & Ew).
  exists j. rewrite (E _ _ _ _ K J); auto; congruence.
Qed.

(** Values of an object are preserved by the change from H to H'. *)
Definition keeps (H H' : hmap) : Prop :=
  forall k v k' v', In (k, v) H -> In (k', v') H' -> h_obj v <> None -> h_obj v = h_obj v' -> v = v'.

Lemma inv_value : forall H C O R k v k' v', inv H C O R -> In (k, v) H -> In (k', v') H -> h_obj v = h_obj v' -> v = v'.
Proof.
  intros H C O R k v k' v' I J J' E. pose proof (proj1 (i_same _ _ _ _ I _ _ _ _ J J') E) as E'.
  destruct v, v'; simpl in *; congruence.
Qed.

Lemma keeps_sub : forall H C O R H', inv H C O R ->
  (forall k v, In (k, v) H' -> h_obj v = None \/ exists k', In (k', v) H) -> keeps H H'.
Proof.
  intros H C O R H' I S k v k' v' J J' N E. destruct (S _ _ J') as [X|[i X]]; [congruence|].
  eapply inv_value; eauto.
Qed.

Lemma matches_prune : forall s s' a R holds' sent',
  matches s a -> inv (handles s') (counters s') (objects s') R -> holds' = objs (handles s') ->
  keeps (handles s) (handles s') -> NoDup (keys sent') -> good_sent (handles s) (msgs s') sent' ->
  matches s' (prune {| holds := holds'; raw := R; sent := sent' |}).
Proof.
  intros s s' a R hh ss M I E K N G. constructor; simpl; auto.
  - now apply nodup_filter.
  - rewrite E. now apply (prune_good (handles s)).
Qed.

Definition vals_in (H H' : hmap) : Prop := forall k v, In (k, v) H' -> h_obj v = None \/ exists k', In (k', v) H.
Lemma vals_set : forall H H' h v, NoDup (keys H') -> vals_in H H' -> (h_obj v = None \/ exists k, In (k, v) H) -> vals_in H (set h v H').
Proof.
  intros H H' h v N S V k w J. apply set_in_cases in J; auto. destruct J as [[-> ->]|[_ J]]; auto. eapply S; eauto.
Qed.
Lemma vals_refl : forall H, vals_in H H.
Proof. intros H k v J. right. eauto. Qed.
Lemma vals_del : forall H H' h, vals_in H H' -> vals_in H (del h H').
Proof. intros H H' h S k v J. apply filter_In in J. eapply S. apply J. Qed.

(** decrement *)
Lemma dec_ok : forall s h v R, inv (handles s) (counters s) (objects s) R -> find h (handles s) = Some v ->
  exists s', decrement h s = Ok s' /\ handles s' = set h empty (handles s) /\ msgs s' = msgs s /\
    inv (handles s') (counters s') (objects s') R.
Proof.
  intros s h v R I F. destruct (inv_release _ _ _ _ I F) as (s1 & E & H1 & M1 & I1).
  unfold decrement, get_handle. rewrite F. simpl. rewrite E. simpl.
  eexists. split; [reflexivity|]. unfold set_handle, with_handles. simpl. rewrite H1. auto.
Qed.

Lemma held_find : forall s a k v, matches s a -> find k (handles s) = Some v -> held k a = h_obj v.
Proof. intros s a k v M F. unfold held. rewrite (m_holds _ _ M), objs_find, F. reflexivity. Qed.

Lemma set_set : forall (A : Type) k (x y : A) l, set k y (set k x l) = set k y l.
Proof.
  induction l as [|[j z] l IH]; simpl.
  - now rewrite Nat.eqb_refl.
  - destruct (Nat.eqb_spec j k); simpl.
    + now rewrite Nat.eqb_refl.
    + destruct (Nat.eqb_spec j k); [congruence|]. now rewrite IH.
Qed.
Lemma set_same : forall (A : Type) k (x : A) l, find k l = Some x -> set k x l = l.
Proof.
  induction l as [|[j z] l IH]; simpl; [discriminate|].
  destruct (Nat.eqb_spec j k); intros H; [injection H as ->; subst; reflexivity|]. now rewrite IH.
Qed.

Lemma not_yet_find : forall h s, not_yet h s = true -> find h (handles s) = None.
Proof. intros h s. unfold not_yet. now destruct (find h (handles s)). Qed.

Lemma give_none : forall h a, give h None a = write h None a.
Proof. reflexivity. Qed.

Lemma good_msgs : forall s a, matches s a -> good_sent (handles s) (msgs s) (sent a).
Proof. intros s a M. apply M. Qed.

Theorem step_ok : forall s a x, matches s a -> follows_rule a x -> step s x <> NoExec ->
  exists s', step s x = Ok s' /\ matches s' (meaning a x).
Proof.
  intros s a x M Rl NE.
  pose proof (m_inv _ _ M) as I. pose proof (i_keys _ _ _ _ I) as NK. pose proof (m_holds _ _ M) as HE.
  pose proof (m_skeys _ _ M) as SK. pose proof (m_sent _ _ M) as SG.
  set (H := handles s) in *.
  destruct x as [o|h o fresh|h k|h k|h k|h k|h k|h o fresh|h|k m|h m fresh]; unfold meaning.
  - (* new object *)
    simpl in *. destruct (existsb (Nat.eqb o) (objects s)) eqn:E; [congruence|].
    eexists. split; [reflexivity|]. eapply matches_prune with (a := a); simpl; eauto.
    + assert (NO : ~ In o (objects s)).
      { intros X. assert (existsb (Nat.eqb o) (objects s) = true) by (apply existsb_exists; exists o; split; auto; apply Nat.eqb_refl). congruence. }
      constructor; try apply I.
      * intros o'. pose proof (i_obj _ _ _ _ I o') as Q. simpl. fold H. tauto.
      * intros o' [<-|X]; [|now apply I]. fold H.
        destruct (cnt (is_obj o) H) eqn:Q; auto. exfalso. apply NO, I. right. fold H. lia.
    + exact (keeps_sub _ _ _ _ _ I (vals_refl _)).
  - (* construct *)
    simpl in *. destruct (not_yet h s) eqn:V; [|congruence]. apply not_yet_find in V. fold H in V.
    unfold init in *. destruct o as [o|].
    + destruct (find fresh (counters s)) eqn:Fc; [congruence|].
      eexists. split; [reflexivity|]. unfold give. eapply matches_prune with (a := a); simpl; eauto.
      * apply inv_new; auto. now left.
      * fold H. now rewrite objs_set, HE.
      * intros k v k' v' J J' Nn Eq. apply set_in_cases in J'; auto. destruct J' as [[-> ->]|[_ J']].
        -- exfalso. simpl in Eq. pose proof (i_raw _ _ _ _ I _ Rl) as Z.
           assert (cnt (is_obj o) H > 0) by (apply cnt_pos; exists k, v; split; auto; unfold is_obj; rewrite Eq; apply Nat.eqb_refl). fold H in Z. lia.
        -- exact (inv_value _ _ _ _ _ _ _ _ I J J' Eq).
    + eexists. split; [reflexivity|]. unfold give. eapply matches_prune with (a := a); simpl; eauto.
      * apply inv_empty; auto. now left.
      * fold H. now rewrite objs_set, HE.
      * fold H. apply (keeps_sub _ _ _ _ _ I). apply vals_set; auto. apply vals_refl.
  - (* copy *)
    simpl in *. destruct (not_yet h s) eqn:V; [|congruence]. apply not_yet_find in V. fold H in V.
    unfold get_handle in *. fold H in NE |- *. destruct (find k H) as [v|] eqn:F; [|simpl in NE; congruence].
    simpl. destruct (inv_share s h k v (raw a) I (or_introl V) (find_in _ _ _ F)) as (s1 & E1 & H1 & _ & M1 & I1).
    rewrite E1. simpl. eexists. split; [reflexivity|].
    rewrite (held_find _ _ _ _ M F). unfold write. eapply matches_prune with (a := a); simpl; eauto.
    + rewrite H1. exact I1.
    + rewrite H1. fold H. now rewrite objs_set, HE.
    + rewrite H1. fold H. apply (keeps_sub _ _ _ _ _ I). apply vals_set; auto using vals_refl. right. exists k. now apply find_in.
    + rewrite M1. exact SG.
  - (* move *)
    simpl in *. destruct (not_yet h s) eqn:V; [|congruence]. apply not_yet_find in V. fold H in V.
    unfold get_handle in *. fold H in NE |- *. destruct (find k H) as [v|] eqn:F; [|simpl in NE; congruence].
    simpl. eexists. split; [reflexivity|].
    rewrite (held_find _ _ _ _ M F). unfold write. eapply matches_prune with (a := a); simpl; eauto.
    + apply inv_move; auto; [now left|]. intros ->. congruence.
    + fold H. now rewrite !objs_set, HE.
    + fold H. apply (keeps_sub _ _ _ _ _ I). apply vals_set; [now apply nodup_set| |now left].
      apply vals_set; auto using vals_refl. right. exists k. now apply find_in.
  - (* assign *)
    simpl in *. unfold get_handle in *. fold H in NE |- *.
    destruct (find h H) as [vh|] eqn:Fh; [|simpl in NE; congruence].
    destruct (find k H) as [v|] eqn:F; [|simpl in NE; congruence]. simpl in *.
    rewrite (held_find _ _ _ _ M F). unfold write.
    destruct (Nat.eqb_spec h k) as [->|D].
    + eexists. split; [reflexivity|]. eapply matches_prune with (a := a); simpl; eauto.
      * rewrite HE, <- objs_set. fold H. rewrite set_same; congruence.
      * apply (keeps_sub _ _ _ _ _ I). apply vals_refl.
    + destruct (dec_ok _ _ _ _ I Fh) as (s1 & E1 & H1 & M1 & I1). rewrite E1. simpl. fold H in H1.
      rewrite H1. rewrite find_set. destruct (Nat.eqb_spec h k); [congruence|]. rewrite F. simpl.
      destruct (inv_share s1 h k v (raw a) I1) as (s2 & E2 & H2 & _ & M2 & I2).
      { right. rewrite H1, find_set, Nat.eqb_refl. reflexivity. }
      { rewrite H1. apply in_set_back; auto. now apply find_in. }
      rewrite E2. simpl. eexists. split; [reflexivity|].
      assert (HH : set h v (handles s2) = set h v H) by (rewrite H2, H1; apply set_set).
      eapply matches_prune with (a := a); simpl; eauto.
      * rewrite HH, <- (set_set _ h empty v H), <- H1. exact I2.
      * rewrite HH, objs_set, HE. reflexivity.
      * rewrite HH. fold H. apply (keeps_sub _ _ _ _ _ I). apply vals_set; auto using vals_refl. right. exists k. now apply find_in.
      * rewrite M2, M1. exact SG.
  - (* move assign *)
    simpl in *. unfold get_handle in *. fold H in NE |- *.
    destruct (find h H) as [vh|] eqn:Fh; [|simpl in NE; congruence].
    destruct (find k H) as [v|] eqn:F; [|simpl in NE; congruence]. simpl in *.
    destruct (Nat.eqb_spec h k) as [->|D].
    + eexists. split; [reflexivity|]. destruct a as [ah ar asn]. simpl in *.
      eapply matches_prune with (a := {| holds := ah; raw := ar; sent := asn |}); simpl; eauto.
      apply (keeps_sub _ _ _ _ _ I). apply vals_refl.
    + rewrite (held_find _ _ _ _ M F). unfold write.
      destruct (dec_ok _ _ _ _ I Fh) as (s1 & E1 & H1 & M1 & I1). rewrite E1. simpl. fold H in H1.
      rewrite H1. rewrite find_set. destruct (Nat.eqb_spec h k); [congruence|]. rewrite F. simpl.
      eexists. split; [reflexivity|].
      assert (HH : set h v (handles s1) = set h v H) by (rewrite H1; apply set_set).
      eapply matches_prune with (a := a); simpl; eauto.
      * apply inv_move; auto.
        -- right. rewrite H1, find_set, Nat.eqb_refl. reflexivity.
        -- rewrite H1, find_set. destruct (Nat.eqb_spec h k); [congruence|]. exact F.
      * rewrite HH, !objs_set, HE. reflexivity.
      * rewrite HH. fold H. apply (keeps_sub _ _ _ _ _ I). apply vals_set; [now apply nodup_set| |now left].
        apply vals_set; auto using vals_refl. right. exists k. now apply find_in.
      * rewrite M1. exact SG.
  - (* swap *)
    simpl in *. unfold get_handle in *. fold H in NE |- *.
    destruct (find h H) as [vh|] eqn:Fh; [|simpl in NE; congruence].
    destruct (find k H) as [v|] eqn:F; [|simpl in NE; congruence]. simpl in *.
    eexists. split; [reflexivity|]. rewrite (held_find _ _ _ _ M F), (held_find _ _ _ _ M Fh). unfold write.
    eapply matches_prune with (a := a); simpl; eauto.
    + apply inv_swap; auto.
    + fold H. now rewrite !objs_set, HE.
    + fold H. apply (keeps_sub _ _ _ _ _ I). apply vals_set; [now apply nodup_set| |right; exists h; now apply find_in].
      apply vals_set; auto using vals_refl. right. exists k. now apply find_in.
  - (* reset *)
    simpl in *. unfold get_handle in *. fold H in NE |- *.
    destruct (find h H) as [vh|] eqn:Fh; [|simpl in NE; congruence]. simpl in *.
    unfold reset_to in *. destruct (dec_ok _ _ _ _ I Fh) as (s1 & E1 & H1 & M1 & I1).
    rewrite E1 in *. simpl in *. fold H in H1.
    assert (V : vacant h (handles s1)) by (right; rewrite H1, find_set, Nat.eqb_refl; reflexivity).
    destruct o as [o|].
    + unfold init in *. destruct (find fresh (counters s1)) eqn:Fc; [congruence|].
      eexists. split; [reflexivity|]. unfold give. eapply matches_prune with (a := a); simpl; eauto.
      * apply inv_new; auto.
      * rewrite H1, set_set, objs_set, HE. reflexivity.
      * rewrite H1, set_set. intros k v k' v' J J' Nn Eq. apply set_in_cases in J'; auto. destruct J' as [[-> ->]|[_ J']].
        -- exfalso. simpl in Eq. pose proof (i_raw _ _ _ _ I _ Rl) as Z.
           assert (cnt (is_obj o) H > 0) by (apply cnt_pos; exists k, v; split; auto; unfold is_obj; rewrite Eq; apply Nat.eqb_refl). fold H in Z. lia.
        -- exact (inv_value _ _ _ _ _ _ _ _ I J J' Eq).
      * rewrite M1. exact SG.
    + simpl. eexists. split; [reflexivity|]. unfold give. eapply matches_prune with (a := a); simpl; eauto.
      * apply inv_empty; auto.
      * rewrite H1, set_set, objs_set, HE. reflexivity.
      * rewrite H1, set_set. fold H. apply (keeps_sub _ _ _ _ _ I). apply vals_set; auto. apply vals_refl.
      * rewrite M1. exact SG.
  - (* destroy *)
    simpl in *. unfold get_handle in *. fold H in NE |- *.
    destruct (find h H) as [vh|] eqn:Fh; [|simpl in NE; congruence]. simpl in *.
    destruct (inv_release _ _ _ _ I Fh) as (s1 & E1 & H1 & M1 & I1). rewrite E1. simpl. fold H in H1, I1.
    eexists. split; [reflexivity|].
    eapply matches_prune with (a := a); simpl; eauto.
    + rewrite H1. assert (E : del h H = del h (set h empty H)).
      { clear. induction H as [|[j x] H IH]; simpl.
        - rewrite Nat.eqb_refl. reflexivity.
        - destruct (Nat.eqb_spec j h); simpl.
          + now rewrite Nat.eqb_refl.
          + destruct (Nat.eqb_spec j h); [congruence|]. simpl. now rewrite IH. }
      rewrite E. apply inv_del; auto. rewrite find_set, Nat.eqb_refl. reflexivity.
    + rewrite H1. fold H. now rewrite objs_del, HE.
    + rewrite H1. fold H. apply (keeps_sub _ _ _ _ _ I). apply vals_del, vals_refl.
    + rewrite M1. exact SG.
  - (* stream out *)
    simpl in *. unfold get_handle in *. fold H in NE |- *.
    destruct (find k H) as [v|] eqn:F; [|simpl in NE; congruence]. simpl in *.
    eexists. split; [reflexivity|]. rewrite (held_find _ _ _ _ M F).
    eapply matches_prune with (a := a); simpl; eauto.
    + apply (keeps_sub _ _ _ _ _ I). apply vals_refl.
    + now apply nodup_set.
    + intros m' r Fm. rewrite find_set in Fm. rewrite find_set. destruct (Nat.eqb_spec m m') as [<-|D].
      * injection Fm as <-. exists v. split; auto. split; auto. destruct (h_obj v) eqn:Eo.
        -- exists k. now apply find_in.
        -- apply (i_null _ _ _ _ I _ _ (find_in _ _ _ F)). auto.
      * apply SG. auto.
  - (* stream in *)
    simpl in *. unfold get_handle in *. fold H in NE |- *.
    destruct (find h H) as [vh|] eqn:Fh; [|simpl in NE; congruence]. simpl in *.
    destruct Rl as (r & Fr & Ro). destruct (SG _ _ Fr) as (v & Fv & Ev & Cv). rewrite Fv in *. rewrite Fr.
    unfold reset_to in *. destruct (dec_ok _ _ _ _ I Fh) as (s1 & E1 & H1 & M1 & I1).
    rewrite E1 in *. simpl in *. fold H in H1.
    assert (V : vacant h (handles s1)) by (right; rewrite H1, find_set, Nat.eqb_refl; reflexivity).
    destruct r as [o|].
    + destruct Cv as [k K]. fold H in K. rewrite Ev in *.
      rewrite HE, <- objs_del in Ro. apply objs_owned in Ro. destruct Ro as (k' & v' & K' & Eo).
      apply filter_In in K'. destruct K' as [K' Dk]. simpl in Dk. apply negb_true_iff, Nat.eqb_neq in Dk.
      assert (v' = v) by (apply (inv_value _ _ _ _ _ _ _ _ I K' K); congruence). subst v'.
      destruct (h_cnt v) as [c|] eqn:Ec.
      2:{ exfalso. apply (i_null _ _ _ _ I _ _ K) in Ec. congruence. }
      destruct (inv_share s1 h k' v (raw a) I1 V) as (s2 & E2 & H2 & _ & M2 & I2).
      { rewrite H1. apply in_set_back; auto. }
      rewrite Ec in E2. unfold init. rewrite E2. simpl. eexists. split; [reflexivity|]. unfold write.
      assert (Vv : {| h_obj := Some o; h_cnt := Some c |} = v) by (destruct v; simpl in *; congruence).
      assert (HH : set h v (handles s2) = set h v H) by (rewrite H2, H1; apply set_set).
      eapply matches_prune with (a := a); simpl; eauto.
      * rewrite Vv, H2. exact I2.
      * rewrite Vv, HH, objs_set, HE, Ev. reflexivity.
      * rewrite Vv, HH. fold H. apply (keeps_sub _ _ _ _ _ I). apply vals_set; auto using vals_refl. right. eauto.
      * rewrite M2, M1. exact SG.
    + rewrite Ev in *. simpl. eexists. split; [reflexivity|]. unfold write. eapply matches_prune with (a := a); simpl; eauto.
      * apply inv_empty; auto.
      * rewrite H1, set_set, objs_set, HE. reflexivity.
      * rewrite H1, set_set. fold H. apply (keeps_sub _ _ _ _ _ I). apply vals_set; auto. apply vals_refl.
      * rewrite M1. exact SG.
Qed.

Lemma start_matches : matches start nobody.
Proof.
  constructor; simpl; try reflexivity; try constructor; simpl; try constructor; intros; try tauto.
  - unfold cnt in *. simpl in *. intuition lia.
  - intros m r E. discriminate.
Qed.

Lemma run_matches : forall l s a, matches s a -> disciplined a l -> run s l <> NoExec ->
  exists s', run s l = Ok s' /\ matches s' (meanings a l).
Proof.
  induction l as [|x l IH]; intros s a M D NE; simpl in *.
  - eauto.
  - destruct D as [D1 D2].
    destruct (step s x) as [s1| |] eqn:E.
    + destruct (step_ok s a x M D1) as (s2 & E2 & M2); [congruence|]. rewrite E in E2. injection E2 as <-.
      simpl in *. apply IH; auto.
    + destruct (step_ok s a x M D1) as (s2 & E2 & M2); congruence.
    + simpl in NE. congruence.
Qed.

Lemma matches_get : forall s a h o, matches s a -> find h (holds a) = Some o -> get h s = Ok o.
Proof.
  intros s a h o M F. unfold get, get_handle. rewrite (m_holds _ _ M), objs_find in F.
  destruct (find h (handles s)); simpl in *; congruence.
Qed.

Lemma matches_counter : forall s a h o, matches s a -> find h (holds a) = Some o ->
  get_counter h s = Ok (match o with Some o => n_owners o (holds a) | None => 0 end).
Proof.
  intros s a h o M F. unfold get_counter, get_handle. rewrite (m_holds _ _ M), objs_find in F.
  rewrite (m_holds _ _ M).
  destruct (find h (handles s)) as [v|] eqn:Fh; [|discriminate]. simpl in F. injection F as <-. simpl.
  pose proof (m_inv _ _ M) as I. pose proof (find_in _ _ _ Fh) as J.
  pose proof (i_null _ _ _ _ I _ _ J) as Z.
  destruct (h_cnt v) as [c|] eqn:Ec.
  - destruct (h_obj v) as [o|] eqn:Eo; [|destruct Z as [Z _]; specialize (Z eq_refl); discriminate].
    rewrite objs_count, <- (owners_of_counter _ _ _ _ _ _ _ _ I J Eo Ec).
    pose proof (i_cnt _ _ _ _ I c) as K.
    assert (cnt (is_cnt c) (handles s) > 0) by (apply cnt_pos; exists h, v; split; auto; unfold is_cnt; rewrite Ec; apply Nat.eqb_refl).
    destruct (find c (counters s)); [destruct K; congruence|lia].
  - destruct Z as [_ Z]. rewrite (Z eq_refl). reflexivity.
Qed.

Lemma matches_objects : forall s a o, matches s a -> (In o (objects s) <-> In o (raw a) \/ owned o (holds a) = true).
Proof.
  intros s a o M. rewrite (i_obj _ _ _ _ (m_inv _ _ M)), (m_holds _ _ M), objs_owned, cnt_pos.
  split; intros [X|(k & v & J & E)]; auto; right; exists k, v; split; auto.
  - unfold is_obj in E. destruct (h_obj v); [|discriminate]. apply Nat.eqb_eq in E. congruence.
  - unfold is_obj. rewrite E. apply Nat.eqb_refl.
Qed.

Lemma matches_counters : forall s a, matches s a ->
  forall c, In c (map fst (counters s)) <-> exists h v, In (h, v) (handles s) /\ h_cnt v = Some c.
Proof.
  intros s a M c. pose proof (i_cnt _ _ _ _ (m_inv _ _ M) c) as K. split.
  - intros J. destruct (find c (counters s)) as [n|] eqn:F.
    + destruct K as [-> K]. apply cnt_pos in K. destruct K as (h & v & I & E). exists h, v. split; auto.
      unfold is_cnt in E. destruct (h_cnt v); [|discriminate]. apply Nat.eqb_eq in E. congruence.
    + apply find_none_keys in F. exfalso. now apply F.
  - intros (h & v & I & E).
    assert (P : cnt (is_cnt c) (handles s) > 0) by (apply cnt_pos; exists h, v; split; auto; unfold is_cnt; rewrite E; apply Nat.eqb_refl).
    destruct (find c (counters s)) as [n|] eqn:F; [|lia]. now apply find_in_keys in F.
Qed.

(** The main result. *)
Lemma shared_ok : forall l, disciplined nobody l -> run start l <> NoExec ->
  exists s, run start l = Ok s /\
    (forall h o, find h (holds (meanings nobody l)) = Some o -> get h s = Ok o /\
       get_counter h s = Ok (match o with Some o => n_owners o (holds (meanings nobody l)) | None => 0 end)) /\
    (forall o, In o (objects s) <-> In o (raw (meanings nobody l)) \/ owned o (holds (meanings nobody l)) = true) /\
    (forall c, In c (map fst (counters s)) <-> exists h v, In (h, v) (handles s) /\ h_cnt v = Some c).
Proof.
  intros l D NE. destruct (run_matches l _ _ start_matches D NE) as (s & E & M). exists s.
  split; [exact E|]. split; [|split].
  - intros h o F. split; [eapply matches_get|eapply matches_counter]; eauto.
  - intros o. now apply matches_objects.
  - now apply (matches_counters s (meanings nobody l)).
Qed.

(** * The moment of deletion *)
Lemma owned_set : forall o k (r : option nat) l, r = Some o -> owned o (set k r l) = true.
Proof.
  intros o k r l ->. unfold owned. apply existsb_exists. exists (k, Some o). split; [|unfold holds_obj; simpl; apply Nat.eqb_refl].
  apply find_in. rewrite find_set, Nat.eqb_refl. reflexivity.
Qed.

Lemma raw_stays : forall a x o, In o (raw a) -> In o (raw (meaning a x)) \/ owned o (holds (meaning a x)) = true.
Proof.
  intros a x o R. destruct x as [o'|h r f|h k|h k|h k|h k|h k|h r f|h|k m|h m f]; simpl; auto.
  - destruct r as [o'|]; auto. destruct (Nat.eq_dec o o') as [->|D].
    + right. now apply owned_set.
    + left. now apply in_in_remove.
  - destruct (Nat.eqb h k); auto.
  - destruct r as [o'|]; auto. destruct (Nat.eq_dec o o') as [->|D].
    + right. now apply owned_set.
    + left. now apply in_in_remove.
Qed.

Lemma meanings_app : forall l1 l2 a, meanings a (l1 ++ l2) = meanings (meanings a l1) l2.
Proof. induction l1; simpl; intros; auto. Qed.
Lemma disciplined_app : forall l1 l2 a, disciplined a (l1 ++ l2) <-> disciplined a l1 /\ disciplined (meanings a l1) l2.
Proof. induction l1 as [|x l1 IH]; simpl; intros; [tauto|]. rewrite IH. tauto. Qed.
Lemma run_app : forall l1 l2 s, run s (l1 ++ l2) = bind (run s l1) (fun s => run s l2).
Proof. induction l1 as [|x l1 IH]; simpl; intros; auto. destruct (step s x); simpl; auto. Qed.

Lemma deleted_when_last_goes : forall l x s s', disciplined nobody (l ++ [x]) ->
  run start l = Ok s -> run start (l ++ [x]) = Ok s' ->
  forall o, (In o (objects s) /\ ~ In o (objects s')) <->
            (owned o (holds (meanings nobody l)) = true /\ owned o (holds (meanings nobody (l ++ [x]))) = false /\
             ~ In o (raw (meanings nobody (l ++ [x])))).
Proof.
  intros l x s s' D E E' o. pose proof D as D'. apply disciplined_app in D'. destruct D' as [D1 _].
  destruct (run_matches l _ _ start_matches D1) as (s1 & X1 & M1); [congruence|].
  destruct (run_matches (l ++ [x]) _ _ start_matches D) as (s2 & X2 & M2); [congruence|].
  assert (s1 = s) by congruence. assert (s2 = s') by congruence. subst.
  rewrite (matches_objects _ _ o M1), (matches_objects _ _ o M2).
  rewrite meanings_app. cbn [meanings]. set (a := meanings nobody l) in *.
  pose proof (raw_stays a x o) as RS.
  destruct (owned o (holds (meaning a x))) eqn:Q.
  - split; [tauto|]. intros (_ & X & _). congruence.
  - split.
    + intros [[X|X] N]; [exfalso; destruct (RS X) as [Y|Y]; [tauto|congruence]|].
      split; auto.
    + intros (X & _ & N). split; auto. intros [Y|Y]; [tauto|congruence].
Qed.

Lemma stream_in_ok : forall l h m f o,
  disciplined nobody l -> find m (sent (meanings nobody l)) = Some (Some o) ->
  owned o (del h (holds (meanings nobody l))) = true ->
  run start (l ++ [StreamIn h m f]) <> NoExec ->
  exists s, run start (l ++ [StreamIn h m f]) = Ok s /\ get h s = Ok (Some o) /\ In o (objects s) /\
    get_counter h s = Ok (n_owners o (set h (Some o) (holds (meanings nobody l)))).
Proof.
  intros l h m f o D F W NE.
  assert (D2 : disciplined nobody (l ++ [StreamIn h m f])).
  { apply disciplined_app. split; auto. simpl. split; auto. exists (Some o). auto. }
  destruct (shared_ok _ D2 NE) as (s & E & G & O & _). exists s. split; [exact E|].
  rewrite meanings_app in G, O. simpl in G, O. rewrite F in G, O.
  assert (X : find h (set h (Some o) (holds (meanings nobody l))) = Some (Some o)).
  { rewrite find_set, Nat.eqb_refl. reflexivity. }
  destruct (G _ _ X) as [G1 G2]. split; [exact G1|]. split; [|exact G2].
  apply O. right. now apply owned_set.
Qed.
