(** Proofs about the points spread on a surface. *)
From Coq Require Import Reals List Arith Bool ZArith Lia Lra Permutation.
From Verif Require Import Vec Seeds SeedsSpec SkdDistProofs.
Import ListNotations.
Open Scope R_scope.

(** ** Distances *)
Lemma norm_sym : forall a b, norm (vsub a b) = norm (vsub b a).
Proof. intros a b. unfold norm. f_equal. unfold dot, vsub. destruct a, b. cbn. ring. Qed.
Lemma norm_self : forall a, norm (vsub a a) = 0.
Proof. intros a. unfold norm. replace (dot (vsub a a) (vsub a a)) with 0 by (unfold dot, vsub; destruct a; cbn; ring). apply sqrt_0. Qed.
Lemma norm_zero_eq : forall a b, norm (vsub a b) <= 0 -> a = b.
Proof.
  intros [a1 a2 a3] [b1 b2 b3] H. pose proof (coord_le (vsub (V3 a1 a2 a3) (V3 b1 b2 b3))) as (X & Y & Z). cbn in X, Y, Z.
  assert (forall u v n, Rabs (u - v) <= n -> n <= 0 -> u = v).
  { intros u v n A B. pose proof (Rabs_pos (u - v)). assert (Rabs (u - v) = 0) by lra. destruct (Req_dec (u - v) 0) as [E|E]; [lra|]. apply Rabs_no_R0 in E. contradiction. }
  f_equal; eauto.
Qed.
Lemma norm_triangle : forall a b c, norm (vsub a c) <= norm (vsub a b) + norm (vsub b c).
Proof.
  intros a b c. pose proof (norm_ge (vsub a b)) as A. pose proof (norm_ge (vsub b c)) as B. apply norm_le_sq; [lra|].
  pose proof (norm_sq (vsub a b)) as A2. pose proof (norm_sq (vsub b c)) as B2. pose proof (schwarz (vsub a b) (vsub b c)) as S1.
  replace (dot (vsub a c) (vsub a c)) with (dot (vsub a b) (vsub a b) + 2 * dot (vsub a b) (vsub b c) + dot (vsub b c) (vsub b c)) by (unfold dot, vsub; destruct a, b, c; cbn; ring).
  pose proof (Rle_abs (dot (vsub a b) (vsub b c))). nra.
Qed.

(** ** Decimation *)
Section Decimate.
  Variable l : list (vec * R).
  Notation N := (length l).
  Lemma refer_place : forall j, (j < N)%nat -> refer l j = place l j.
  Proof.
    intros j H. unfold refer, place, sens, point. destruct l as [|[o so] r]; [cbn in H; lia|]. cbn [nth_error].
    rewrite (nth_error_nth' _ (vzero, 0) H). destruct (nth j ((o, so) :: r) (vzero, 0)) as [p s]. reflexivity.
  Qed.
  Lemma gap_apart : forall i j, (i < N)%nat -> (j < N)%nat -> gap l i j = apart l i j.
  Proof. intros i j A B. unfold gap, apart. rewrite !refer_place by assumption. reflexivity. Qed.
  Lemma gap_sym : forall i j, gap l i j = gap l j i.
  Proof. intros. apply norm_sym. Qed.
  Lemma gap_self : forall i, gap l i i = 0.
  Proof. intros. apply norm_self. Qed.
  Lemma gap_ge : forall i j, 0 <= gap l i j.
  Proof. intros. apply norm_ge. Qed.
  Lemma has_iff : forall i k, has i k = true <-> In i k.
  Proof. intros i k. unfold has. rewrite existsb_exists. split; [intros (x & A & B); apply Nat.eqb_eq in B; subst; exact A|]. intro A. exists i. split; [exact A|apply Nat.eqb_refl]. Qed.
  Lemma neighbours_iff : forall i h e j, In j (neighbours l i h e) <-> (j < N)%nat /\ gap l j i <= h /\ ~ In j e.
  Proof.
    intros i h e j. unfold neighbours. rewrite filter_In, in_seq, andb_true_iff, negb_true_iff. unfold count.
    rewrite <- not_true_iff_false, has_iff. destruct (Rle_dec (gap l j i) h); split; intuition (try lia; try discriminate; contradiction).
  Qed.
  Lemma all_visited_true : forall v, all_visited l v = true <-> forall j, (j < N)%nat -> In j v.
  Proof.
    intros v. unfold all_visited. rewrite forallb_forall. unfold count. split; intros H j J.
    - apply has_iff, H, in_seq. lia.
    - apply has_iff, H. apply in_seq in J. lia.
  Qed.
  Lemma all_visited_false : forall v, all_visited l v = false -> exists j, (j < N)%nat /\ ~ In j v.
  Proof.
    intros v H. unfold all_visited, count in H. revert H. generalize (seq 0 N) (fun j => proj1 (in_seq N 0 j)). intros s S0 H.
    assert (E : exists j, In j s /\ ~ In j v).
    { clear S0. induction s as [|x s IH]; [discriminate|]. cbn [forallb] in H. destruct (has x v) eqn:B.
      - destruct (IH H) as (j & J & K). exists j. split; [right; exact J|exact K].
      - exists x. split; [left; reflexivity|]. rewrite <- has_iff, B. discriminate. }
    destruct E as (j & J & K). exists j. split; [specialize (S0 j J); lia|exact K].
  Qed.
  (** the candidates near one of those chosen *)
  Definition near (chosen : list nat) (h : R) (j : nat) : Prop := exists i, In i chosen /\ gap l j i <= h.
  Definition seen_is (v chosen : list nat) (h : R) : Prop := forall j, (j < N)%nat -> (In j v <-> near chosen h j).
  Lemma cover_fold : forall h c v j, (j < N)%nat -> (In j (fold_left (fun visited i => visited ++ neighbours l i h visited) c v) <-> In j v \/ near c h j).
  Proof.
    intros h c. induction c as [|i c IH]; intros v j J; cbn [fold_left].
    - split; [auto|]. intros [A|(i & [] & _)]. exact A.
    - rewrite (IH _ j J), in_app_iff, neighbours_iff. unfold near. split.
      + intros [[A|(_ & A & _)]|(k & K & A)]; [auto|right; exists i; cbn; auto|right; exists k; cbn; auto].
      + intros [A|(k & [<- |K] & A)]; [auto| |right; exists k; auto]. destruct (in_dec Nat.eq_dec j v); [auto|]. left. right. auto.
  Qed.
  Lemma cover_seen : forall c h, 0 <= h -> seen_is (cover l c h) c h.
  Proof.
    intros c h H j J. unfold cover. rewrite (cover_fold h c c j J). split; [|auto]. intros [A|A]; [|exact A]. exists j. rewrite gap_self. auto.
  Qed.
  Lemma near_more : forall c h h' j, h <= h' -> near c h j -> near c h' j.
  Proof. intros c h h' j H (i & I & G). exists i. split; [exact I|lra]. Qed.
  Lemma shrink_stop : forall c v h, 0 <= h -> seen_is v c h -> all_visited l v = false -> forall v' h', Some (v, h) = Some (v', h') ->
    0 <= h' <= h /\ (0 < h -> 0 < h') /\ seen_is v' c h' /\ (exists j, (j < N)%nat /\ ~ near c h' j) /\ all_visited l v' = false /\
    ((h' = h /\ v' = v) \/ forall j, (j < N)%nat -> near c (h' / (9 / 10)) j).
  Proof.
    intros c v h H I A v' h' E. injection E as <- <-. destruct (all_visited_false v A) as (j & J & K).
    split; [lra|]. split; [auto|]. split; [exact I|]. split; [|auto]. exists j. split; [exact J|]. rewrite <- (I j J). exact K.
  Qed.
  (** the result of the reduction of the radius *)
  Lemma shrink_some : forall fuel c v h v' h', 0 <= h -> seen_is v c h -> shrink l fuel c v h = Some (v', h') ->
    0 <= h' <= h /\ (0 < h -> 0 < h') /\ seen_is v' c h' /\ (exists j, (j < N)%nat /\ ~ near c h' j) /\ all_visited l v' = false /\
    ((h' = h /\ v' = v) \/ forall j, (j < N)%nat -> near c (h' / (9 / 10)) j).
  Proof.
    induction fuel as [|k IH]; intros c v h v' h' H I E; cbn [shrink] in E; destruct (all_visited l v) eqn:A; try discriminate.
    1: exact (shrink_stop c v h H I A v' h' E).
    2: exact (shrink_stop c v h H I A v' h' E).
    assert (H9 : 0 <= h * (9 / 10)) by nra.
    destruct (IH _ _ _ _ _ H9 (cover_seen c _ H9) E) as (B & P & S1 & U & F & [[D V]|D]).
    - split; [lra|]. split; [intro; lra|]. split; [exact S1|]. split; [exact U|]. split; [exact F|].
      right. intros j J. subst h'. replace (h * (9 / 10) / (9 / 10)) with h by field. apply (I j J). exact (proj1 (all_visited_true v) A j J).
    - split; [lra|]. split; [intro; apply P; lra|]. split; [exact S1|]. split; [exact U|]. split; [exact F|]. right. exact D.
  Qed.
  Lemma best_in : forall c k, k <> [] -> In (best l c k) k.
  Proof.
    intros c [|i r] H; [contradiction|]. unfold best. clear H. revert i. induction r as [|j r IH]; intro i; cbn [fold_left]; [left; reflexivity|].
    destruct (Rle_dec _ _); [right; apply IH|]. destruct (IH i) as [A|A]; [left; exact A|right; right; exact A].
  Qed.
  Lemma next_in : forall c v h, seen_is v c h -> all_visited l v = false ->
    let b := best l c (filter (fun j => negb (has j v)) (seq 0 (count l))) in (b < N)%nat /\ ~ near c h b.
  Proof.
    intros c v h I A b. assert (B : In b (filter (fun j => negb (has j v)) (seq 0 (count l)))).
    { apply best_in. destruct (all_visited_false v A) as (j & J & K). intro E. assert (X : In j []); [|destruct X]. rewrite <- E. apply filter_In. split; [apply in_seq; unfold count; lia|].
      apply negb_true_iff. rewrite <- not_true_iff_false, has_iff. exact K. }
    apply filter_In in B. destruct B as [B C]. apply in_seq in B. unfold count in B. apply negb_true_iff in C. rewrite <- not_true_iff_false, has_iff in C.
    assert (BN : (b < N)%nat) by lia. split; [exact BN|]. intro Q. apply C. apply (proj2 (I b BN) Q).
  Qed.
  (** what holds of the points chosen so far *)
  Definition good (c : list nat) (h : R) : Prop :=
    NoDup c /\ (forall i, In i c -> (i < N)%nat) /\ (forall i j, In i c -> In j c -> i <> j -> h < gap l i j).
  Lemma good_less : forall c h h', h' <= h -> good c h -> good c h'.
  Proof. intros c h h' H (A & B & C). repeat split; auto. intros i j I J D. specialize (C i j I J D). lra. Qed.
  Lemma good_add : forall c h x, 0 <= h -> good c h -> (x < N)%nat -> ~ near c h x -> good (c ++ [x]) h.
  Proof.
    intros c h x H (A & B & C) X F. assert (NI : ~ In x c). { intro I. apply F. exists x. rewrite gap_self. auto. }
    split; [|split].
    - apply Permutation_NoDup with (x :: c); [apply Permutation_cons_append|]. constructor; assumption.
    - intros i I. apply in_app_iff in I. destruct I as [I|[<- |[]]]; auto.
    - assert (G : forall i, In i c -> h < gap l x i). { intros i I. destruct (Rlt_dec h (gap l x i)) as [|Q]; [assumption|]. exfalso. apply F. exists i. split; [exact I|lra]. }
      intros i j I J D. apply in_app_iff in I. apply in_app_iff in J. destruct I as [I|[<- |[]]], J as [J|[<- |[]]]; auto; [|contradiction]. rewrite gap_sym. auto.
  Qed.
  Lemma seen_add : forall c v h x, 0 <= h -> (x < N)%nat -> seen_is v c h -> seen_is ((x :: v) ++ neighbours l x h (x :: v)) (c ++ [x]) h.
  Proof.
    intros c v h x H X I j J. rewrite in_app_iff, neighbours_iff. split.
    - intros [[<- |A]|(_ & A & _)]; [exists x; rewrite gap_self; split; [apply in_app_iff; cbn; auto|exact H]| |exists x; split; [apply in_app_iff; cbn; auto|exact A]].
      apply I in A; [|exact J]. destruct A as (i & A & G). exists i. split; [apply in_app_iff; auto|exact G].
    - intros (i & A & G). apply in_app_iff in A. destruct A as [A|[<- |[]]].
      + left. right. apply I; [exact J|]. exists i. auto.
      + destruct (in_dec Nat.eq_dec j (x :: v)); [auto|]. right. auto.
  Qed.
  Lemma near_app : forall c d h j, near c h j -> near (c ++ d) h j.
  Proof. intros c d h j (i & I & G). exists i. split; [apply in_app_iff; auto|exact G]. Qed.
  Lemma pick_some : forall fuel left x c v h0 h idx h', 0 <= h -> h <= h0 -> good c h -> seen_is v c h -> ((0 < left)%nat -> (x < N)%nat /\ ~ near c h x) ->
    (h = h0 \/ forall j, (j < N)%nat -> near c (h / (9 / 10)) j) -> ((0 < left)%nat \/ exists j, (j < N)%nat /\ ~ near c h j) ->
    pick l fuel left x c v h = Some (idx, h') ->
    0 <= h' /\ h' <= h0 /\ (0 < h -> 0 < h') /\ good idx h' /\ (exists d, idx = c ++ d /\ length d = left /\ ((0 < left)%nat -> nth_error d 0 = Some x)) /\
    (h' = h0 \/ forall j, (j < N)%nat -> near idx (h' / (9 / 10)) j) /\ (exists j, (j < N)%nat /\ ~ near idx h' j).
  Proof.
    intros fuel left. induction left as [|k IH]; intros x c v h0 h idx h' H H0 G I X Q U E; cbn [pick] in E.
    - injection E as <- <-. repeat split; auto; try apply G; try (destruct U as [U|U]; [lia|exact U]). exists []. rewrite app_nil_r. repeat split. intro; lia.
    - destruct X as [X F]; [lia|]. cbn zeta in E. destruct (shrink l fuel (c ++ [x]) _ h) as [[v' h1]|] eqn:SH; [|discriminate].
      destruct (shrink_some _ _ _ _ _ _ H (seen_add c v h x H X I) SH) as ((B1 & B2) & P & S1 & U1 & F1 & D).
      specialize (IH (best l (c ++ [x]) (filter (fun j => negb (has j v')) (seq 0 (count l)))) (c ++ [x]) v' h0 h1 idx h' B1).
      destruct IH as (R1 & R2 & R3 & R4 & (d & R5 & R6 & R7) & R8 & R9); auto; try lra.
      + apply good_less with h; [exact B2|]. apply good_add; assumption.
      + intros _. apply (next_in _ _ h1 S1 F1).
      + destruct D as [[-> _]|D]; [|right; exact D]. destruct Q as [-> |Q]; [left; reflexivity|]. right. intros j J. apply near_app. auto.
      + repeat split; auto; try apply R4. exists (x :: d). rewrite R5, <- app_assoc. cbn. repeat split; auto.
  Qed.
  Lemma decimate_some : forall fuel n h0 idx h, (0 < n)%nat -> 0 <= h0 -> decimate l fuel n h0 = Some (idx, h) ->
    0 <= h /\ h <= h0 /\ (0 < h0 -> 0 < h) /\ good idx h /\ length idx = n /\ nth_error idx 0 = Some 0%nat /\
    (h = h0 \/ forall j, (j < N)%nat -> near idx (h / (9 / 10)) j) /\ (exists j, (j < N)%nat /\ ~ near idx h j).
  Proof.
    intros fuel n h0 idx h K H E. unfold decimate in E.
    assert (X : (0 < N)%nat).
    { destruct n as [|n]; [lia|]. cbn [pick] in E. cbn zeta in E. destruct (Nat.eq_dec N 0) as [Z|Z]; [|lia]. exfalso.
      assert (SH : forall f c v g, shrink l f c v g = None).
      { induction f as [|f IH]; intros c v g; cbn [shrink]; (destruct (all_visited l v) eqn:A; [|destruct (all_visited_false v A) as (j & J & _); lia]); [reflexivity|apply IH]. }
      rewrite SH in E. discriminate. }
    apply pick_some with (h0 := h0) in E; auto; try lra.
    - destruct E as (A & B & C & D & (d & -> & L & F) & I & J). cbn [app]. repeat split; auto; try apply D.
    - repeat split; [constructor|intros i []|intros i j []].
    - intros j J. split; [intros []|intros (i & [] & _)].
    - intros _. split; [exact X|]. intros (i & [] & _).
  Qed.
End Decimate.

(** ** When it ends *)
Lemma vec_dec : forall a b : vec, {a = b} + {a <> b}.
Proof. intros [a b c] [d e f]. destruct (Req_EM_T a d), (Req_EM_T b e), (Req_EM_T c f); subst; [left; reflexivity|..]; right; intro H; injection H; auto. Qed.
Lemma some_out : forall (A : Type) (f : A -> vec) (l : list A) (m : list vec), (exists x, In x l /\ ~ In (f x) m) \/ incl (map f l) m.
Proof.
  intros A f l m. induction l as [|x l [(y & Y & Q)|IH]]; [right; intros z []|left; exists y; split; [right; exact Y|exact Q]|].
  destruct (in_dec vec_dec (f x) m) as [I|I]; [right|left; exists x; split; [left; reflexivity|exact I]]. intros z [<- |Z]; auto.
Qed.
Lemma pigeon : forall (f : nat -> nat) l2 l1, NoDup l2 -> (forall x, In x l2 -> In (f x) l1) -> (length l1 < length l2)%nat -> exists x y, In x l2 /\ In y l2 /\ x <> y /\ f x = f y.
Proof.
  intros f l2. induction l2 as [|x l2 IH]; intros l1 D I L; [cbn in L; lia|]. inversion D as [|? ? NX D']; subst.
  destruct (in_dec Nat.eq_dec (f x) (map f l2)) as [E|E].
  - apply in_map_iff in E. destruct E as (y & E & Y). exists x, y. repeat split; [left; reflexivity|right; exact Y|intros ->; contradiction|auto].
  - destruct (IH (remove Nat.eq_dec (f x) l1) D') as (a & b & A & B & N & Q).
    + intros y Y. apply in_in_remove; [|apply I; right; exact Y]. intro Z. apply E. rewrite <- Z. apply in_map. exact Y.
    + pose proof (remove_length_lt Nat.eq_dec l1 (f x) (I x (or_introl eq_refl))). cbn in L. lia.
    + exists a, b. repeat split; auto; right; assumption.
Qed.
Section Ends.
  Variable l : list (vec * R).
  Notation N := (length l).
  Lemma shrink_more : forall f c v h r f', shrink l f c v h = Some r -> (f <= f')%nat -> shrink l f' c v h = Some r.
  Proof.
    induction f as [|f IH]; intros c v h r f' E L; cbn [shrink] in E.
    - destruct (all_visited l v) eqn:A; [discriminate|]. destruct f'; cbn [shrink]; rewrite A; exact E.
    - destruct f' as [|f']; [lia|]. cbn [shrink]. destruct (all_visited l v); [|exact E]. apply IH; [exact E|lia].
  Qed.
  Lemma pick_more : forall left f x c v h r f', pick l f left x c v h = Some r -> (f <= f')%nat -> pick l f' left x c v h = Some r.
  Proof.
    induction left as [|k IH]; intros f x c v h r f' E L; cbn [pick] in *; [exact E|]. cbn zeta in *.
    destruct (shrink l f (c ++ [x]) _ h) as [[v' h']|] eqn:SH; [|discriminate]. rewrite (shrink_more _ _ _ _ _ _ SH L). apply IH with f; assumption.
  Qed.
  Lemma least_gap : forall c j, (forall i, In i c -> 0 < gap l j i) -> exists m, 0 < m /\ forall i, In i c -> m <= gap l j i.
  Proof.
    intros c j. induction c as [|x c IH]; intro H; [exists 1; split; [lra|intros i []]|].
    destruct IH as (m & M & Q); [intros i I; apply H; right; exact I|]. exists (Rmin m (gap l j x)). split; [apply Rmin_glb_lt; [exact M|apply H; left; reflexivity]|].
    intros i [<- |I]; [apply Rmin_r|]. eapply Rle_trans; [apply Rmin_l|auto].
  Qed.
  Lemma shrink_ends : forall c v h j, 0 <= h -> seen_is l v c h -> (j < N)%nat -> (forall i, In i c -> 0 < gap l j i) -> exists f r, shrink l f c v h = Some r.
  Proof.
    intros c v h j H I J P. destruct (least_gap c j P) as (m & M & Q).
    assert (K : exists k, h * (9 / 10) ^ k < m).
    { destruct (pow_lt_1_zero (9 / 10)) with (y := m / (h + 1)) as (k & K); [rewrite Rabs_right; lra|apply Rdiv_lt_0_compat; lra|].
      exists k. specialize (K k (le_n k)). assert (P9 : 0 < (9 / 10) ^ k) by (apply pow_lt; lra). rewrite Rabs_right in K by lra.
      apply Rmult_lt_compat_l with (r := h + 1) in K; [|lra]. replace ((h + 1) * (m / (h + 1))) with m in K by (field; lra). nra. }
    destruct K as (k & K). exists k. revert v h H I K. induction k as [|k IH]; intros v h H I K; cbn [shrink].
    - destruct (all_visited l v) eqn:A; [|eauto]. exfalso. pose proof (proj1 (all_visited_true l v) A j J) as V. apply (I j J) in V. destruct V as (i & V & G). specialize (Q i V). cbn in K. lra.
    - destruct (all_visited l v) eqn:A; [|eauto]. assert (H9 : 0 <= h * (9 / 10)) by lra. apply IH; [exact H9|apply cover_seen; exact H9|]. cbn [pow] in K. rewrite Rmult_assoc. exact K.
  Qed.
  Lemma elsewhere : forall n c, different_places l (S n) -> (length c <= n)%nat -> (forall i, In i c -> (i < N)%nat) -> exists j, (j < N)%nat /\ forall i, In i c -> 0 < gap l j i.
  Proof.
    intros n c (idx & L & R0 & D) C CR. destruct (some_out nat (place l) idx (map (place l) c)) as [(x & X & Q)|Q].
    - exists x. split; [auto|]. intros i I. destruct (Rle_lt_or_eq_dec 0 (gap l x i) (gap_ge l x i)) as [P|P]; [exact P|]. exfalso. apply Q. apply in_map_iff. exists i. split; [|exact I].
      symmetry. apply norm_zero_eq. fold (apart l x i). rewrite <- gap_apart by auto. lra.
    - exfalso. pose proof (NoDup_incl_length D Q) as B. rewrite !map_length in B. lia.
  Qed.
  Lemma pick_ends : forall n left x c v h, different_places l (S n) -> (length c + left <= n)%nat -> 0 <= h -> good l c h -> seen_is l v c h -> (x < N)%nat -> ~ near l c h x ->
    exists f r, pick l f left x c v h = Some r.
  Proof.
    intros n left. induction left as [|k IH]; intros x c v h D L H G I X F; [exists 0%nat; eexists; reflexivity|].
    pose proof (good_add l c h x H G X F) as G'. pose proof (seen_add l c v h x H X I) as I'.
    destruct (elsewhere n (c ++ [x]) D) as (j & J & P); [rewrite app_length; cbn; lia|apply G'|].
    destruct (shrink_ends _ _ _ j H I' J P) as (f1 & [v' h'] & SH).
    destruct (shrink_some l _ _ _ _ _ _ H I' SH) as ((B1 & B2) & _ & S1 & _ & F1 & _).
    destruct (next_in l _ _ h' S1 F1) as (NX & NF).
    destruct (IH (best l (c ++ [x]) (filter (fun j => negb (has j v')) (seq 0 (count l)))) (c ++ [x]) v' h' D) as (f2 & r & E); auto.
    - rewrite app_length. cbn. lia.
    - apply good_less with h; assumption.
    - exists (Nat.max f1 f2), r. cbn [pick]. cbn zeta. rewrite (shrink_more _ _ _ _ _ (Nat.max f1 f2) SH) by lia. apply pick_more with f2; [exact E|lia].
  Qed.
  Lemma decimate_ends : forall n h, 0 <= h -> different_places l (S n) -> exists f r, decimate l f n h = Some r.
  Proof.
    intros n h H D. destruct (Nat.eq_dec N 0) as [Z|Z].
    - destruct D as (idx & L & R0 & _). destruct idx as [|i idx]; [discriminate|]. specialize (R0 i (or_introl eq_refl)). lia.
    - unfold decimate. apply pick_ends with n; auto; try lia.
      + repeat split; [constructor|intros i []|intros i j []].
      + intros j J. split; [intros []|intros (i & [] & _)].
      + intros (i & [] & _).
  Qed.
  Lemma decimate_places : forall f n h r, (0 < n)%nat -> 0 <= h -> decimate l f n h = Some r -> different_places l (S n).
  Proof.
    intros f n h [idx h'] K H E. destruct (decimate_some l _ _ _ _ _ K H E) as (A & _ & _ & G & L & _ & _ & (j & J & F)).
    pose proof (good_add l idx h' j A G J F) as (D & R0 & S0). exists (idx ++ [j]). rewrite app_length, L. cbn. split; [lia|]. split; [exact R0|].
    revert D R0 S0. generalize (idx ++ [j]). intros k D R0 S0. induction k as [|x k IH]; [constructor|]. inversion D as [|? ? NX D']; subst. cbn [map]. constructor.
    - intro Q. apply in_map_iff in Q. destruct Q as (y & Q & Y). assert (NE : x <> y) by (intros ->; contradiction).
      specialize (S0 x y (or_introl eq_refl) (or_intror Y) NE). rewrite gap_apart in S0 by (apply R0; cbn; auto). unfold apart in S0. rewrite Q, norm_self in S0. lra.
    - apply IH; auto; intros; [apply R0|apply S0]; cbn; auto.
  Qed.
  (** ** How good it is *)
  Lemma crowded : forall r idx other, covering l r idx -> NoDup other -> (forall i, In i other -> (i < N)%nat) -> (length idx < length other)%nat ->
    exists i j, In i other /\ In j other /\ i <> j /\ apart l i j <= 2 * r.
  Proof.
    intros r idx other C D R0 L.
    pose (near_of := fun k => match find (fun i => if Rle_dec (apart l k i) r then true else false) idx with Some i => i | None => 0%nat end).
    assert (P : forall k, In k other -> In (near_of k) idx /\ apart l k (near_of k) <= r).
    { intros k K. destruct (C k (R0 k K)) as (i & I & G). unfold near_of. destruct (find _ idx) as [z|] eqn:F.
      - apply find_some in F. destruct F as (Z & F). split; [exact Z|]. destruct (Rle_dec (apart l k z) r); [assumption|discriminate].
      - exfalso. pose proof (find_none _ _ F i I) as Q. cbn in Q. destruct (Rle_dec (apart l k i) r); [discriminate|contradiction]. }
    destruct (pigeon near_of other idx D (fun k K => proj1 (P k K)) L) as (x & y & X & Y & NE & Q).
    exists x, y. repeat split; auto. destruct (P x X) as (_ & A). destruct (P y Y) as (_ & B). rewrite <- Q in B. unfold apart in *.
    pose proof (norm_triangle (place l x) (place l (near_of x)) (place l y)). rewrite (norm_sym (place l y)) in B. lra.
  Qed.
End Ends.

(** ** The order of the candidates *)
Lemma insert_perm : forall d e l, Permutation (insert d e l) (e :: l).
Proof. intros d e l. induction l as [|f r IH]; cbn [insert]; [reflexivity|]. destruct (Rlt_dec _ _); [reflexivity|]. rewrite IH. apply perm_swap. Qed.
Lemma sort_perm : forall seed l, Permutation (sort_from seed l) l.
Proof.
  intros seed l. unfold sort_from. assert (H : forall m, Permutation (fold_left (fun acc e => insert (fun x => norm (vsub seed (fst x))) e acc) l m) (m ++ l)).
  { induction l as [|e l IH]; intro m; cbn [fold_left]; [rewrite app_nil_r; reflexivity|]. rewrite IH, insert_perm. cbn. apply Permutation_middle. }
  apply H.
Qed.
Definition first_least (d : vec * R -> R) (l : list (vec * R)) : Prop := match l with [] => True | f :: r => forall e, In e r -> d f <= d e end.
Lemma insert_least : forall d e l, first_least d l -> first_least d (insert d e l).
Proof.
  intros d e [|f r] H; cbn [insert]; [intros x []|]. destruct (Rlt_dec (d e) (d f)) as [L|L]; cbn [first_least] in *.
  - intros x [<- |X]; [lra|]. specialize (H x X). lra.
  - intros x X. apply (Permutation_in _ (insert_perm d e r)) in X. destruct X as [<- |X]; [lra|auto].
Qed.
Lemma sort_least : forall seed l, first_least (fun x => norm (vsub seed (fst x))) (sort_from seed l).
Proof.
  intros seed l. unfold sort_from. assert (H : forall m, first_least (fun x => norm (vsub seed (fst x))) m -> first_least (fun x => norm (vsub seed (fst x))) (fold_left (fun acc e => insert (fun x => norm (vsub seed (fst x))) e acc) l m)).
  { induction l as [|e l IH]; intros m M; cbn [fold_left]; [exact M|]. apply IH, insert_least, M. }
  apply H. exact I.
Qed.
Lemma sub_perm : forall (s k : list nat), NoDup k -> incl k s -> exists rest, Permutation s (k ++ rest).
Proof.
  intros s k. revert s. induction k as [|x k IH]; intros s D I; [exists s; reflexivity|]. inversion D as [|? ? NX D']; subst.
  destruct (in_split x s (I x (or_introl eq_refl))) as (a & b & ->). destruct (IH (a ++ b) D') as (rest & P).
  - intros y Y. specialize (I y (or_intror Y)). apply in_app_iff in I. apply in_app_iff. destruct I as [I|[<- |I]]; auto; contradiction.
  - exists rest. cbn. rewrite <- Permutation_middle. constructor. exact P.
Qed.
Lemma nth_perm : forall (l : list (vec * R)) d idx, NoDup idx -> (forall i, In i idx -> (i < length l)%nat) -> exists rest, Permutation l (map (fun j => nth j l d) idx ++ rest).
Proof.
  intros l d idx D R0. destruct (sub_perm (seq 0 (length l)) idx D) as (rest & P).
  - intros i I. apply in_seq. specialize (R0 i I). lia.
  - exists (map (fun j => nth j l d) rest). rewrite <- map_app, <- P. replace (map (fun j => nth j l d) (seq 0 (length l))) with l; [reflexivity|].
    clear. induction l as [|e l IH]; [reflexivity|]. cbn [length seq map nth]. f_equal. rewrite <- seq_shift, map_map. exact IH.
Qed.
Lemma unit_apart : forall l i j, unitary l -> (i < length l)%nat -> (j < length l)%nat -> apart l i j = norm (vsub (fst (nth i l (vzero, 0))) (fst (nth j l (vzero, 0)))).
Proof.
  intros l i j U I J. unfold apart, place. rewrite (nth_error_nth' l (vzero, 0) I), (nth_error_nth' l (vzero, 0) J).
  pose proof (U _ (nth_In l (vzero, 0) I)) as A. pose proof (U _ (nth_In l (vzero, 0) J)) as B.
  destruct (nth i l (vzero, 0)) as [p s], (nth j l (vzero, 0)) as [q t]. cbn [fst snd] in *. subst s t.
  destruct l as [|[o w] r]; [cbn in I; lia|]. cbn [nth_error]. f_equal. destruct p, q, o. unfold vsub, vscale. cbn. f_equal; ring.
Qed.

(** ** The candidates of the grid *)
Lemma truncate_bounds : forall x, IZR (truncate x) <= x < IZR (truncate x) + 1.
Proof. intro x. unfold truncate. destruct (archimed x) as [A B]. rewrite minus_IZR. lra. Qed.
Lemma grid_cells_le : forall s p n k, 0 < p -> (1 <= k)%nat -> s * INR n < (INR k + / 2) * p -> (grid_cells s p n <= k)%nat.
Proof.
  intros s p n k P K H. unfold grid_cells. apply Nat.max_lub; [exact K|]. pose proof (truncate_bounds (s * INR n / p + / 2)) as (A & _).
  assert (B : s * INR n / p < INR k + / 2). { apply Rmult_lt_reg_r with p; [exact P|]. unfold Rdiv. rewrite Rmult_assoc, Rinv_l, Rmult_1_r by lra. exact H. }
  assert (C : (truncate (s * INR n / p + / 2) < Z.of_nat k + 1)%Z). { apply lt_IZR. rewrite plus_IZR, <- INR_IZR_INZ. lra. }
  lia.
Qed.

(** ** Sensitivity *)
Lemma fold_min_spec : forall l x, fold_left Rmin l x <= x /\ (forall v, In v l -> fold_left Rmin l x <= v) /\ (fold_left Rmin l x = x \/ In (fold_left Rmin l x) l).
Proof.
  induction l as [|y l IH]; intro x; cbn [fold_left]; [repeat split; [lra|intros v []|left; reflexivity]|].
  destruct (IH (Rmin x y)) as (A & B & C). pose proof (Rmin_l x y). pose proof (Rmin_r x y). repeat split; [lra|intros v [<- |V]; [lra|auto]|].
  destruct C as [C|C]; [|right; right; exact C]. rewrite C. unfold Rmin. destruct (Rle_dec x y); [left; reflexivity|right; left; reflexivity].
Qed.
Lemma fold_max_spec : forall l x, x <= fold_left Rmax l x /\ (forall v, In v l -> v <= fold_left Rmax l x) /\ (fold_left Rmax l x = x \/ In (fold_left Rmax l x) l).
Proof.
  induction l as [|y l IH]; intro x; cbn [fold_left]; [repeat split; [lra|intros v []|left; reflexivity]|].
  destruct (IH (Rmax x y)) as (A & B & C). pose proof (Rmax_l x y). pose proof (Rmax_r x y). repeat split; [lra|intros v [<- |V]; [lra|auto]|].
  destruct C as [C|C]; [|right; right; exact C]. rewrite C. unfold Rmax. destruct (Rle_dec x y); [right; left; reflexivity|left; reflexivity].
Qed.
Lemma least_spec : forall l, l <> [] -> In (least l) l /\ forall v, In v l -> least l <= v.
Proof. intros [|x l] H; [contradiction|]. cbn [least]. destruct (fold_min_spec l x) as (A & B & C). split; [destruct C as [C|C]; [left; auto|right; exact C]|]. intros v [<- |V]; auto. Qed.
Lemma greatest_spec : forall l, l <> [] -> In (greatest l) l /\ forall v, In v l -> v <= greatest l.
Proof. intros [|x l] H; [contradiction|]. cbn [greatest]. destruct (fold_max_spec l x) as (A & B & C). split; [destruct C as [C|C]; [left; auto|right; exact C]|]. intros v [<- |V]; auto. Qed.

(** ** Level set *)
Section LevelSet.
  Variable verts : list nat.
  Variable geodesic : list nat -> nat -> R.
  Variable sensitivity : nat -> R.
  Notation G c v := (geodesic c v * sensitivity v).
  Lemma farthest_fold : forall c l b, let r := fold_left (fun b i => if Rlt_dec (fst b) (G c i) then (G c i, i) else b) l b in
    fst b <= fst r /\ (forall v, In v l -> G c v <= fst r) /\ (r = b \/ (In (snd r) l /\ fst r = G c (snd r) /\ fst b < fst r)).
  Proof.
    intros c l. induction l as [|i l IH]; intro b; cbn [fold_left]; [cbn; repeat split; [lra|intros v []|left; reflexivity]|].
    destruct (Rlt_dec (fst b) (G c i)) as [L|L].
    - destruct (IH (G c i, i)) as (A & B & C). cbn [fst snd] in *. repeat split; [lra|intros v [<- |V]; [exact A|auto]|]. right. destruct C as [C|(C1 & C2 & C3)].
      + rewrite C. cbn. auto.
      + split; [right; exact C1|]. split; [exact C2|lra].
    - destruct (IH b) as (A & B & C). repeat split; [exact A|intros v [<- |V]; [lra|auto]|]. destruct C as [C|(C1 & C2 & C3)]; [left; exact C|right; split; [right; exact C1|auto]].
  Qed.
  Lemma farthest_pos : forall c w, In w verts -> 0 < G c w ->
    let v := farthest verts geodesic sensitivity c in In v verts /\ 0 < G c v /\ forall u, In u verts -> G c u <= G c v.
  Proof.
    intros c w W P. unfold farthest. destruct (farthest_fold c verts (0, 0%nat)) as (A & B & C). cbn [fst] in *.
    destruct C as [C|(C1 & C2 & C3)]; [specialize (B w W); rewrite C in B; cbn in B; lra|]. cbn zeta. repeat split; [exact C1|lra|]. intros u U. rewrite <- C2. auto.
  Qed.
  Lemma farthest_none : forall c, (forall w, In w verts -> G c w <= 0) -> farthest verts geodesic sensitivity c = 0%nat.
  Proof.
    intros c H. unfold farthest. destruct (farthest_fold c verts (0, 0%nat)) as (A & B & C). cbn [fst] in *. destruct C as [C|(C1 & C2 & C3)]; [rewrite C; reflexivity|]. specialize (H _ C1). lra.
  Qed.
  Lemma grow_good : forall k c n, distance_like geodesic -> (forall v, In v verts -> 0 <= sensitivity v) -> (length c + k <= n)%nat -> NoDup c -> (forall v, In v c -> In v verts) ->
    (exists good, NoDup good /\ length good = n /\ (forall v, In v good -> In v verts /\ 0 < sensitivity v)) ->
    c <> [] -> farthest_first verts geodesic sensitivity c ->
    let l := grow verts geodesic sensitivity k c in
    length l = (length c + k)%nat /\ NoDup l /\ (forall v, In v l -> In v verts) /\ farthest_first verts geodesic sensitivity l /\ (exists d, l = c ++ d).
  Proof.
    induction k as [|k IH]; intros c n DL SP L ND IV (good & GD & GL & GV) NE FF; cbn [grow].
    - cbn zeta. rewrite Nat.add_0_r. repeat split; auto. exists []. symmetry. apply app_nil_r.
    - assert (W : exists w, In w verts /\ 0 < G c w).
      { assert (O : exists w, In w good /\ ~ In w c).
        { destruct (Forall_Exists_dec (fun w => In w c) (fun w => in_dec Nat.eq_dec w c) good) as [F|E].
          - exfalso. rewrite Forall_forall in F. pose proof (NoDup_incl_length GD F). lia.
          - apply Exists_exists in E. destruct E as (w & A & B). exists w. auto. }
        destruct O as (w & A & B). destruct (GV w A) as (V & P). exists w. split; [exact V|]. apply Rmult_lt_0_compat; [apply DL; exact B|exact P]. }
      destruct W as (w & W & P). destruct (farthest_pos c w W P) as (V & Q & M). set (v := farthest verts geodesic sensitivity c) in *.
      assert (NV : ~ In v c). { intro I. destruct (DL c v) as (Z & _). rewrite (Z I) in Q. lra. }
      specialize (IH (c ++ [v]) n). destruct IH as (A & B & C & D & (d & E)); auto.
      + rewrite app_length. cbn. lia.
      + apply Permutation_NoDup with (v :: c); [apply Permutation_cons_append|constructor; assumption].
      + intros u U. apply in_app_iff in U. destruct U as [U|[<- |[]]]; auto.
      + exists good. auto.
      + destruct c; discriminate.
      + intros i u U x X. destruct (Nat.lt_ge_cases (S i) (length c)) as [I|I].
        * rewrite nth_error_app1 in U by exact I. rewrite firstn_app. replace (S i - length c)%nat with 0%nat by lia. rewrite firstn_O, app_nil_r. apply FF; assumption.
        * rewrite nth_error_app2 in U by exact I. destruct (S i - length c)%nat as [|z] eqn:Z; [|destruct z; discriminate]. cbn in U. injection U as <-.
          rewrite firstn_app, Z, firstn_O, app_nil_r, firstn_all2 by lia. apply M, X.
      + cbn zeta. rewrite A, app_length. cbn [length]. split; [lia|]. split; [exact B|]. split; [exact C|]. split; [exact D|]. exists (v :: d). rewrite E, <- app_assoc. reflexivity.
  Qed.
  Lemma grow_none : forall first k c, (forall d w, In first d -> In w verts -> G d w <= 0) -> In first c -> grow verts geodesic sensitivity k c = c ++ repeat 0%nat k.
  Proof.
    intro first. induction k as [|k IH]; intros c H F; cbn [grow repeat]; [symmetry; apply app_nil_r|].
    rewrite IH; [|exact H|apply in_app_iff; auto]. rewrite farthest_none, <- app_assoc by auto. reflexivity.
  Qed.
End LevelSet.
Lemma level_set_distance_spec : forall points top, let m := level_set_distance top points in
  m <= top /\ (forall i j p q, (i < j)%nat -> nth_error points i = Some p -> nth_error points j = Some q -> m <= norm (vsub p q)) /\
  (m = top \/ exists i j p q, (i < j)%nat /\ nth_error points i = Some p /\ nth_error points j = Some q /\ m = norm (vsub p q)).
Proof.
  assert (F : forall p r top, let m := fold_left (fun m q => Rmin m (norm (vsub p q))) r top in
    m <= top /\ (forall j q, nth_error r j = Some q -> m <= norm (vsub p q)) /\ (m = top \/ exists j q, nth_error r j = Some q /\ m = norm (vsub p q))).
  { intros p r. induction r as [|q r IH]; intro top; cbn [fold_left]; [cbn; repeat split; [lra|intros [|j] q; discriminate|left; reflexivity]|].
    destruct (IH (Rmin top (norm (vsub p q)))) as (A & B & C). pose proof (Rmin_l top (norm (vsub p q))). pose proof (Rmin_r top (norm (vsub p q))). cbn zeta. repeat split; [lra| |].
    - intros [|j] z Z; cbn in Z; [injection Z as <-; lra|apply B with j; exact Z].
    - destruct C as [C|(j & z & Z & C)]; [|right; exists (S j), z; auto]. rewrite C. destruct (Rle_dec top (norm (vsub p q))) as [T|T]; [left; apply Rmin_left; exact T|right; exists 0%nat, q; split; [reflexivity|apply Rmin_right; lra]]. }
  induction points as [|p r IH]; intro top; cbn [level_set_distance]; [cbn; repeat split; [lra|intros [|i] j p q _ E; discriminate|left; reflexivity]|].
  destruct (F p r top) as (A & B & C). cbn zeta in *. set (t := fold_left _ r top) in *. destruct (IH t) as (A' & B' & C'). repeat split; [lra| |].
  - intros i j x y L X Y. destruct j as [|j]; [lia|]. cbn in Y. destruct i as [|i]; cbn in X.
    + injection X as <-. specialize (B j y Y). lra.
    + apply B' with i j; auto. lia.
  - destruct C' as [C'|(i & j & x & y & L & X & Y & C')].
    + rewrite C'. destruct C as [C|(j & q & Q & C)]; [left; exact C|]. right. exists 0%nat, (S j), p, q. repeat split; auto. lia.
    + right. exists (S i), (S j), x, y. repeat split; auto. lia.
Qed.
