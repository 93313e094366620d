(** Proofs about the vector helpers. *)
From Coq Require Import List ZArith Bool Lia.
From Verif Require Import Subset SubsetSpec.
Import ListNotations.
Open Scope Z_scope.

Lemma vsize_nonneg : forall {A} (l : list A), 0 <= vsize l.
Proof. intros. unfold vsize. lia. Qed.

Lemma skipn_nth : forall {A} n (l : list A) a, nth_error l n = Some a -> skipn n l = a :: skipn (S n) l.
Proof.
  induction n; intros [|b l] a H; try discriminate; cbn in *.
  - injection H as ->. reflexivity.
  - apply IHn, H.
Qed.

Lemma copy_ok : forall {A} (src : list A) n k room, (k + n <= length src)%nat -> (n <= room)%nat ->
  copy src n (Z.of_nat k) room = Some (firstn n (skipn k src)).
Proof.
  intros A src n. induction n; intros k room H R; [reflexivity|].
  destruct room as [|room]; [lia|]. cbn [copy]. unfold vget.
  replace (Z.of_nat k <? 0) with false by (symmetry; apply Z.ltb_ge; lia). rewrite Nat2Z.id.
  destruct (nth_error src k) as [a|] eqn:E; [|apply nth_error_None in E; lia].
  replace (Z.of_nat k + 1) with (Z.of_nat (S k)) by lia. rewrite IHn by lia.
  rewrite (skipn_nth _ _ _ E). reflexivity.
Qed.

Lemma firstn_skipn_taken : forall {A} n k (l : list A), (k + n <= length l)%nat ->
  map Some (firstn n (skipn k l)) = map (nth_error l) (seq k n).
Proof.
  intros A n. induction n; intros k l H; [reflexivity|].
  destruct (nth_error l k) as [a|] eqn:E; [|apply nth_error_None in E; lia].
  rewrite (skipn_nth _ _ _ E). cbn [firstn seq map]. rewrite IHn by lia. rewrite E. reflexivity.
Qed.

Lemma taken_seq : forall {A} (l r : list A) ns, map Some r = map (nth_error l) ns -> taken (map Z.of_nat ns) l r.
Proof.
  intros A l r ns H. unfold taken. rewrite H, map_map. apply map_ext. intros k. rewrite Nat2Z.id. reflexivity.
Qed.

Lemma clamp_in : forall n i, 0 <= i < n -> clamp n i = i.
Proof. intros. unfold clamp. lia. Qed.
Lemma clamp_high : forall n i, 0 < n -> n <= i -> clamp n i = n - 1.
Proof. intros. unfold clamp. lia. Qed.
Lemma clamp_range : forall n i, 0 <= clamp n i /\ (0 < n -> clamp n i < n).
Proof. intros. unfold clamp. lia. Qed.

(** The general case, on the clamped bounds. *)
Definition span (n a b : nat) : list nat := if Nat.leb b a then seq a (n - a) ++ seq 0 b else seq a (b - a).
Lemma span_in : forall n a b p, In p (span n a b) ->
  (a <= n)%nat -> (b <= n)%nat -> (p < n)%nat.
Proof.
  intros n a b p. unfold span. destruct (Nat.leb_spec b a); intros H1 H2 H3.
  - apply in_app_or in H1. destruct H1 as [H1|H1]; apply in_seq in H1; lia.
  - apply in_seq in H1. lia.
Qed.

Lemma get_clamped : forall {A} (src : list A) i j, i < vsize src -> 0 <= j ->
  exists r, getVectorSubset i j src = Some r /\
    map Some r = map (nth_error src) (span (length src) (Z.to_nat (clamp (vsize src) i)) (Z.to_nat (clamp (vsize src) j))).
Proof.
  intros A src i j Hi Hj. unfold getVectorSubset. set (n := vsize src) in *.
  assert (Hn : n = Z.of_nat (length src)) by reflexivity.
  replace ((n <=? i) || (j <? 0)) with false by (symmetry; apply orb_false_iff; split; [apply Z.leb_gt|apply Z.ltb_ge]; lia).
  destruct (clamp_range n i) as [A1 A2]. destruct (clamp_range n j) as [B1 B2]. cbv zeta.
  assert (A3 : clamp n i <= n) by (unfold clamp in *; lia). assert (B3 : clamp n j <= n) by (unfold clamp in *; lia).
  set (a := clamp n i) in *. set (b := clamp n j) in *. clearbody a b n.
  unfold span. destruct (Z.leb_spec b a) as [L|L].
  - replace (Z.to_nat (n - a)) with (length src - Z.to_nat a)%nat by lia.
    pose proof (copy_ok src (length src - Z.to_nat a) (Z.to_nat a) (length src)) as C1. rewrite Z2Nat.id in C1 by lia. rewrite C1 by lia.
    rewrite (copy_ok src (Z.to_nat b) 0) by (try rewrite firstn_length, skipn_length; lia).
    eexists. split; [reflexivity|]. rewrite map_app. rewrite !firstn_skipn_taken by lia.
    replace (Nat.leb (Z.to_nat b) (Z.to_nat a)) with true by (symmetry; apply Nat.leb_le; lia). rewrite map_app. reflexivity.
  - replace (Z.to_nat (b - a)) with (Z.to_nat b - Z.to_nat a)%nat by lia.
    pose proof (copy_ok src (Z.to_nat b - Z.to_nat a) (Z.to_nat a) (length src)) as C1. rewrite Z2Nat.id in C1 by lia. rewrite C1 by lia.
    eexists. split; [reflexivity|]. rewrite firstn_skipn_taken by lia.
    replace (Nat.leb (Z.to_nat b) (Z.to_nat a)) with false by (symmetry; apply Nat.leb_gt; lia). reflexivity.
Qed.

Lemma get_out : forall {A} (src : list A) i j, vsize src <= i \/ j < 0 -> getVectorSubset i j src = Some [].
Proof.
  intros A src i j H. unfold getVectorSubset. destruct (Z.leb_spec (vsize src) i); [reflexivity|].
  destruct (Z.ltb_spec j 0); [reflexivity|]. lia.
Qed.

Lemma get_ok : forall {A} (src : list A) i j ps, documented (vsize src) i j ps -> i < vsize src -> j < vsize src ->
  exists r, getVectorSubset i j src = Some r /\ taken ps src r.
Proof.
  intros A src i j ps D Hi Hj.
  inversion D as [a b Ia Jb|a b Ia Jb|a b l Ia Jb E|a b Ia Jb|a l Ia E|a b l Ia Ja E|a b l Ia Ja E]; subst; try lia.
  - exists []. split; [apply get_out; lia|reflexivity].
  - destruct (get_clamped src j j) as [r [G T]]; try lia. exists r. split; [exact G|]. apply taken_seq. rewrite T.
    rewrite clamp_in by lia. unfold span. rewrite Nat.leb_refl. f_equal. f_equal. f_equal. unfold vsize in *. lia.
  - destruct (get_clamped src i j) as [r [G T]]; try lia. exists r. split; [exact G|]. apply taken_seq. rewrite T.
    rewrite !clamp_in by lia. unfold span. replace (Nat.leb (Z.to_nat j) (Z.to_nat i)) with false by (symmetry; apply Nat.leb_gt; lia).
    f_equal. f_equal. lia.
  - destruct (get_clamped src i j) as [r [G T]]; try lia. exists r. split; [exact G|]. apply taken_seq. rewrite T.
    rewrite !clamp_in by lia. unfold span. replace (Nat.leb (Z.to_nat j) (Z.to_nat i)) with true by (symmetry; apply Nat.leb_le; lia).
    f_equal. f_equal. f_equal. unfold vsize in *. lia.
Qed.
Lemma get_beyond : forall {A} (src : list A) i j ps, documented (vsize src) i j ps -> vsize src <= i ->
  getVectorSubset i j src = Some [] /\ ps = [].
Proof.
  intros A src i j ps D H. split; [apply get_out; auto|].
  pose proof (vsize_nonneg src).
  inversion D as [a b Ia Jb|a b Ia Jb|a b l Ia Jb E|a b Ia Jb|a l Ia E|a b l Ia Ja E|a b l Ia Ja E]; subst; try reflexivity; lia.
Qed.

(** an end position at or beyond the size *)
Lemma get_end : forall {A} (src : list A) i j, 0 <= i < vsize src - 1 -> vsize src <= j ->
  exists r, getVectorSubset i j src = Some r /\
    taken (map Z.of_nat (seq (Z.to_nat i) (Z.to_nat (vsize src - 1 - i)))) src r.
Proof.
  intros A src i j Hi Hj. destruct (get_clamped src i j) as [r [G T]]; try lia. exists r. split; [exact G|].
  apply taken_seq. rewrite T. rewrite clamp_in, clamp_high by lia. unfold span.
  replace (Nat.leb (Z.to_nat (vsize src - 1)) (Z.to_nat i)) with false by (symmetry; apply Nat.leb_gt; lia).
  f_equal. f_equal. lia.
Qed.
Lemma get_last : forall {A} (src : list A) j, 0 < vsize src -> vsize src <= j ->
  exists r, getVectorSubset (vsize src - 1) j src = Some r /\
    taken (map Z.of_nat ((length src - 1)%nat :: seq 0 (length src - 1))) src r.
Proof.
  intros A src j Hi Hj. destruct (get_clamped src (vsize src - 1) j) as [r [G T]]; try lia. exists r. split; [exact G|].
  apply taken_seq. rewrite T. rewrite clamp_in, clamp_high by lia. unfold span. rewrite Nat.leb_refl.
  unfold vsize in *. replace (Z.to_nat (Z.of_nat (length src) - 1)) with (length src - 1)%nat by lia.
  replace (length src - (length src - 1))%nat with 1%nat by lia. reflexivity.
Qed.
Lemma get_negative : forall {A} (src : list A) i j, i < 0 -> 0 <= j -> getVectorSubset i j src = getVectorSubset 0 j src \/ src = [].
Proof.
  intros A [|a src] i j Hi Hj; [right; reflexivity|left]. unfold getVectorSubset.
  replace (vsize (a :: src) <=? i) with false by (symmetry; apply Z.leb_gt; unfold vsize; cbn; lia).
  replace (vsize (a :: src) <=? 0) with false by (symmetry; apply Z.leb_gt; unfold vsize; cbn; lia).
  replace (clamp (vsize (a :: src)) i) with (clamp (vsize (a :: src)) 0) by (unfold clamp; lia). reflexivity.
Qed.

Lemma get_total : forall {A} (src : list A) i j, exists r, getVectorSubset i j src = Some r /\ (length r <= length src)%nat /\ incl r src.
Proof.
  intros A src i j. destruct (Z_le_gt_dec (vsize src) i) as [H|H]; [|destruct (Z_lt_ge_dec j 0) as [K|K]].
  - exists []. split; [apply get_out; lia|]. split; [cbn; lia|intros x []].
  - exists []. split; [apply get_out; lia|]. split; [cbn; lia|intros x []].
  - destruct (get_clamped src i j) as [r [G T]]; [lia|lia|]. exists r. split; [exact G|].
    destruct (clamp_range (vsize src) i) as [A1 A2]. destruct (clamp_range (vsize src) j) as [B1 B2]. split.
    + apply (f_equal (@length _)) in T. rewrite !map_length in T. rewrite T. unfold span.
      pose proof (vsize_nonneg src). unfold vsize in *. destruct (Nat.leb_spec (Z.to_nat (clamp (Z.of_nat (length src)) j)) (Z.to_nat (clamp (Z.of_nat (length src)) i))).
      * rewrite app_length, !seq_length. destruct src; cbn [length] in *; [unfold clamp in *|]; lia.
      * rewrite seq_length. destruct src; cbn [length] in *; [unfold clamp in *|]; lia.
    + intros x X. apply (in_map Some) in X. rewrite T in X. apply in_map_iff in X. destruct X as [k [X _]]. exact (nth_error_In _ _ X).
Qed.

(** ** fillVectorSubset *)
Lemma vupd_length : forall {A} (l : list A) n x, length (vupd l n x) = length l.
Proof. induction l as [|a l IH]; intros [|n] x; cbn; auto. Qed.
Lemma vupd_same : forall {A} (l : list A) n x, (n < length l)%nat -> nth_error (vupd l n x) n = Some x.
Proof. induction l as [|a l IH]; intros [|n] x H; cbn in *; try lia; auto. apply IH. lia. Qed.
Lemma vupd_other : forall {A} (l : list A) n m x, m <> n -> nth_error (vupd l n x) m = nth_error l m.
Proof. induction l as [|a l IH]; intros [|n] [|m] x H; cbn; try reflexivity; [contradiction|]. apply IH. lia. Qed.

Lemma fill_from_ok : forall {A} n k (x : A) src, (k + n <= length src)%nat ->
  exists s, fill_from n (Z.of_nat k) x src = Some s /\ length s = length src /\
    forall p, (In p (seq k n) -> nth_error s p = Some x) /\ (~ In p (seq k n) -> nth_error s p = nth_error src p).
Proof.
  intros A n. induction n; intros k x src H.
  - exists src. split; [reflexivity|]. split; [reflexivity|]. intros p. split; [intros []|reflexivity].
  - cbn [fill_from]. unfold vset. replace (0 <=? Z.of_nat k) with true by (symmetry; apply Z.leb_le; lia).
    replace (Z.of_nat k <? vsize src) with true by (symmetry; apply Z.ltb_lt; unfold vsize; lia). cbn [andb]. rewrite Nat2Z.id.
    replace (Z.of_nat k + 1) with (Z.of_nat (S k)) by lia.
    destruct (IHn (S k) x (vupd src k x)) as [s [E [Len P]]]; [rewrite vupd_length; lia|].
    exists s. split; [exact E|]. split; [rewrite Len; apply vupd_length|]. intros p. destruct (P p) as [P1 P2]. cbn [seq].
    destruct (in_dec Nat.eq_dec p (seq (S k) n)) as [I|I].
    + split; [intros _; apply P1, I|]. intros X. destruct X. right. exact I.
    + split.
      * intros [<-|J]; [|contradiction]. rewrite (P2 I). apply vupd_same. lia.
      * intros X. rewrite (P2 I). apply vupd_other. intros ->. apply X. left. reflexivity.
Qed.

Lemma to_unsigned_id : forall i, 0 <= i < 2 ^ 63 -> to_unsigned i = i.
Proof. intros i H. unfold to_unsigned. apply Z.mod_small. change (2 ^ 64) with (2 * 2 ^ 63). lia. Qed.
Lemma to_unsigned_negative : forall i, - 2 ^ 63 <= i < 0 -> 2 ^ 63 <= to_unsigned i.
Proof.
  intros i H. unfold to_unsigned. replace (i mod 2 ^ 64) with (i + 2 ^ 64).
  - change (2 ^ 64) with (2 * 2 ^ 63). lia.
  - apply Z.mod_unique with (q := -1); change (2 ^ 64) with (2 * 2 ^ 63) in *; lia.
Qed.

Lemma fill_clamped : forall {A} (src : list A) i j x, 0 <= i < vsize src -> i < 2 ^ 63 -> 0 <= j ->
  exists s, fillVectorSubset i j src x = Some s /\ length s = length src /\
    forall p, (In p (span (length src) (Z.to_nat i) (Z.to_nat (clamp (vsize src) j))) -> nth_error s p = Some x) /\
      (~ In p (span (length src) (Z.to_nat i) (Z.to_nat (clamp (vsize src) j))) -> nth_error s p = nth_error src p).
Proof.
  intros A src i j x Hi Ui Hj. unfold fillVectorSubset. rewrite to_unsigned_id by lia. set (n := vsize src) in *.
  assert (Hn : n = Z.of_nat (length src)) by reflexivity.
  replace ((n <=? i) || (j <? 0)) with false by (symmetry; apply orb_false_iff; split; [apply Z.leb_gt|apply Z.ltb_ge]; lia).
  rewrite (clamp_in n i) by lia. destruct (clamp_range n j) as [B1 B2]. cbv zeta.
  set (b := clamp n j) in *. clearbody b n. unfold span. destruct (Z.leb_spec b i) as [L|L].
  - replace (Nat.leb (Z.to_nat b) (Z.to_nat i)) with true by (symmetry; apply Nat.leb_le; lia).
    replace (Z.to_nat (n - i)) with (length src - Z.to_nat i)%nat by lia.
    destruct (fill_from_ok (length src - Z.to_nat i) (Z.to_nat i) x src) as [s [E [Len P]]]; [lia|].
    rewrite Z2Nat.id in E by lia. rewrite E.
    destruct (fill_from_ok (Z.to_nat b) 0 x s) as [s' [E' [Len' P']]]; [lia|]. cbn [Z.of_nat] in E'. rewrite E'.
    exists s'. split; [reflexivity|]. split; [lia|]. intros p. destruct (P p) as [P1 P2]. destruct (P' p) as [Q1 Q2].
    destruct (in_dec Nat.eq_dec p (seq 0 (Z.to_nat b))) as [I|I].
    + split; [intros _; auto|]. intros X. destruct X. apply in_or_app. right. exact I.
    + rewrite (Q2 I). split.
      * intros X. apply in_app_or in X. destruct X as [X|X]; [auto|contradiction].
      * intros X. apply P2. intros Y. apply X, in_or_app. left. exact Y.
  - replace (Nat.leb (Z.to_nat b) (Z.to_nat i)) with false by (symmetry; apply Nat.leb_gt; lia).
    replace (Z.to_nat (b - i)) with (Z.to_nat b - Z.to_nat i)%nat by lia.
    destruct (fill_from_ok (Z.to_nat b - Z.to_nat i) (Z.to_nat i) x src) as [s [E [Len P]]]; [lia|].
    rewrite Z2Nat.id in E by lia. exists s. split; [exact E|]. split; [exact Len|exact P].
Qed.

Lemma written_span : forall {A} (src s : list A) x ns, length s = length src ->
  (forall p, (In p ns -> nth_error s p = Some x) /\ (~ In p ns -> nth_error s p = nth_error src p)) ->
  written (map Z.of_nat ns) x src s.
Proof.
  intros A src s x ns L P. split; [exact L|]. intros p _. destruct (P p) as [P1 P2]. split.
  - intros H. apply P1. apply in_map_iff in H. destruct H as [q [E I]]. apply Nat2Z.inj in E. subst. exact I.
  - intros H. apply P2. intros I. apply H, in_map, I.
Qed.

Lemma fill_ok : forall {A} (src : list A) i j x ps, vsize src < 2 ^ 63 -> documented (vsize src) i j ps ->
  0 <= i < vsize src -> j < vsize src ->
  exists s, fillVectorSubset i j src x = Some s /\ written ps x src s.
Proof.
  intros A src i j x ps Sz D Hi Hj.
  inversion D as [a b Ia Jb|a b Ia Jb|a b l Ia Jb E|a b Ia Jb|a l Ia E|a b l Ia Ja E|a b l Ia Ja E]; subst; try lia.
  - destruct (fill_clamped src j j x) as [s [G [L P]]]; try lia. exists s. split; [exact G|].
    apply written_span; [exact L|]. rewrite clamp_in in P by lia. unfold span in P. rewrite Nat.leb_refl in P.
    replace (Z.to_nat (vsize src - j)) with (length src - Z.to_nat j)%nat by (unfold vsize in *; lia). exact P.
  - destruct (fill_clamped src i j x) as [s [G [L P]]]; try lia. exists s. split; [exact G|].
    apply written_span; [exact L|]. rewrite clamp_in in P by lia. unfold span in P.
    replace (Nat.leb (Z.to_nat j) (Z.to_nat i)) with false in P by (symmetry; apply Nat.leb_gt; lia).
    replace (Z.to_nat (Z.min j (vsize src) - i)) with (Z.to_nat j - Z.to_nat i)%nat by lia. exact P.
  - destruct (fill_clamped src i j x) as [s [G [L P]]]; try lia. exists s. split; [exact G|].
    apply written_span; [exact L|]. rewrite clamp_in in P by lia. unfold span in P.
    replace (Nat.leb (Z.to_nat j) (Z.to_nat i)) with true in P by (symmetry; apply Nat.leb_le; lia).
    replace (Z.to_nat (vsize src - i)) with (length src - Z.to_nat i)%nat by (unfold vsize in *; lia). exact P.
Qed.

Lemma fill_out : forall {A} (src : list A) i j x, vsize src < 2 ^ 63 -> - 2 ^ 63 <= i < 2 ^ 63 ->
  i < 0 \/ vsize src <= i \/ j < 0 -> fillVectorSubset i j src x = Some src.
Proof.
  intros A src i j x Sz Ui H. unfold fillVectorSubset.
  destruct (Z.ltb_spec j 0); [rewrite orb_true_r; reflexivity|].
  destruct (Z_lt_ge_dec i 0) as [N|N].
  - pose proof (to_unsigned_negative i). destruct (Z.leb_spec (vsize src) (to_unsigned i)); [reflexivity|lia].
  - rewrite to_unsigned_id by lia. destruct (Z.leb_spec (vsize src) i); [reflexivity|lia].
Qed.

(** ** countSubstring *)
Lemma starts_ok : forall sub s, starts s sub = true <-> exists b, s = sub ++ b.
Proof.
  induction sub as [|a sub IH]; intros s.
  - split; [intros _; exists s; reflexivity|destruct s; reflexivity].
  - destruct s as [|c s]; cbn [starts].
    + split; [discriminate|intros [b H]; discriminate].
    + rewrite andb_true_iff, Z.eqb_eq, IH. split.
      * intros [<- [b ->]]. exists b. reflexivity.
      * intros [b H]. injection H as -> ->. split; [reflexivity|exists b; reflexivity].
Qed.
Lemma occurs_0 : forall s sub, occurs s sub 0 <-> starts s sub = true.
Proof.
  intros s sub. rewrite starts_ok. split.
  - intros [a [b [E L]]]. destruct a; [|discriminate]. exists b. exact E.
  - intros [b E]. exists [], b. split; [exact E|reflexivity].
Qed.
Lemma occurs_S : forall c s sub p, occurs (c :: s) sub (S p) <-> occurs s sub p.
Proof.
  intros c s sub p. split.
  - intros [[|d a] [b [E L]]]; [discriminate|]. injection E as -> E. injection L as L. exists a, b. split; assumption.
  - intros [a [b [E L]]]. exists (c :: a), b. cbn. rewrite E, L. split; reflexivity.
Qed.
Lemma str_find_ok : forall sub s, match str_find s sub with
  | Some p => occurs s sub p /\ forall q, occurs s sub q -> (p <= q)%nat
  | None => forall q, ~ occurs s sub q end.
Proof.
  intros sub s. induction s as [|c s IH]; cbn [str_find].
  - destruct (starts [] sub) eqn:E.
    + split; [apply occurs_0; exact E|intros; lia].
    + intros q Q. assert (q = 0)%nat as ->.
      { destruct Q as [a [b [H L]]]. destruct a; [auto|discriminate]. }
      apply occurs_0 in Q. congruence.
  - destruct (starts (c :: s) sub) eqn:E.
    + split; [apply occurs_0; exact E|intros; lia].
    + destruct (str_find s sub) as [p|].
      * destruct IH as [I1 I2]. split; [apply occurs_S; exact I1|]. intros [|q] Q.
        -- apply occurs_0 in Q. congruence.
        -- apply (proj1 (occurs_S _ _ _ _)) in Q. apply I2 in Q. lia.
      * intros [|q] Q; [apply occurs_0 in Q; congruence|]. apply (proj1 (occurs_S _ _ _ _)) in Q. exact (IH q Q).
Qed.
Lemma occurs_skip : forall n s sub p, occurs (skipn n s) sub p -> (n <= length s)%nat -> occurs s sub (n + p).
Proof.
  intros n s sub p [a [b [E L]]] H. exists (firstn n s ++ a), b. split.
  - rewrite <- app_assoc, <- E. symmetry. apply firstn_skipn.
  - rewrite app_length, firstn_length. lia.
Qed.
Lemma occurs_from : forall n s sub p, occurs s sub (n + p) -> occurs (skipn n s) sub p.
Proof.
  induction n; intros s sub p H; [exact H|]. destruct s as [|c s].
  - destruct H as [[|d a] [b [E L]]]; [cbn in L; lia|discriminate].
  - cbn [plus] in H. apply (proj1 (occurs_S _ _ _ _)) in H. apply IHn, H.
Qed.
Lemma occurs_len : forall s sub p, occurs s sub p -> (p + length sub <= length s)%nat.
Proof. intros s sub p [a [b [-> L]]]. rewrite !app_length. lia. Qed.

Lemma apart_ge : forall k ps n, apart k ps -> match ps with [] => True | p :: _ => (n <= p)%nat end -> Forall (fun p => (n <= p)%nat) ps.
Proof.
  intros k ps. induction ps as [|p ps IH]; intros n A H; constructor; [exact H|]. destruct A as [A B]. apply IH; [exact B|].
  destruct ps; [exact I|]. lia.
Qed.
Lemma apart_shift : forall k n ps, apart k (map (plus n) ps) <-> apart k ps.
Proof.
  intros k n ps. induction ps as [|p ps IH]; [reflexivity|]. cbn [map apart]. rewrite IH. destruct ps as [|q ps]; [reflexivity|].
  cbn [map]. intuition lia.
Qed.

Lemma count_loop_ok : forall sub, sub <> [] -> forall fuel s, (length s <= fuel)%nat ->
  exists c, count_loop fuel s sub = Some c /\ most_disjoint s sub c.
Proof.
  intros sub Ne fuel. assert (Ln : (0 < length sub)%nat) by (destruct sub; [contradiction|cbn; lia]).
  induction fuel; intros s Hs.
  - cbn [count_loop]. pose proof (str_find_ok sub s) as F. destruct (str_find s sub) as [p|].
    + destruct F as [F _]. apply occurs_len in F. lia.
    + exists O. split; [reflexivity|]. split.
      * exists []. repeat split; constructor.
      * intros [|p ps] A _; [cbn; lia|]. inversion A; subst. destruct (F p H1).
  - cbn [count_loop]. pose proof (str_find_ok sub s) as F. destruct (str_find s sub) as [p|].
    + destruct F as [F1 F2]. pose proof (occurs_len _ _ _ F1) as Lp.
      destruct (IHfuel (skipn (p + length sub) s)) as [c [E [[ps [P1 [P2 P3]]] M]]]; [rewrite skipn_length; lia|].
      rewrite E. exists (S c). split; [reflexivity|]. split.
      * exists (p :: map (plus (p + length sub)) ps). split; [cbn; rewrite map_length, P1; reflexivity|]. split.
        -- constructor; [exact F1|]. rewrite Forall_map. revert P2. apply Forall_impl. intros q Q. apply occurs_skip; [exact Q|exact Lp].
        -- cbn [apart]. split; [destruct ps; cbn; lia|]. apply apart_shift, P3.
      * intros [|q qs] A B; [cbn; lia|]. pose proof (Forall_inv A) as Q. pose proof (Forall_inv_tail A) as Qs. cbn [length]. apply le_n_S.
        destruct B as [B1 B2]. pose proof (F2 q Q) as Pq.
        assert (G : Forall (fun x => (p + length sub <= x)%nat) qs).
        { apply (apart_ge (length sub)); [exact B2|]. destruct qs; [exact I|]. lia. }
        set (rs := map (fun x => x - (p + length sub))%nat qs).
        assert (Er : qs = map (plus (p + length sub)) rs).
        { unfold rs. rewrite map_map. rewrite <- (map_id qs) at 1. apply map_ext_in. intros x X.
          rewrite Forall_forall in G. specialize (G x X). lia. }
        replace (length qs) with (length rs) by (unfold rs; apply map_length). apply M.
        -- rewrite Er, Forall_map in Qs. revert Qs. apply Forall_impl. intros x X. apply occurs_from, X.
        -- rewrite Er in B2. apply apart_shift in B2. exact B2.
    + exists O. split; [reflexivity|]. split.
      * exists []. repeat split; constructor.
      * intros [|p ps] A _; [cbn; lia|]. inversion A; subst. destruct (F p H1).
Qed.
Lemma count_ok : forall s sub, sub <> [] -> exists c, countSubstring s sub = Some c /\ most_disjoint s sub c.
Proof.
  intros s sub Ne. destruct (count_loop_ok sub Ne (length s) s (le_n _)) as [c H]. exists c.
  unfold countSubstring. destruct sub; [contradiction|exact H].
Qed.

(** ** find *)
Lemma std_find_ok : forall l x, if in_dec Z.eq_dec x l
  then (std_find l x < length l)%nat /\ nth_error l (std_find l x) = Some x /\ forall k, (k < std_find l x)%nat -> nth_error l k <> Some x
  else std_find l x = length l.
Proof.
  intros l x. induction l as [|a l IH]; cbn [std_find].
  - destruct (in_dec Z.eq_dec x []); [destruct i|reflexivity].
  - destruct (Z.eqb_spec a x) as [->|Na].
    + destruct (in_dec Z.eq_dec x (x :: l)) as [_|N]; [|destruct N; left; reflexivity].
      split; [cbn; lia|]. split; [reflexivity|]. intros k H. lia.
    + destruct (in_dec Z.eq_dec x (a :: l)) as [I|N].
      * destruct I as [I|I]; [contradiction|]. destruct (in_dec Z.eq_dec x l) as [_|K]; [|contradiction].
        destruct IH as [I1 [I2 I3]]. split; [cbn; lia|]. split; [exact I2|]. intros [|k] H; [cbn; congruence|]. apply I3. lia.
      * destruct (in_dec Z.eq_dec x l) as [K|_]; [destruct N; right; exact K|]. cbn. rewrite IH. reflexivity.
Qed.
