(** The knots of one direction: they increase, the interval of a coordinate is found, and the nodes
    of the interval exist. *)
From Coq Require Import Reals List Arith ZArith Bool Lia Lra.
From Verif Require Import Vec Shape Mesh Lattice Ffd FfdSpec FfdBasis.
Import ListNotations.
Open Scope R_scope.

(** ** vectors *)
Lemma upd_len {A} (l : list A) i x : length (upd l i x) = length l.
Proof. revert i. induction l as [|a l IH]; intros [|i]; cbn [upd length]; try reflexivity. now rewrite IH. Qed.
Lemma nth_upd {A} (l : list A) i x j d : (i < length l)%nat -> nth j (upd l i x) d = if Nat.eqb j i then x else nth j l d.
Proof.
  revert i j. induction l as [|a l IH]; intros [|i] [|j] H; cbn [length] in H; try lia; cbn [upd nth Nat.eqb]; try reflexivity.
  apply IH. lia.
Qed.
Lemma put_ok {A} (l : list A) i x : (i < length l)%nat -> put l i x = Some (upd l i x).
Proof. intros H. unfold put. destruct (Nat.ltb_spec i (length l)); [reflexivity|lia]. Qed.
Lemma get_ok {A} (l : list A) i d : (i < length l)%nat -> get l i = Some (nth i l d).
Proof. apply nth_error_nth'. Qed.
Lemma loop_app {A B} (f : A -> B -> option B) l1 : forall l2 b, loop f (l1 ++ l2) b = do b <- loop f l1 b; loop f l2 b.
Proof. induction l1 as [|y l1 IH]; intros l2 b; cbn [app loop bind]; [reflexivity|]. destruct (f y b); cbn [bind]; [apply IH|reflexivity]. Qed.
Lemma loop_snoc {A B} (f : A -> B -> option B) l x b : loop f (l ++ [x]) b = do b <- loop f l b; f x b.
Proof. rewrite loop_app. destruct (loop f l b); cbn [bind loop]; [|reflexivity]. now destruct (f x b0). Qed.
Notation "l ? i" := (nth i l 0) (at level 9, format "l ? i").

(** ** averages *)
Lemma average_is o d n deg i : (1 <= deg)%nat -> (i + deg <= n)%nat ->
  average (map (fun i => o + INR i * d) (seq 0 n)) deg i = Some (o + (INR i + (INR deg - 1) / 2) * d).
Proof.
  intros D H. unfold average.
  assert (P : forall m, (m <= deg)%nat -> loop (fun j a => do x <- get (map (fun i => o + INR i * d) (seq 0 n)) j; Some (a + x / INR deg)) (seq i m) 0
              = Some ((INR m * o + (INR m * INR i + INR m * (INR m - 1) / 2) * d) / INR deg)).
  { assert (INR deg <> 0) by (apply not_0_INR; lia).
    induction m as [|m IH]; intros Hm; [cbn [seq loop INR]; f_equal; field; assumption|].
    rewrite seq_S, loop_snoc, IH by lia. cbn [bind].
    rewrite (get_ok _ _ 0) by (rewrite map_length, seq_length; lia). cbn [bind].
    rewrite (nth_indep _ 0 (o + INR 0 * d)) by (rewrite map_length, seq_length; lia).
    rewrite (map_nth (fun i => o + INR i * d)), seq_nth by lia. f_equal. rewrite plus_O_n, plus_INR, S_INR. field. assumption. }
  rewrite P by lia. f_equal. assert (INR deg <> 0) by (apply not_0_INR; lia). field. assumption.
Qed.
Lemma averages_is e deg off from to (v : nat -> R) l : (from <= to)%nat -> (off + to <= length l)%nat ->
  (forall i, (from <= i < to)%nat -> average e deg i = Some (v i)) ->
  exists l', averages e deg off from to l = Some l' /\ length l' = length l /\
    forall p, l' ? p = if (Nat.leb (off + from) p && Nat.ltb p (off + to))%bool then v (p - off)%nat else l ? p.
Proof.
  intros FT Len A. unfold averages.
  assert (P : forall m, (from + m <= to)%nat -> exists l', loop (fun i l => do a <- average e deg i; put l (i + off) a) (seq from m) l = Some l' /\ length l' = length l /\
    forall p, l' ? p = if (Nat.leb (off + from) p && Nat.ltb p (off + (from + m)))%bool then v (p - off)%nat else l ? p).
  { induction m as [|m IH]; intros Hm.
    - exists l. split; [reflexivity|]. split; [reflexivity|]. intros p. destruct (Nat.leb_spec (off + from) p), (Nat.ltb_spec p (off + (from + 0))); cbn [andb]; try reflexivity. lia.
    - destruct IH as (l1 & E & L1 & N); [lia|]. rewrite seq_S, loop_snoc, E. cbn [bind]. rewrite A by lia. cbn [bind].
      rewrite put_ok by lia. eexists. split; [reflexivity|]. split; [rewrite upd_len; exact L1|]. intros p. rewrite nth_upd by lia. rewrite N.
      destruct (Nat.eqb_spec p (from + m + off)) as [->|Ne].
      + destruct (Nat.leb_spec (off + from) (from + m + off)), (Nat.ltb_spec (from + m + off) (off + (from + S m))); cbn [andb]; try lia. f_equal. lia.
      + destruct (Nat.leb_spec (off + from) p), (Nat.ltb_spec p (off + (from + m))), (Nat.ltb_spec p (off + (from + S m))); cbn [andb]; try reflexivity; lia. }
  destruct (P (to - from)%nat ltac:(lia)) as (l' & E & L & N). exists l'. split; [exact E|]. split; [exact L|]. intros p. rewrite N. now replace (from + (to - from))%nat with to by lia.
Qed.

(** ** the knots outside: their distances are distances of knots inside *)
Lemma unclamp_is (P : R -> Prop) deg kend l : (1 <= deg)%nat -> (deg < kend)%nat -> length l = (kend + deg + 1)%nat ->
  (forall p, (deg <= p < kend)%nat -> P (l ? (p + 1) - l ? p)) ->
  exists l', unclamp deg kend l = Some l' /\ length l' = length l /\
    (forall p, (p < kend + deg)%nat -> P (l' ? (p + 1) - l' ? p)) /\
    (forall p, (deg <= p <= kend)%nat -> l' ? p = l ? p) /\
    l' ? (kend + 1) = l ? kend + (l ? (deg + 1) - l ? deg).
Proof.
  intros D K Len Pl. unfold unclamp.
  match goal with |- exists l', loop ?F _ _ = _ /\ _ => set (f := F) end.
  assert (Q : forall m, (m <= deg)%nat -> exists l', loop f (seq 0 m) l = Some l' /\ length l' = length l /\
    (forall p, (deg - m <= p < kend + m)%nat -> P (l' ? (p + 1) - l' ? p)) /\
    (forall p, (deg <= p <= kend)%nat -> l' ? p = l ? p) /\
    ((1 <= m)%nat -> l' ? (kend + 1) = l ? kend + (l ? (deg + 1) - l ? deg))).
  { induction m as [|m IH]; intros Hm.
    - exists l. split; [reflexivity|]. split; [reflexivity|]. split; [intros p Hp; apply Pl; lia|]. split; [reflexivity|lia].
    - destruct IH as (l1 & E & L1 & P1 & C1 & N1); [lia|]. rewrite seq_S, loop_snoc, E. cbn [bind plus]. unfold f.
      rewrite (get_ok l1 (deg - m) 0), (get_ok l1 (kend - m) 0), (get_ok l1 (kend - m - 1) 0) by lia. cbn [bind].
      set (a := l1 ? (deg - m) - (l1 ? (kend - m) - l1 ? (kend - m - 1))).
      rewrite put_ok by lia. cbn [bind].
      rewrite (get_ok _ (kend + m) 0), (get_ok _ (deg + m + 1) 0), (get_ok _ (deg + m) 0) by (rewrite upd_len; lia). cbn [bind].
      rewrite !nth_upd by lia.
      destruct (Nat.eqb_spec (kend + m) (deg - m - 1)), (Nat.eqb_spec (deg + m + 1) (deg - m - 1)), (Nat.eqb_spec (deg + m) (deg - m - 1)); try lia.
      set (b := l1 ? (kend + m) + (l1 ? (deg + m + 1) - l1 ? (deg + m))).
      rewrite put_ok by (rewrite upd_len; lia). eexists. split; [reflexivity|]. split; [rewrite !upd_len; exact L1|].
      assert (N : forall p, (upd (upd l1 (deg - m - 1) a) (kend + 1 + m) b) ? p = if Nat.eqb p (kend + 1 + m) then b else if Nat.eqb p (deg - m - 1) then a else l1 ? p).
      { intros p. rewrite !nth_upd by (rewrite ?upd_len; lia). reflexivity. }
      split; [|split].
      + intros p Hp. rewrite !N.
        destruct (Nat.eqb_spec (p + 1) (kend + 1 + m)) as [E1|E1].
        * destruct (Nat.eqb_spec p (kend + 1 + m)); [lia|]. destruct (Nat.eqb_spec p (deg - m - 1)); [lia|].
          replace p with (kend + m)%nat by lia. unfold b.
          replace (l1 ? (kend + m) + (l1 ? (deg + m + 1) - l1 ? (deg + m)) - l1 ? (kend + m)) with (l1 ? (deg + m + 1) - l1 ? (deg + m)) by lra.
          apply P1. lia.
        * destruct (Nat.eqb_spec p (kend + 1 + m)); [lia|]. destruct (Nat.eqb_spec (p + 1) (deg - m - 1)); [lia|].
          destruct (Nat.eqb_spec p (deg - m - 1)) as [E2|E2].
          -- replace (p + 1)%nat with (deg - m)%nat by lia. unfold a.
             replace (l1 ? (deg - m) - (l1 ? (deg - m) - (l1 ? (kend - m) - l1 ? (kend - m - 1)))) with (l1 ? (kend - m) - l1 ? (kend - m - 1)) by lra.
             replace (kend - m)%nat with ((kend - m - 1) + 1)%nat at 1 by lia. apply P1. lia.
          -- apply P1. lia.
      + intros p Hp. rewrite N. destruct (Nat.eqb_spec p (kend + 1 + m)), (Nat.eqb_spec p (deg - m - 1)); try lia. apply C1. exact Hp.
      + intros _. rewrite N. destruct (Nat.eqb_spec (kend + 1) (kend + 1 + m)) as [E1|E1].
        * assert (m = 0%nat) by lia. subst m. unfold b. rewrite !Nat.add_0_r. rewrite !C1 by lia. reflexivity.
        * destruct (Nat.eqb_spec (kend + 1) (deg - m - 1)); [lia|]. apply N1. lia. }
  destruct (Q deg (le_n _)) as (l' & E & L & P1 & C & N). exists l'. split; [exact E|]. split; [exact L|]. split; [|split; [exact C|apply N, D]].
  intros p Hp. apply P1. lia.
Qed.

(** ** the search *)
Definition increasing (k : list R) : Prop := forall p, (p + 1 < length k)%nat -> k ? p < k ? (p + 1).
Lemma increasing_lt k : increasing k -> forall p q, (p < q < length k)%nat -> k ? p < k ? q.
Proof.
  intros I p q. induction q as [|q IH]; intros H; [lia|]. replace (S q) with (q + 1)%nat by lia.
  destruct (Nat.eq_dec p q) as [->|N]; [apply I; lia|]. apply Rlt_trans with (k ? q); [apply IH; lia|apply I; lia].
Qed.
Lemma increasing_le k : increasing k -> forall p q, (p <= q < length k)%nat -> k ? p <= k ? q.
Proof. intros I p q H. destruct (Nat.eq_dec p q) as [->|N]; [lra|]. left. apply increasing_lt; [exact I|lia]. Qed.
Lemma search_ok k x : forall fuel low high, (low < high < length k)%nat -> (high - low < fuel)%nat -> k ? low <= x < k ? high ->
  exists mid, search fuel k x low high = Some mid /\ (low <= mid < high)%nat /\ k ? mid <= x < k ? (mid + 1).
Proof.
  induction fuel as [|fuel IH]; intros low high H F X; [lia|]. cbn [search].
  assert (M : (low <= (low + high) / 2 < high)%nat).
  { split; [apply Nat.div_le_lower_bound; lia|apply Nat.div_lt_upper_bound; lia]. }
  assert (M1 : ((low + high) / 2 = low -> high = low + 1)%nat).
  { intros E. pose proof (Nat.div_mod (low + high) 2 ltac:(lia)). pose proof (Nat.mod_upper_bound (low + high) 2 ltac:(lia)). lia. }
  set (mid := ((low + high) / 2)%nat) in *. clearbody mid.
  rewrite (get_ok k mid 0) by lia. cbn [bind]. destruct (Rlt_dec x (k ? mid)) as [A|A].
  - destruct (Nat.eq_dec mid low) as [->|N]; [lra|]. destruct (IH low mid) as (r & E & R1 & R2); [lia|lia|lra|]. exists r. split; [exact E|]. split; [lia|exact R2].
  - rewrite (get_ok k (mid + 1) 0) by lia. cbn [bind]. destruct (Rle_dec (k ? (mid + 1)) x) as [B|B].
    + destruct (Nat.eq_dec mid low) as [->|N].
      * rewrite <- (M1 eq_refl) in B. lra.
      * destruct (IH mid high) as (r & E & R1 & R2); [lia|lia|lra|]. exists r. split; [exact E|]. split; [lia|exact R2].
    + exists mid. split; [reflexivity|]. split; [exact M|]. lra.
Qed.
Lemma interval_ok c x : let k := c_knots c in increasing k -> (2 <= length k)%nat -> k ? 0 <= x -> x <= k ? (length k - 1) ->
  exists m, getKnotInterval c x = Some (getTheoreticalKnotIndex c m) /\ (m + 1 < length k)%nat /\ k ? m <= x <= k ? (m + 1) /\
    (x < k ? (m + 1) \/ (m + 1 = length k - 1)%nat).
Proof.
  intros k I L X0 X1. unfold getKnotInterval. fold k. rewrite (get_ok k 0 0) by lia. cbn [bind].
  destruct (Rlt_dec x (k ? 0)); [lra|]. rewrite (get_ok k (length k - 1) 0) by lia. cbn [bind].
  destruct (Rle_dec (k ? (length k - 1)) x) as [E|E].
  - exists (length k - 2)%nat. split; [reflexivity|]. split; [lia|]. replace (length k - 2 + 1)%nat with (length k - 1)%nat by lia.
    split; [|right; reflexivity]. split; [|lra]. pose proof (increasing_le k I (length k - 2) (length k - 1) ltac:(lia)). lra.
  - destruct (search_ok k x (S (length k)) 0 (length k - 1)) as (m & S1 & S2 & S3); [lia|lia|lra|]. rewrite S1. cbn [bind].
    exists m. split; [reflexivity|]. split; [lia|]. split; [lra|]. left. lra.
Qed.
Lemma last_pos_is l x p : (p < length l)%nat -> nth p l 0%nat = x -> (forall q, (p < q < length l)%nat -> nth q l 0%nat <> x) ->
  forall a f, last_pos l x a f = (a + Z.of_nat p)%Z.
Proof.
  revert p. induction l as [|y l IH]; intros p P E N a f; cbn [length] in *; [lia|]. cbn [last_pos].
  assert (None_ : (forall q, (q < length l)%nat -> nth q l 0%nat <> x) -> forall b g, last_pos l x b g = g).
  { clear. induction l as [|y l IH]; intros N b g; cbn [last_pos]; [reflexivity|]. destruct (Nat.eqb_spec y x) as [E|E].
    - exfalso. apply (N 0%nat); [cbn [length]; lia|exact E].
    - apply IH. intros q Hq. apply (N (S q)). cbn [length]. lia. }
  destruct p as [|p].
  - cbn [nth] in E. subst y. rewrite Nat.eqb_refl. rewrite None_; [lia|]. intros q Hq. apply (N (S q)). lia.
  - rewrite (IH p); [lia|lia|exact E|]. intros q Hq. apply (N (S q)). lia.
Qed.
