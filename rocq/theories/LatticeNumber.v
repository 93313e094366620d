(** Proofs about the numbering loop of lattices, for any way of joining points. *)
From Coq Require Import List Arith ZArith Bool Lia.
From Verif Require Import Vec Shape Mesh Lattice.
Import ListNotations.
Open Scope nat_scope.

Lemma upd_length {A} (l : list A) i x : length (upd l i x) = length l.
Proof. revert i; induction l as [|a l IH]; intros [|i]; cbn; auto. Qed.
Lemma upd_nth {A} (l : list A) i x n : nth_error (upd l i x) n = if (n =? i) && (i <? length l) then Some x else nth_error l n.
Proof.
  revert i n; induction l as [|a l IH]; intros [|i] [|n]; cbn; auto.
  - rewrite andb_false_r; reflexivity.
  - rewrite IH. reflexivity.
Qed.
Lemma zset_some {A} (l : list A) i x : i < length l -> zset l (Z.of_nat i) x = Some (upd l i x).
Proof.
  intros H. unfold zset. rewrite (proj2 (Z.leb_le _ _)) by lia. rewrite (proj2 (Z.ltb_lt _ _)) by lia.
  rewrite Nat2Z.id. reflexivity.
Qed.
Lemma zsets_some {A} is : forall (l : list A) x, (forall z, In z is -> exists n, z = Z.of_nat n /\ n < length l) ->
  exists l', zsets l is x = Some l' /\ length l' = length l /\
    forall n, n < length l -> (In (Z.of_nat n) is -> nth_error l' n = Some x) /\ (~ In (Z.of_nat n) is -> nth_error l' n = nth_error l n).
Proof.
  induction is as [|i is IH]; intros l x H; cbn.
  - exists l. repeat split; try tauto.
  - destruct (H i (or_introl eq_refl)) as (k & -> & K). rewrite zset_some by exact K.
    destruct (IH (upd l k x) x) as (l' & E & L & F).
    { intros z Hz. destruct (H z (or_intror Hz)) as (n & -> & N). exists n. rewrite upd_length. auto. }
    rewrite upd_length in L, F. exists l'. split; [exact E|]. split; [exact L|]. intros n Hn. destruct (F n Hn) as [F1 F2]. clear F.
    destruct (in_dec Z.eq_dec (Z.of_nat n) is) as [I|I].
    + split; [intros _; apply F1, I|]. intros C. destruct C. right; exact I.
    + rewrite (F2 I). rewrite upd_nth. destruct (Nat.eqb_spec n k) as [->|NE]; cbn [andb].
      * rewrite (proj2 (Nat.ltb_lt _ _)) by lia. split; [reflexivity|]. intros C. destruct C. left; reflexivity.
      * split; [|reflexivity]. intros [C|C]; [|tauto]. lia.
Qed.
Lemma find_pos_spec l x : find_pos l x <= length l /\ (forall n, n < find_pos l x -> nth_error l n <> Some x) /\
  (find_pos l x = length l \/ nth_error l (find_pos l x) = Some x).
Proof.
  induction l as [|a l (L & B & E)]; cbn.
  - split; [lia|]. split; [|auto]. intros n; lia.
  - destruct (Z.eqb_spec a x) as [->|NE]; cbn.
    + split; [lia|]. split; [|auto]. intros n; lia.
    + split; [lia|]. split; [|destruct E; [left; lia|right; assumption]].
      intros [|n] Hn; cbn; [congruence|]. apply B. lia.
Qed.
Lemma find_pos_unique l x q : q < length l -> nth_error l q = Some x -> (forall n, n < q -> nth_error l n <> Some x) -> find_pos l x = q.
Proof.
  intros Q E B. destruct (find_pos_spec l x) as (L & B' & E').
  destruct (lt_eq_lt_dec (find_pos l x) q) as [[C|C]|C]; [|exact C|].
  - destruct E' as [E'|E']; [lia|]. destruct (B _ C E').
  - destruct (B' _ C E).
Qed.
Lemma find_pos_none l x : ~ In x l -> find_pos l x = length l.
Proof.
  intros H. destruct (find_pos_spec l x) as (_ & _ & [E|E]); [exact E|]. destruct H. eapply nth_error_In, E.
Qed.
Lemma nth_error_mapseq {A} (f : nat -> A) N n : n < N -> nth_error (map f (seq 0 N)) n = Some (f n).
Proof.
  intros H. erewrite map_nth_error; [reflexivity|]. rewrite nth_error_nth' with (d := 0) by (rewrite seq_length; exact H).
  rewrite seq_nth by exact H. reflexivity.
Qed.
Lemma list_eq_nth {A} (l l' : list A) : length l = length l' -> (forall n, n < length l -> nth_error l n = nth_error l' n) -> l = l'.
Proof.
  revert l'; induction l as [|a l IH]; intros [|b l'] L H; try discriminate; [reflexivity|].
  pose proof (H 0 ltac:(cbn; lia)) as H0. cbn in H0. injection H0 as ->. f_equal. apply IH; [cbn in L; lia|].
  intros n Hn. apply (H (S n)). cbn; lia.
Qed.

Definition count (f : nat -> bool) (p : nat) : nat := length (filter f (seq 0 p)).
Lemma count_S f p : count f (S p) = count f p + if f p then 1 else 0.
Proof. unfold count. rewrite seq_S, filter_app, app_length. cbn. destruct (f p); reflexivity. Qed.
Lemma count_mono f p q : p <= q -> count f p <= count f q.
Proof. induction 1; [lia|]. rewrite count_S. lia. Qed.
Lemma count_lt f p q : p < q -> f p = true -> count f p < count f q.
Proof. intros L E. pose proof (count_mono f (S p) q L) as H. rewrite count_S, E in H. lia. Qed.
Lemma count_skip f p q : p <= q -> (forall n, p <= n < q -> f n = false) -> count f q = count f p.
Proof.
  intros L H. induction L as [|q L IH]; [reflexivity|]. rewrite count_S, IH by (intros; apply H; lia). rewrite (H q) by lia. lia.
Qed.
Lemma count_onto f N d : d < count f N -> exists r, r < N /\ f r = true /\ count f r = d.
Proof.
  induction N as [|N IH]; [cbn; lia|]. rewrite count_S. intros H. destruct (Nat.lt_ge_cases d (count f N)) as [C|C].
  - destruct (IH C) as (r & L & E). exists r. auto.
  - destruct (f N) eqn:F; [|lia]. exists N. split; [lia|]. split; [exact F|lia].
Qed.
Lemma count_ext f g p : (forall n, n < p -> f n = g n) -> count f p = count g p.
Proof. induction p as [|p IH]; intros H; [reflexivity|]. rewrite !count_S, IH by (intros; apply H; lia). rewrite (H p) by lia. reflexivity. Qed.
Lemma count_all p : count (fun _ => true) p = p.
Proof. induction p; [reflexivity|]. rewrite count_S, IHp. lia. Qed.

Section joined.
Variable N : nat.
Variable rep : nat -> nat.
Variable next : Z -> list Z.
Hypothesis below : forall n, n < N -> rep n <= n.
Hypothesis idem : forall n, n < N -> rep (rep n) = rep n.
Hypothesis next_in : forall r z, r < N -> rep r = r -> In z (next (Z.of_nat r)) -> exists n, z = Z.of_nat n /\ n < N /\ rep n = r.
Hypothesis next_all : forall r n, r < N -> rep r = r -> n < N -> rep n = r -> n = r \/ In (Z.of_nat n) (next (Z.of_nat r)).
Let isrep n := rep n =? n.
Let cnt := count isrep.
Definition state (p : nat) : list Z := map (fun n => if rep n <? p then Z.of_nat (cnt (rep n)) else (-1)%Z) (seq 0 N).
Lemma state_length p : length (state p) = N.
Proof. unfold state. rewrite map_length, seq_length. reflexivity. Qed.
Lemma state_nth p n : n < N -> nth_error (state p) n = Some (if rep n <? p then Z.of_nat (cnt (rep n)) else (-1)%Z).
Proof. intros H. unfold state. apply (nth_error_mapseq (fun n => if rep n <? p then Z.of_nat (cnt (rep n)) else (-1)%Z)), H. Qed.

Lemma step p : p < N -> rep p = p -> exists l1, zset (state p) (Z.of_nat p) (Z.of_nat (cnt p)) = Some l1 /\
  zsets l1 (next (Z.of_nat p)) (Z.of_nat (cnt p)) = Some (state (S p)).
Proof.
  intros P E. eexists. split; [apply zset_some; rewrite state_length; exact P|].
  destruct (zsets_some (next (Z.of_nat p)) (upd (state p) p (Z.of_nat (cnt p))) (Z.of_nat (cnt p))) as (l' & Z & L & F).
  { intros z Hz. destruct (next_in p z P E Hz) as (n & -> & Hn & _). exists n. rewrite upd_length, state_length. auto. }
  rewrite Z. f_equal. rewrite upd_length, state_length in L, F. apply list_eq_nth; [rewrite state_length; exact L|].
  intros n Hn. rewrite L in Hn. destruct (F n Hn) as [F1 F2]. rewrite state_nth by exact Hn.
  destruct (Nat.eq_dec (rep n) p) as [Q|Q].
  - rewrite Q. rewrite (proj2 (Nat.ltb_lt _ _)) by lia. destruct (in_dec Z.eq_dec (Z.of_nat n) (next (Z.of_nat p))) as [I|I]; [auto|].
    rewrite (F2 I). destruct (next_all p n P E Hn Q) as [->|C]; [|tauto].
    rewrite upd_nth, Nat.eqb_refl, state_length, (proj2 (Nat.ltb_lt _ _) P). reflexivity.
  - assert (I : ~ In (Z.of_nat n) (next (Z.of_nat p))).
    { intros I. destruct (next_in p _ P E I) as (n' & EQ & _ & R). assert (n = n') by lia. congruence. }
    rewrite (F2 I). rewrite upd_nth. destruct (Nat.eqb_spec n p) as [->|NE]; [congruence|]. cbn [andb].
    rewrite state_nth by exact Hn. destruct (Nat.ltb_spec (rep n) p), (Nat.ltb_spec (rep n) (S p)); try reflexivity; lia.
Qed.
Lemma find_next p : p < N -> let q := find_pos (state (S p)) (-1) in
  p < q <= N /\ (q = N \/ rep q = q) /\ cnt q = cnt (S p) /\ state q = state (S p).
Proof.
  intros P q. destruct (find_pos_spec (state (S p)) (-1)) as (L & B & E). fold q in L, B, E. rewrite state_length in L, E.
  assert (Bq : forall n, n < q -> rep n <= p).
  { intros n Hn. specialize (B n Hn). rewrite state_nth in B by lia. destruct (Nat.ltb_spec (rep n) (S p)); [lia|]. congruence. }
  assert (PQ : p < q).
  { destruct E as [->|E]; [exact P|]. destruct (Nat.lt_ge_cases p q) as [|C]; [assumption|].
    assert (Q : q < N) by lia. rewrite state_nth in E by exact Q. pose proof (below q Q).
    rewrite (proj2 (Nat.ltb_lt _ _)) in E by lia. injection E as E. lia. }
  split; [lia|]. split.
  - destruct E as [->|E]; [auto|]. destruct (Nat.eq_dec q N) as [|NE]; [auto|]. right. assert (Q : q < N) by lia.
    rewrite state_nth in E by exact Q. destruct (Nat.ltb_spec (rep q) (S p)) as [C|C]; [injection E as E; lia|].
    pose proof (below q Q) as Bl. destruct (Nat.eq_dec (rep q) q) as [|NR]; [assumption|].
    assert (RL : rep q < q) by lia. specialize (Bq _ RL). rewrite idem in Bq by exact Q. lia.
  - assert (SK : forall n, S p <= n < q -> isrep n = false).
    { intros n Hn. unfold isrep. apply Nat.eqb_neq. specialize (Bq n ltac:(lia)). lia. }
    split; [apply count_skip; [lia|exact SK]|]. unfold state. apply map_ext_in. intros n Hn. apply in_seq in Hn.
    destruct (Nat.ltb_spec (rep n) q) as [C1|C1], (Nat.ltb_spec (rep n) (S p)) as [C2|C2]; try reflexivity; [|lia].
    specialize (Bq _ C1). rewrite idem in Bq by lia. lia.
Qed.
Lemma number_state fuel p : p <= N -> p = N \/ rep p = p -> N - p <= fuel ->
  number fuel next (state p) p (Z.of_nat (cnt p)) = Some (state N).
Proof.
  revert p. induction fuel as [|fuel IH]; intros p P R F.
  - assert (p = N) as -> by lia. cbn [number]. rewrite state_length, Nat.eqb_refl. reflexivity.
  - cbn [number]. rewrite state_length. destruct (Nat.eqb_spec p N) as [->|NE]; [reflexivity|].
    destruct R as [R|R]; [tauto|]. destruct (step p ltac:(lia) R) as (l1 & -> & ->).
    destruct (find_next p ltac:(lia)) as ((Q1 & Q2) & Q3 & Q4 & Q5). set (q := find_pos (state (S p)) (-1)) in *.
    rewrite <- Q5. replace (Z.of_nat (cnt p) + 1)%Z with (Z.of_nat (cnt q)); [apply IH; [exact Q2|exact Q3|lia]|].
    rewrite Q4. unfold cnt. rewrite count_S. unfold isrep at 2. rewrite R, Nat.eqb_refl. lia.
Qed.
Definition labels : list Z := map (fun n => Z.of_nat (cnt (rep n))) (seq 0 N).
Lemma number_ok fuel : N <= fuel -> number fuel next (repeat (-1)%Z N) 0 0 = Some labels.
Proof.
  intros F. assert (S0 : repeat (-1)%Z N = state 0).
  { apply list_eq_nth; [rewrite repeat_length, state_length; reflexivity|]. intros n. rewrite repeat_length. intros Hn.
    rewrite state_nth by exact Hn. apply nth_error_repeat, Hn. }
  rewrite S0. change 0%Z with (Z.of_nat (cnt 0)). rewrite number_state; [|lia| |lia].
  - f_equal. unfold state, labels. apply map_ext_in. intros n Hn. apply in_seq in Hn. pose proof (below n ltac:(lia)).
    rewrite (proj2 (Nat.ltb_lt _ _)) by lia. reflexivity.
  - destruct N as [|N'] eqn:EN; [auto|]. right. pose proof (below 0 ltac:(lia)). lia.
Qed.
Lemma labels_nth n : n < N -> nth_error labels n = Some (Z.of_nat (cnt (rep n))).
Proof. intros H. unfold labels. apply (nth_error_mapseq (fun n => Z.of_nat (cnt (rep n)))), H. Qed.
Lemma labels_length : length labels = N.
Proof. unfold labels. rewrite map_length, seq_length. reflexivity. Qed.
Lemma cnt_rep n : n < N -> cnt (rep n) < cnt N.
Proof. intros H. apply count_lt; [pose proof (below n H); lia|]. unfold isrep. rewrite idem by exact H. apply Nat.eqb_refl. Qed.
Lemma cnt_inj n m : n < N -> m < N -> cnt (rep n) = cnt (rep m) -> rep n = rep m.
Proof.
  intros Hn Hm E.
  assert (In_ : isrep (rep n) = true) by (unfold isrep; rewrite idem by exact Hn; apply Nat.eqb_refl).
  assert (Im_ : isrep (rep m) = true) by (unfold isrep; rewrite idem by exact Hm; apply Nat.eqb_refl).
  destruct (lt_eq_lt_dec (rep n) (rep m)) as [[C|C]|C]; [|exact C|].
  - pose proof (count_lt isrep _ _ C In_). unfold cnt in E. lia.
  - pose proof (count_lt isrep _ _ C Im_). unfold cnt in E. lia.
Qed.
Lemma first_ok d : d < cnt N -> exists r, r < N /\ rep r = r /\ cnt r = d /\ find_pos labels (Z.of_nat d) = r.
Proof.
  intros H. destruct (count_onto isrep N d H) as (r & R & I & C). unfold isrep in I. apply Nat.eqb_eq in I.
  exists r. split; [exact R|]. split; [exact I|]. split; [exact C|]. apply find_pos_unique.
  - rewrite labels_length. exact R.
  - rewrite labels_nth by exact R. rewrite I. unfold cnt. rewrite C. reflexivity.
  - intros n Hn. rewrite labels_nth by lia. intros E. injection E as E. apply Nat2Z.inj in E.
    assert (HH : cnt (rep n) = cnt (rep r)) by (rewrite I, E; unfold cnt; rewrite C; reflexivity).
    apply cnt_inj in HH; [|lia|exact R]. pose proof (below n ltac:(lia)). lia.
Qed.
Lemma first_lt d d' : d < d' < cnt N -> find_pos labels (Z.of_nat d) < find_pos labels (Z.of_nat d').
Proof.
  intros [L H]. destruct (first_ok d ltac:(lia)) as (r & R & I & C & ->). destruct (first_ok d' H) as (r' & R' & I' & C' & ->).
  destruct (Nat.lt_ge_cases r r') as [|G]; [assumption|]. pose proof (count_mono isrep r' r G). unfold cnt in *. lia.
Qed.
Lemma no_label z : ~ (0 <= z < Z.of_nat (cnt N))%Z -> ~ In z labels.
Proof.
  intros H I. unfold labels in I. apply in_map_iff in I. destruct I as (n & <- & Hn). apply in_seq in Hn.
  pose proof (cnt_rep n ltac:(lia)). lia.
Qed.
End joined.
