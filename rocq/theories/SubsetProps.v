(** The properties of the vector helpers (C38, C65). *)
From Coq Require Import List ZArith Bool Lia.
From Verif Require Import Subset SubsetSpec SubsetProofs.
Import ListNotations.
Open Scope Z_scope.

(** * C38 *)

(** All the cases of the documentation with an end position before the size of the vector, or a
    start position at or beyond it.  Missing: an end position at or beyond the size, refuted
    below. *)
Theorem C38_get_partial : forall {A} (src : list A) i j ps, documented (vsize src) i j ps -> vsize src <= i \/ j < vsize src ->
  exists r, getVectorSubset i j src = Some r /\ taken ps src r.
Proof.
  intros A src i j ps D H. destruct (Z_le_gt_dec (vsize src) i) as [K|K].
  - destruct (get_beyond src i j ps D K) as [G ->]. exists []. split; [exact G|reflexivity].
  - apply get_ok; [exact D|lia|lia].
Qed.
Print Assumptions C38_get_partial.

(** Whatever the positions: no access out of bounds, at most all elements, none but those of the
    source. *)
Theorem C38_get_total : forall {A} (src : list A) i j,
  exists r, getVectorSubset i j src = Some r /\ (length r <= length src)%nat /\ incl r src.
Proof. exact @get_total. Qed.
Print Assumptions C38_get_total.

(** An end position at or beyond the size: the last element is missing, but for a start at the
    last position, which gives the whole vector. *)
Theorem C38_get_end : forall {A} (src : list A) i j, 0 <= i < vsize src -> vsize src <= j ->
  exists r, getVectorSubset i j src = Some r /\
    (i < vsize src - 1 -> taken (map Z.of_nat (seq (Z.to_nat i) (Z.to_nat (vsize src - 1 - i)))) src r) /\
    (i = vsize src - 1 -> taken (map Z.of_nat ((length src - 1)%nat :: seq 0 (length src - 1))) src r).
Proof.
  intros A src i j Hi Hj. destruct (Z.eq_dec i (vsize src - 1)) as [->|N].
  - destruct (get_last src j) as [r [G T]]; [lia|lia|]. exists r. split; [exact G|]. split; [lia|intros _; exact T].
  - destruct (get_end src i j) as [r [G T]]; [lia|lia|]. exists r. split; [exact G|]. split; [intros _; exact T|lia].
Qed.
Print Assumptions C38_get_end.

Theorem C38_get_refuted :
  (exists (src : list Z) i j ps r, documented (vsize src) i j ps /\ i < 0 /\ getVectorSubset i j src = Some r /\ ~ taken ps src r) /\
  (exists (src : list Z) i j ps r, documented (vsize src) i j ps /\ 0 <= i < j /\ getVectorSubset i j src = Some r /\ ~ taken ps src r).
Proof.
  split.
  - exists [7; 8; 9], (-1), 3, [0; 1; 2], [7; 8]. split; [apply all_covered; [lia|discriminate|reflexivity]|]. split; [lia|].
    split; [reflexivity|]. intros H. discriminate.
  - exists [7; 8; 9], 2, 3, [2], [9; 7; 8]. split; [apply upwards; [lia|reflexivity|reflexivity]|]. split; [lia|].
    split; [reflexivity|]. intros H. discriminate.
Qed.
Print Assumptions C38_get_refuted.

(** Filling: the documented positions and no others are written, for start positions in the
    vector. *)
Theorem C38_fill_partial : forall {A} (src : list A) i j x ps, vsize src < 2 ^ 63 -> documented (vsize src) i j ps ->
  0 <= i < vsize src -> j < vsize src ->
  exists s, fillVectorSubset i j src x = Some s /\ written ps x src s.
Proof. exact @fill_ok. Qed.
Print Assumptions C38_fill_partial.

(** Nothing is written for a start position out of the vector or a negative end. *)
Theorem C38_fill_out : forall {A} (src : list A) i j x, vsize src < 2 ^ 63 -> - 2 ^ 63 <= i < 2 ^ 63 ->
  i < 0 \/ vsize src <= i \/ j < 0 -> fillVectorSubset i j src x = Some src.
Proof. exact @fill_out. Qed.
Print Assumptions C38_fill_out.

(** A range covering the whole vector fills nothing, and a range to the end misses the last
    element. *)
Theorem C38_fill_refuted :
  (exists (src : list Z) i j x ps s, documented (vsize src) i j ps /\ i < 0 /\ fillVectorSubset i j src x = Some s /\ s = src /\ ~ written ps x src s) /\
  (exists (src : list Z) i j x ps s, documented (vsize src) i j ps /\ 0 <= i < j /\ fillVectorSubset i j src x = Some s /\ ~ written ps x src s).
Proof.
  split.
  - exists [7; 8; 9], (-1), 3, 0, [0; 1; 2], [7; 8; 9]. split; [apply all_covered; [lia|discriminate|reflexivity]|]. split; [lia|].
    split; [reflexivity|]. split; [reflexivity|]. intros [_ H]. destruct (H 0%nat) as [H0 _]; [cbn; lia|].
    assert (X : nth_error [7; 8; 9] 0 = Some 0) by (apply H0; cbn; auto). discriminate.
  - exists [7; 8; 9], 0, 3, 0, [0; 1; 2], [0; 0; 9]. split; [apply upwards; [lia|reflexivity|reflexivity]|]. split; [lia|].
    split; [reflexivity|]. intros [_ H]. destruct (H 2%nat) as [H0 _]; [cbn; lia|].
    assert (X : nth_error [0; 0; 9] 2 = Some 0) by (apply H0; cbn; auto). discriminate.
Qed.
Print Assumptions C38_fill_refuted.

Example C38_nonvacuous : documented 4 1 3 [1; 2] /\ documented 4 3 1 [3; 0] /\ documented 4 2 2 [2; 3; 0; 1] /\
  getVectorSubset 3 1 [5; 6; 7; 8] = Some [8; 5] /\ fillVectorSubset 3 1 [5; 6; 7; 8] 0 = Some [0; 6; 7; 0].
Proof.
  split; [apply upwards; [lia|lia|reflexivity]|]. split; [apply wrapped; [lia|lia|reflexivity]|].
  split; [apply same; [lia|reflexivity]|]. split; reflexivity.
Qed.

(** * C65: the small helpers *)

(** logical_summing: the policy with the highest index that is set decides. *)
Theorem C65_logical_partial : forall root target p0 p1 p2, (p0 || p1 || p2)%bool = true ->
  exists r, logical_summing root target p0 p1 p2 = Some r /\
    (p2 = true -> (r = true <-> root = true /\ target = false)) /\
    (p2 = false -> p1 = true -> (r = true <-> root = true \/ target = true)) /\
    (p2 = false -> p1 = false -> r = target).
Proof.
  intros [] [] [] [] [] H; try discriminate; eexists; (split; [reflexivity|]);
    (repeat split; intros; try discriminate; intuition discriminate).
Qed.
Print Assumptions C65_logical_partial.

(** With no policy set, the value returned is not defined. *)
Theorem C65_logical_refuted : forall root target, logical_summing root target false false false = None.
Proof. reflexivity. Qed.
Print Assumptions C65_logical_refuted.

Theorem C65_logical_int : forall root target,
  logical_summing_int root target true = (if (root =? 0) && (target =? 0) then 0 else 1)%bool /\
  logical_summing_int root target false = (if negb (root =? 0) && (target =? 0) then 1 else 0)%bool.
Proof.
  intros root target. unfold logical_summing_int, to_bool. destruct (root =? 0), (target =? 0); split; reflexivity.
Qed.
Print Assumptions C65_logical_int.

(** The first position of an element, -1 if there is none. *)
Theorem C65_find : forall l x,
  (In x l -> checkVectorFind l x = true /\
     exists p, findPosition l x = Z.of_nat p /\ nth_error l p = Some x /\ forall k, (k < p)%nat -> nth_error l k <> Some x) /\
  (~ In x l -> checkVectorFind l x = false /\ findPosition l x = -1).
Proof.
  intros l x. pose proof (std_find_ok l x) as F. unfold checkVectorFind, findPosition. destruct (in_dec Z.eq_dec x l) as [I|N].
  - split; [intros _|contradiction]. destruct F as [F1 [F2 F3]].
    replace (Nat.eqb (std_find l x) (length l)) with false by (symmetry; apply Nat.eqb_neq; lia).
    split; [reflexivity|]. exists (std_find l x). auto.
  - split; [contradiction|]. intros _. rewrite F, Nat.eqb_refl. split; reflexivity.
Qed.
Print Assumptions C65_find.

(** countSubstring terminates and counts as many occurrences as can be found without overlap; none of
    the empty string. *)
Theorem C65_count : forall s sub, exists c, countSubstring s sub = Some c /\ (sub <> [] -> most_disjoint s sub c) /\ (sub = [] -> c = 0%nat).
Proof.
  intros s sub. destruct sub as [|a sub].
  - exists 0%nat. split; [reflexivity|]. split; [congruence|reflexivity].
  - destruct (count_ok s (a :: sub)) as (c & E & M); [discriminate|]. exists c. split; [exact E|]. split; [intros _; exact M|discriminate].
Qed.
Print Assumptions C65_count.

Example C65_nonvacuous : countSubstring [1; 1; 1; 2; 1; 1; 1] [1; 1] = Some 2%nat /\
  logical_summing true false false false true = Some true /\ findPosition [4; 6; 6] 6 = 1.
Proof. repeat split; reflexivity. Qed.
