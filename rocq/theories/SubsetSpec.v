(** What the vector helpers promise, without the model. *)
From Coq Require Import List ZArith.
Import ListNotations.
Open Scope Z_scope.

(** elements with positions from i up to j, j excluded *)
Definition slice {A} (i j : Z) (l : list A) : list A := firstn (Z.to_nat (j - i)) (skipn (Z.to_nat i) l).

(** The table in the documentation of getVectorSubset/fillVectorSubset for a vector of n elements,
    as the list of the positions taken, in order. *)
Inductive documented (n : Z) : Z -> Z -> list Z -> Prop :=
  | both_negative : forall i j, i < 0 -> j < 0 -> documented n i j []
  | both_beyond : forall i j, n <= i -> n <= j -> documented n i j []
  | all_covered : forall i j l, i < 0 -> n <= j -> l = map Z.of_nat (seq 0 (Z.to_nat n)) -> documented n i j l
  | reversed_out : forall i j, n <= i -> j < 0 -> documented n i j []
  | same : forall i l, 0 <= i < n -> l = map Z.of_nat (seq (Z.to_nat i) (Z.to_nat (n - i)) ++ seq 0 (Z.to_nat i)) ->
      documented n i i l
  | upwards : forall i j l, 0 <= i < j -> i < n -> l = map Z.of_nat (seq (Z.to_nat i) (Z.to_nat (Z.min j n - i))) -> documented n i j l
  | wrapped : forall i j l, 0 <= j < i -> i < n ->
      l = map Z.of_nat (seq (Z.to_nat i) (Z.to_nat (n - i)) ++ seq 0 (Z.to_nat j)) -> documented n i j l.

(** a vector with the value x at the positions listed and the old elements elsewhere *)
Definition written {A} (ps : list Z) (x : A) (l l' : list A) : Prop :=
  length l' = length l /\
  forall p : nat, (p < length l)%nat ->
    (In (Z.of_nat p) ps -> nth_error l' p = Some x) /\ (~ In (Z.of_nat p) ps -> nth_error l' p = nth_error l p).

(** the elements of l at the positions listed *)
Definition taken {A} (ps : list Z) (l r : list A) : Prop :=
  map Some r = map (fun p => nth_error l (Z.to_nat p)) ps.

(** sub occurs in s at position p *)
Definition occurs (s sub : list Z) (p : nat) : Prop := exists a b, s = a ++ sub ++ b /\ length a = p.
(** positions of occurrences, increasing and at least one length of sub apart *)
Fixpoint apart (k : nat) (ps : list nat) : Prop :=
  match ps with
  | [] => True
  | p :: r => match r with [] => True | q :: _ => (p + k <= q)%nat end /\ apart k r
  end.
(** c is the largest number of occurrences that do not overlap *)
Definition most_disjoint (s sub : list Z) (c : nat) : Prop :=
  (exists ps, length ps = c /\ Forall (occurs s sub) ps /\ apart (length sub) ps) /\
  (forall ps, Forall (occurs s sub) ps -> apart (length sub) ps -> (length ps <= c)%nat).
