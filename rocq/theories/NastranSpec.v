(** What is asked of Nastran files. *)
From Coq Require Import List NArith ZArith Reals.
From Verif Require Import Text TextSpec Nastran.
Import ListNotations.
Open Scope R_scope.

(** the coordinate, in units of ten to minus p *)
Definition coordinate (p : Z) (c : coord) : R := (if fst c then -1 else 1) * IZR (Z.of_N (snd c)) * powerRZ 10 (- p).
(** a coordinate is kept with six digits: below ten to the k, up to ten to the k - 6 *)
Definition six_digits (c : coord) (d : dec) : Prop := forall k, (1 <= k <= 6)%Z -> Rabs (coordinate 8 c) < powerRZ 10 k -> Rabs (real d - coordinate 8 c) < powerRZ 10 (k - 6).
(** in the long format with fourteen *)
Definition fourteen_digits (c : coord) (d : dec) : Prop := forall k, (1 <= k <= 14)%Z -> Rabs (coordinate 16 c) < powerRZ 10 k -> Rabs (real d - coordinate 16 c) < powerRZ 10 (k - 14).
Definition near (p : point) (q : dec * dec * dec) : Prop :=
  six_digits (fst (fst p)) (fst (fst q)) /\ six_digits (snd (fst p)) (snd (fst q)) /\ six_digits (snd p) (snd q).
(** what fits a field of eight characters *)
Definition label (z : Z) : Prop := (0 <= z < 100000000)%Z.
Definition small (c : coord) : Prop := (snd c < 100000000000000)%N.
Definition small_point (p : point) : Prop := small (fst (fst p)) /\ small (snd (fst p)) /\ small (snd p).
(** a field of digits *)
Definition digits (l : list N) : Prop := forall c, In c l -> (48 <= c <= 57)%N.
(** their value *)
Fixpoint decimal (l : list N) : Z := match l with [] => 0 | c :: r => (Z.of_N c - 48) * 10 ^ Z.of_nat (length r) + decimal r end%Z.
(** a line that starts no card that is read *)
Definition foreign (l : list N) : Prop := exists c r, l = c :: r /\ (33 <= c <= 126)%N /\ c <> 67%N /\ c <> 71%N.
(** a card of a grid point with this field, of eight characters, as first coordinate: GRID, 1, blank, the field, 0.0, 0.0 *)
Definition blanks (k : nat) : list N := repeat 32%N k.
Definition grid_card (x : list N) : list N := [71; 82; 73; 68]%N ++ blanks 4 ++ blanks 7 ++ [49%N] ++ blanks 8 ++ x ++ (blanks 5 ++ [48; 46; 48]%N) ++ (blanks 5 ++ [48; 46; 48]%N).
(** what is written in a field: digits, a point, digits, and a sign and an exponent, with the letter or without *)
Definition minus (b : bool) : list N := if b then [45%N] else [].
Definition scientific (neg : bool) (a b : list N) (letter eneg : bool) (e : list N) : list N :=
  minus neg ++ a ++ 46%N :: b ++ (if letter then [69%N] else []) ++ (if eneg then 45%N else 43%N) :: e.
Definition mantissa (neg : bool) (a b : list N) : R := (if neg then -1 else 1) * IZR (decimal (a ++ b)) * powerRZ 10 (- Z.of_nat (length b)).
