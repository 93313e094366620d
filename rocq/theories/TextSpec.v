(** What is asked of the numbers of a text file. *)
From Coq Require Import ZArith Reals.
From Verif Require Import Text.

(** the number itself *)
Definition real (d : dec) : R := (IZR (fst d) * powerRZ 10 (snd d))%R.
(** p significant digits are right *)
Definition same_digits (p : nat) (x y : dec) : Prop := (Rabs (real y - real x) <= Rabs (real x) * (5 / 10 ^ p))%R.
(** a number that has p digits at most *)
Definition short (p : nat) (x : dec) : Prop := (Z.abs (fst x) < 10 ^ Z.of_nat p)%Z.
(** a number written and read back *)
Definition kept (p : nat) (x y : dec) : Prop := same_digits p x y /\ (short p x -> y = x).
