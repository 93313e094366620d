(** What a field of magnitudes is. *)

From Coq Require Import Reals.
From Coq Require Import ZArith List.
From Verif Require Import Vec ModFld.
Local Open Scope R_scope.

(** Fields have one value for each identifier. *)
Definition proper {A : Type} (f : field A) : Prop :=
  NoDup (map fst (f_data f)).

(** [g] has, on the same mesh, in the same places and in the same order, the
    length of every vector of [f]. *)
Definition magnitude_of (f : field vec) (g : field R) : Prop :=
  f_loc g = f_loc f /\ f_geo g = f_geo f /\
  Forall2 (fun p q => fst q = fst p /\
     0 <= snd q /\
     snd q * snd q = vx (snd p) * vx (snd p) + vy (snd p) * vy (snd p)
                     + vz (snd p) * vz (snd p))
    (f_data f) (f_data g).
