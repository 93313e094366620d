(** What mirroring across a plane means; planes a x + b y + c z + d = 0. *)
From Coq Require Import Reals List.
From Verif Require Import Vec.
Import ListNotations.
Open Scope R_scope.

(** the point is on the plane *)
Definition on_plane (n : vec) (d : R) (x : vec) : Prop := vx n * vx x + vy n * vy x + vz n * vz x + d = 0.
(** the distance from the plane, positive where the normal points; [n] of length one *)
Definition height (n : vec) (d : R) (x : vec) : R := vx n * vx x + vy n * vy x + vz n * vz x + d.
Definition of_length_one (n : vec) : Prop := vx n * vx n + vy n * vy n + vz n * vz n = 1.
(** [q] is the mirror image of [p]: from [p] to [q] one moves along the normal and half way is on the plane *)
Definition mirrored (n : vec) (d : R) (p q : vec) : Prop :=
  (exists k, q = V3 (vx p + k * vx n) (vy p + k * vy n) (vz p + k * vz n)) /\
  on_plane n d (V3 ((vx p + vx q) / 2) ((vy p + vy q) / 2) ((vz p + vz q) / 2)).
(** the image of a vector: the same across the parallel plane through the origin *)
Definition mirrored_vector (n : vec) (v w : vec) : Prop := mirrored n 0 v w.
(** squared distance of points *)
Definition apart2 (p q : vec) : R := (vx p - vx q) ^ 2 + (vy p - vy q) ^ 2 + (vz p - vz q) ^ 2.
(** [l'] is made of the elements of [l] that satisfy [P], in order *)
Inductive chosen {A : Type} (P : A -> Prop) : list A -> list A -> Prop :=
| chosen_nil : chosen P [] []
| chosen_in : forall x l l', P x -> chosen P l l' -> chosen P (x :: l) (x :: l')
| chosen_out : forall x l l', ~ P x -> chosen P l l' -> chosen P (x :: l) l'.
(** the value of a field at an id: the one stored, or zero *)
Definition value_at {A : Type} (zero : A) (f : list (nat * A)) (id : nat) (x : A) : Prop :=
  In (id, x) f \/ (~ In id (map fst f) /\ x = zero).
Definition value_given {A : Type} (zero : A) (f : option (list (nat * A))) (id : nat) (x : A) : Prop :=
  match f with Some l => value_at zero l id x | None => x = zero end.
