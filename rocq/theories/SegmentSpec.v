(** What is expected of projected segments and patches, and of the box around supports. *)
From Coq Require Import Reals List Arith.
From Verif Require Import Vec Segment.
Import ListNotations.
Open Scope R_scope.

(** n + 1 points evenly spaced from a to b *)
Definition evenly (n : nat) (a b : vec) (p : nat -> vec) : Prop :=
  forall k, (k <= n)%nat -> vscale (INR n) (vsub (p k) a) = vscale (INR k) (vsub b a).
(** within a box, coordinate by coordinate *)
Definition within (lo hi p : vec) : Prop := vx lo <= vx p <= vx hi /\ vy lo <= vy p <= vy hi /\ vz lo <= vz p <= vz hi.
(** the least box around the supports, spheres of radius r, each one made a hundredth larger *)
Definition around (r : R) (verts : list vec) (lo hi : vec) : Prop :=
  (forall v p, In v verts -> norm (vsub p v) <= r + r / 100 -> within lo hi p) /\
  (forall coord, coord = vx \/ coord = vy \/ coord = vz ->
    (exists v, In v verts /\ coord v - r - r / 100 = coord lo) /\ (exists v, In v verts /\ coord hi = coord v + r + r / 100)).
(** numbers the machine can hold, with the support *)
Definition fits (top r : R) (verts : list vec) : Prop := forall v, In v verts -> within (all3 (-1 * top)) (all3 top) (vsub v (all3 (r * (101 / 100)))) /\ within (all3 (-1 * top)) (all3 top) (vadd v (all3 (r * (101 / 100)))).
