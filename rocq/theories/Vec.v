(** Arrays of three doubles (darray3E), with doubles as real numbers (rounding, infinities and
    NaN are not modelled), and the operators of bitpit used on them. *)
From Coq Require Import Reals List.
Open Scope R_scope.

Record vec := V3 { vx : R; vy : R; vz : R }.

Definition vadd (a b : vec) : vec := V3 (vx a + vx b) (vy a + vy b) (vz a + vz b).
Definition vsub (a b : vec) : vec := V3 (vx a - vx b) (vy a - vy b) (vz a - vz b).
Definition vscale (k : R) (a : vec) : vec := V3 (k * vx a) (k * vy a) (k * vz a).
Definition dot (a b : vec) : R := vx a * vx b + vy a * vy b + vz a * vz b.
Definition cross (a b : vec) : vec :=
  V3 (vy a * vz b - vz a * vy b) (vz a * vx b - vx a * vz b) (vx a * vy b - vy a * vx b).
Definition norm (a : vec) : R := sqrt (dot a a).
Definition vzero : vec := V3 0 0 0.
