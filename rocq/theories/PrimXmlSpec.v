(** What settings written and read again should be. *)

From Coq Require Import Reals List.
From Verif Require Import Vec PrimXml.

(** The numbers of [b] are those of [a] as their text gives them back. *)
Definition near (rt : R -> R) (a b : vec) : Prop :=
  vx b = rt (vx a) /\ vy b = rt (vy a) /\ vz b = rt (vz a).

(** Place, size and orientation of the shape. *)
Definition same_place (rt : R -> R) (a b : setup) : Prop :=
  near rt (u_origin a) (u_origin b) /\ near rt (u_span a) (u_span b) /\
  near rt (ax0 (u_axes a)) (ax0 (u_axes b)) /\
  near rt (ax1 (u_axes a)) (ax1 (u_axes b)) /\
  near rt (ax2 (u_axes a)) (ax2 (u_axes b)).

(** Everything: also where the coordinates start. *)
Definition same_setup (rt : R -> R) (a b : setup) : Prop :=
  same_place rt a b /\ near rt (u_inf a) (u_inf b).
