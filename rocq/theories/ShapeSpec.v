(** What the coordinates, frames and selections of shapes are measured against. *)
From Coq Require Import Reals List Arith ZArith Bool.
From Verif Require Import Vec Shape.
Import ListNotations.
Open Scope R_scope.

(** Entries of vectors and matrices, counted from 0. *)
Definition vent (v : vec) (i : nat) : R := match i with 0%nat => vx v | 1%nat => vy v | _ => vz v end.
Definition ment (m : mat) (i j : nat) : R :=
  match i with 0%nat => vent (row0 m) j | 1%nat => vent (row1 m) j | _ => vent (row2 m) j end.
Definition sum3 (f : nat -> R) : R := f 0%nat + f 1%nat + f 2%nat.
Definition delta (i j : nat) : R := if Nat.eqb i j then 1 else 0.

(** b is a two-sided inverse of a. *)
Definition inverses (a b : mat) : Prop :=
  forall i j, (i < 3)%nat -> (j < 3)%nat ->
    sum3 (fun k => ment a i k * ment b k j) = delta i j /\ sum3 (fun k => ment b i k * ment a k j) = delta i j.

(** The determinant as the sum over the six permutations (Leibniz). *)
Definition leibniz (m : mat) : R :=
  ment m 0 0 * ment m 1 1 * ment m 2 2 + ment m 0 1 * ment m 1 2 * ment m 2 0 + ment m 0 2 * ment m 1 0 * ment m 2 1
  - ment m 0 2 * ment m 1 1 * ment m 2 0 - ment m 0 1 * ment m 1 0 * ment m 2 2 - ment m 0 0 * ment m 1 2 * ment m 2 1.

(** Frames: the rows are the axes. *)
Definition axis_dot (m : mat) (i j : nat) : R := sum3 (fun k => ment m i k * ment m j k).
Definition orthonormal (m : mat) : Prop :=
  forall i j, (i < 3)%nat -> (j < 3)%nat -> axis_dot m i j = delta i j.
Definition right_handed (m : mat) : Prop := leibniz m = 1.
(** Unit axes whose mutual cosines sum up, in absolute value, to at most e. *)
Definition orthonormal_within (e : R) (m : mat) : Prop :=
  (forall i, (i < 3)%nat -> axis_dot m i i = 1) /\
  Rabs (axis_dot m 0 1) + Rabs (axis_dot m 1 2) + Rabs (axis_dot m 0 2) <= e.
(** v has the direction of the non-null vector w. *)
Definition direction (v w : vec) : Prop := exists k, 0 < k /\ forall i, (i < 3)%nat -> vent v i = k * vent w i.
Definition nonnull (v : vec) : Prop := exists i, (i < 3)%nat /\ vent v i <> 0.
Definition parallel (v w : vec) : Prop := exists k, forall i, (i < 3)%nat -> vent v i = k * vent w i.

(** Calls on a shape, and the shapes a program can hold. A call of setRefSystem that leaves NaN in
    the frame is not followed. *)
Inductive op :=
| OpOrigin (o : vec) | OpSpan (sp : vec) | OpInf (o : R) (dir : Z) | OpInf3 (v : vec)
| OpFrame (a0 a1 a2 : vec) | OpFrame1 (label : Z) (axis : vec) | OpType (t : coordtype) (dir : Z).
Definition call (s : shape) (o : op) : refout :=
  match o with
  | OpOrigin v => Changed (setOrigin s v)
  | OpSpan v => Changed (setSpan s v)
  | OpInf v d => Changed (setInfLimits s v d)
  | OpInf3 v => Changed (setInfLimits3 s v)
  | OpFrame a b c => setRefSystem s a b c
  | OpFrame1 l a => setRefSystem1 s l a
  | OpType t d => Changed (setCoordinateType s t d)
  end.
Inductive reach (k : kind) : shape -> Prop :=
| reach_new : reach k (new_shape k)
| reach_call s o s' : reach k s -> call s o = Changed s' -> reach k s'.

(** No dimension of the shape is zero. *)
Definition solid (s : shape) : Prop := forall i, (i < 3)%nat -> vent (getSpan s) i <> 0.

(** The parameter range of a shape in local coordinates: the box that starts at the local origin
    and has the local span. *)
Definition in_param (s : shape) (p : vec) : Prop :=
  forall i, (i < 3)%nat -> vent (getLocalOrigin s) i <= vent p i <= vent (getLocalOrigin s) i + vent (s_span s) i.
(** Parameters of points that have other parameters too: the axis and the closing seam of a cylinder
    or sphere, the poles of a sphere, the edge of a wedge. *)
Definition singular (s : shape) (p : vec) : Prop :=
  match s_kind s with
  | CUBE => False
  | CYLINDER => vx p * vx (s_scaling s) + vx (s_inf s) = 0 \/ vy p = 2 * PI
  | SPHERE => vx p * vx (s_scaling s) + vx (s_inf s) = 0 \/ vy p = 2 * PI \/
              vz p + vz (s_inf s) = 0 \/ vz p + vz (s_inf s) = PI
  | WEDGE => vx p = 1
  end.
(** The plane through the edge of a wedge, outside the edge. *)
Definition edge_plane (s : shape) (x : vec) : Prop :=
  s_kind s = WEDGE /\
  let d := vsub x (s_origin s) in
  sum3 (fun k => vent d k * ment (s_sdr s) 0 k) = vx (s_scaling s) /\
  sum3 (fun k => vent d k * ment (s_sdr s) 1 k) <> 0.
(** The unit cube. *)
Definition unit_cube (b : vec) : Prop := forall i, (i < 3)%nat -> 0 <= vent b i <= 1.
