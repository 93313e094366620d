(** What a user expects of the distances on a surface. *)
From Coq Require Import Reals List ZArith.
From Verif Require Import Vec.
Import ListNotations.
Open Scope R_scope.

(** Straight distance of two points. *)
Definition apart (p q : vec) : R :=
  sqrt ((vx p - vx q) * (vx p - vx q) + (vy p - vy q) * (vy p - vy q) + (vz p - vz q) * (vz p - vz q)).
(** The point at t of the segment from u to w. *)
Definition along (u w : vec) (t : R) : vec :=
  V3 (vx u + t * (vx w - vx u)) (vy u + t * (vy w - vy u)) (vz u + t * (vz w - vz u)).
(** Length of the way to v through the point at t of the segment u w, when u is at distance pu of the
    start, w at distance pw and the points between at the distances between. *)
Definition way (u w v : vec) (pu pw t : R) : R := pu + t * (pw - pu) + apart v (along u w t).
(** Twice the area of a triangle, squared. *)
Definition area4 (u w v : vec) : R :=
  let e := vsub w u in let d := vsub v u in
  (vy e * vz d - vz e * vy d) * (vy e * vz d - vz e * vy d) + (vz e * vx d - vx e * vz d) * (vz e * vx d - vx e * vz d)
  + (vx e * vy d - vy e * vx d) * (vx e * vy d - vy e * vx d).

(** The triangle has the corners v, then u, then w, in this cyclic order. *)
Definition corner (t : Z * Z * Z) (v u w : Z) : Prop := t = (v, u, w) \/ t = (w, v, u) \/ t = (u, w, v).
(** Three different corners. *)
Definition proper (t : Z * Z * Z) : Prop := match t with (a, b, c) => a <> b /\ b <> c /\ a <> c end.
(** Two vertices joined by sides of the triangles. *)
Inductive joined (ts : list (Z * Z * Z)) : Z -> Z -> Prop :=
| J_here : forall v, joined ts v v
| J_side : forall u v w z t, joined ts u v -> In t ts -> corner t v w z \/ corner t v z w -> joined ts u w.
