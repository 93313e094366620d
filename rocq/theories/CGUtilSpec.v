(** What the tests of a point against a cell are asked for. *)
From Coq Require Import List Arith Reals.
From Verif Require Import Vec CGUtil.
Import ListNotations.
Open Scope R_scope.

Definition in_segment (v0 v1 p : vec) : Prop := exists t, 0 <= t <= 1 /\ p = vadd (vscale (1 - t) v0) (vscale t v1).
Definition bary (a b c : R) (v0 v1 v2 : vec) : vec := vadd (vscale a v0) (vadd (vscale b v1) (vscale c v2)).
Definition in_triangle (v0 v1 v2 p : vec) : Prop := exists a b c, 0 <= a /\ 0 <= b /\ 0 <= c /\ a + b + c = 1 /\ p = bary a b c v0 v1 v2.

(** Twice the area of a b c, seen from n. *)
Definition orient (n a b c : vec) : R := dot n (cross (vsub b a) (vsub c a)).
(** A strictly convex polygon seen from n: flat, three of its vertices in order always turn left. *)
Definition convex_polygon (n : vec) (vs : list vec) : Prop :=
  (3 <= length vs)%nat /\
  (forall v w, In v vs -> In w vs -> dot n (vsub v w) = 0) /\
  forall i j k, (i < j)%nat -> (j < k)%nat -> (k < length vs)%nat -> 0 < orient n (nth i vs vzero) (nth j vs vzero) (nth k vs vzero).
(** A point of the polygon: on its plane, on the left of every edge. *)
Definition in_polygon (n : vec) (vs : list vec) (p : vec) : Prop :=
  dot n (vsub p (nth 0 vs vzero)) = 0 /\
  (forall i, (S i < length vs)%nat -> 0 <= orient n (nth i vs vzero) (nth (S i) vs vzero) p) /\
  0 <= orient n (nth (length vs - 1) vs vzero) (nth 0 vs vzero) p.
