(** Normals of triangles and of edges between them. *)
From Coq Require Import Reals.
From Verif Require Import Vec.
Open Scope R_scope.

(** [n] is the unit normal of the triangle a, b, c: seen from its end the vertices go counter-clockwise *)
Definition normal_of (a b c n : vec) : Prop :=
  dot n n = 1 /\ dot n (vsub b a) = 0 /\ dot n (vsub c a) = 0 /\ 0 < dot (cross (vsub b a) (vsub c a)) n.
(** [m] is the unit vector half way between [n1] and [n2], the normal that bitpit gives to an edge *)
Definition half_way (n1 n2 m : vec) : Prop := dot m m = 1 /\ exists k, 0 < k /\ vscale k m = vadd n1 n2.
(** [r] is a unit vector, orthogonal to the edge from [a] to [b] and to [m] *)
Definition across (a b m r : vec) : Prop := dot r r = 1 /\ dot r (vsub b a) = 0 /\ dot r m = 0.
(** [r] goes, from the edge, to the side of [c], or away from it *)
Definition towards (a c r : vec) : Prop := 0 < dot r (vsub c a).
Definition away (a c r : vec) : Prop := dot r (vsub c a) < 0.
