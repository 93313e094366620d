(** What the controls of deformations are measured against. *)
From Coq Require Import Reals List Arith.
From Verif Require Import Vec Limit.
Import ListNotations.
Open Scope R_scope.

(** d is the distance of the point p from the surface made by the points that are [on] *)
Definition far_from (on : vec -> Prop) (p : vec) (d : R) : Prop := (exists x, on x /\ norm (vsub p x) = d) /\ forall y, on y -> d <= norm (vsub p y).
(** what the search of the nearest cell is asked for *)
Definition search_right (on : vec -> Prop) (closest : vec -> R -> option R) : Prop :=
  forall p r, match closest p r with Some h => far_from on p h /\ h <= r | None => forall y, on y -> r < norm (vsub p y) end.
(** the same with a sign: positive on the side the normals point to ([out]) *)
Definition signed_right (on out : vec -> Prop) (sd : vec -> R -> option R) : Prop :=
  forall p r, match sd p r with Some h => far_from on p (Rabs h) /\ Rabs h <= r /\ (0 < h <-> out p) | None => forall y, on y -> r < norm (vsub p y) end.
(** a field on the points of the mesh; the displacement of a vertex is null if the field has none *)
Definition suitable (p : mesh * field) : Prop :=
  f_geo (snd p) = Some (fst p) /\ f_loc (snd p) = Point /\ NoDup (map fst (m_verts (fst p))) /\ NoDup (map fst (f_data (snd p))) /\
  forall id d, In (id, d) (f_data (snd p)) -> In id (map fst (m_verts (fst p))).
Definition displaced (p : mesh * field) (id : nat) (x y : vec) : Prop :=
  In (id, x) (m_verts (fst p)) /\
  exists d, (In (id, d) (f_data (snd p)) \/ (d = V3 0 0 0 /\ ~ In id (map fst (f_data (snd p))))) /\ y = V3 (vx x + vx d) (vy x + vy d) (vz x + vz d).
(** p and q are on different sides of a surface *)
Definition opposite (out : vec -> Prop) (p q : vec) : Prop := (out p /\ ~ out q) \/ (~ out p /\ out q).
(** how much the point p violates a constraint, with the points of the side of [centre] allowed *)
Definition excess (on out : vec -> Prop) (centre p : vec) (tol v : R) : Prop :=
  exists d, far_from on p d /\ ((opposite out centre p /\ v = tol + d) \/ (~ opposite out centre p /\ v = tol - d)).
(** the surface of a constraint, its side, and its points within the reach of the search *)
Record surface := Surf { s_on : vec -> Prop; s_out : vec -> Prop }.
Definition within (k : R) (s : surface) (p : vec) : Prop := exists x, s_on s x /\ norm (vsub p x) <= k.
(** the value w of the point y: the greatest of the excesses, or -10^25 with no constraints *)
Definition worst (ss : list surface) (centre y : vec) (tol w : R) : Prop :=
  (forall s, In s ss -> exists v, excess (s_on s) (s_out s) centre y tol v /\ v <= w) /\ ((ss = [] /\ w = - 10 ^ 25) \/ exists s, In s ss /\ excess (s_on s) (s_out s) centre y tol w).
