(** What refinement and smoothing are measured against. *)
From Coq Require Import Reals List Arith ZArith.
From Verif Require Import Vec Refine.
Import ListNotations.
Open Scope R_scope.

(** a mesh of triangles: three different vertices, each with an id less than the next one *)
Definition triangulated (m : mesh) : Prop :=
  forall c, In c (m_cells m) -> c_kind c = Triangle /\ exists x y z, c_verts c = [x; y; z] /\ x <> y /\ y <> z /\ z <> x /\ (x < m_next m /\ y < m_next m /\ z < m_next m)%nat.
(** the directed edges of a polygon, in turn *)
Fixpoint path (l : list nat) : list (nat * nat) := match l with x :: ((y :: _) as r) => (x, y) :: path r | _ => [] end.
Definition turn (l : list nat) : list (nat * nat) := match l with [] => [] | x :: r => path (l ++ [x]) end.
Definition pair_dec : forall a b : nat * nat, {a = b} + {a <> b}.
Proof. decide equality; apply Nat.eq_dec. Defined.
(** how many times the cells go from u to v along an edge *)
Definition goes (cs : list cell) (u v : nat) : nat := count_occ pair_dec (flat_map (fun c => turn (c_verts c)) cs) (u, v).
(** no free edges, and neighbours turning the same way: each edge is gone along as many times in each way *)
Definition closed (cs : list cell) : Prop := forall u v, goes cs u v = goes cs v u.
(** at most two faces of the mesh on an edge *)
Definition has_edge (c : cell) (f a b : nat) : Prop :=
  exists x y z, c_verts c = [x; y; z] /\ ((f = 0%nat /\ ((a = x /\ b = y) \/ (a = y /\ b = x))) \/ (f = 1%nat /\ ((a = y /\ b = z) \/ (a = z /\ b = y))) \/ (f = 2%nat /\ ((a = z /\ b = x) \/ (a = x /\ b = z)))).
Definition manifold (m : mesh) : Prop :=
  forall a b i f j g k h ci cj ck, nth_error (m_cells m) i = Some ci -> nth_error (m_cells m) j = Some cj -> nth_error (m_cells m) k = Some ck -> has_edge ci f a b -> has_edge cj g a b -> has_edge ck h a b ->
  (i, f) = (j, g) \/ (j, g) = (k, h) \/ (i, f) = (k, h).
(** the cell n has on its face f the cell k *)
Definition beside (m : mesh) (n f k : nat) : Prop :=
  n <> k /\ exists cn ck g a b, nth_error (m_cells m) n = Some cn /\ nth_error (m_cells m) k = Some ck /\ has_edge cn f a b /\ has_edge ck g a b.
(** the cells to split in four: the active ones, and those with two faces beside such cells *)
Definition rule (m : mesh) (active : list nat) (red : nat -> Prop) (n : nat) : Prop :=
  In n active \/ exists f g k l, f <> g /\ red k /\ red l /\ beside m n f k /\ beside m n g l.
(** the points of a triangle *)
Definition in_triangle (a b c p : vec) : Prop := exists s t u, 0 <= s /\ 0 <= t /\ 0 <= u /\ s + t + u = 1 /\ p = vadd (vscale s a) (vadd (vscale t b) (vscale u c)).
Definition in_cell (pts : nat -> vec) (c : cell) (p : vec) : Prop := exists x y z, c_verts c = [x; y; z] /\ in_triangle (pts x) (pts y) (pts z) p.
Definition in_cells (pts : nat -> vec) (cs : list cell) (p : vec) : Prop := exists c, In c cs /\ in_cell pts c p.
(** twice the area of a triangle, as a vector along the normal *)
Definition area2 (a b c : vec) : vec := cross (vsub b a) (vsub c a).
Definition cell_area (pts : nat -> vec) (c : cell) : vec := match c_verts c with [x; y; z] => area2 (pts x) (pts y) (pts z) | _ => V3 0 0 0 end.
(** the same for a polygon, from the origin *)
Definition polygon_area (pts : nat -> vec) (l : list nat) : vec := fold_right (fun e s => vadd (cross (pts (fst e)) (pts (snd e))) s) (V3 0 0 0) (turn l).
(** the cells [g] stand for the cell [c]: same points, same part, same way round; their areas add to that of c *)
Definition stands (pts : nat -> vec) (c : cell) (g : list cell) : Prop :=
  (forall p, in_cell pts c p <-> in_cells pts g p) /\ (forall d, In d g -> c_pid d = c_pid c /\ c_kind d = Triangle /\ cell_area pts d = vscale (/ INR (length g)) (cell_area pts c)).
(** the mean of the neighbours of a vertex *)
Definition mean (near : list nat) (pts : nat -> vec) : vec := vscale (/ INR (length near)) (fold_right vadd (V3 0 0 0) (map pts near)).
(** the same surface: vertices where they were, the same points, and closed if it was *)
Definition same_surface (m m' : mesh) : Prop :=
  (forall i, (i < m_next m)%nat -> m_pts m' i = m_pts m i) /\ (forall p, in_cells (m_pts m) (m_cells m) p <-> in_cells (m_pts m') (m_cells m') p) /\ (closed (m_cells m) -> closed (m_cells m')).
(** cells with vertices known to the mesh *)
Definition ids_ok (m : mesh) : Prop := forall c, In c (m_cells m) -> c_verts c <> [] /\ forall i, In i (c_verts c) -> (i < m_next m)%nat.
Definition vsum (l : list vec) : vec := fold_right vadd (V3 0 0 0) l.
