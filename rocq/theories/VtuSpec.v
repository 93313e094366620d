(** What is in a VTK file of an unstructured grid, and what its mesh is *)
From Coq Require Import List Arith Bool ZArith Lia.
From Verif Require Import Vtu.
Import ListNotations.
Open Scope list_scope.
Open Scope nat_scope.

(** the types of VTK that are supported, with their numbers *)
Definition codes : list (etype * Z) :=
  [(VERTEX, 1); (LINE, 3); (TRIANGLE, 5); (POLYGON, 7); (PIXEL, 8); (QUAD, 9); (TETRA, 10); (VOXEL, 11); (HEXAHEDRON, 12); (WEDGE, 13);
   (PYRAMID, 14); (POLYHEDRON, 42)]%Z.
(** a cell by the places of its points: of a type that is not a polyhedron, or a polyhedron with its points and its faces *)
Inductive shape := Plain (t : etype) (vs : list nat) | Poly (vs : list nat) (faces : list (list nat)).
Definition points_of (s : shape) : list nat := match s with Plain _ vs => vs | Poly vs _ => vs end.
Definition type_of (s : shape) : etype := match s with Plain t _ => t | Poly _ _ => POLYHEDRON end.
(** a grid: the points, the cells and, if there are, the ids of the cells, the PIDs and the ids of the points *)
Record grid (V : Type) := Grid { g_points : list V; g_cells : list shape; g_cid : option (list nat); g_pid : option (list Z); g_vid : option (list nat) }.
Arguments Grid {V}. Arguments g_points {V}. Arguments g_cells {V}. Arguments g_cid {V}. Arguments g_pid {V}. Arguments g_vid {V}.
Definition regular {V : Type} (k : grid V) : Prop :=
  Forall (fun s => points_of s <> [] /\ Forall (fun i => i < length (g_points k)) (points_of s) /\
                   match s with Plain t _ => t <> POLYHEDRON /\ t <> UNDEFINED | Poly _ fs => Forall (Forall (fun i => i < length (g_points k))) fs end) (g_cells k) /\
  (forall l, g_cid k = Some l -> length l = length (g_cells k)) /\ (forall l, g_pid k = Some l -> length l = length (g_cells k)) /\
  (forall l, g_vid k = Some l -> length l = length (g_points k)).

(** the faces of cells that are not polyhedra: a zero for each of them, or nothing and the offset -1 as VTK does; or there are no faces at all *)
Inductive style := Zeros | Skipped | Absent.
Definition stream (s : shape) : list nat := match s with Plain _ _ => [] | Poly _ fs => length fs :: flat_map (fun vs => length vs :: vs) fs end.
Definition stream_of (st : style) (s : shape) : list nat := match s, st with Plain _ _, Zeros => [0] | _, _ => stream s end.
Definition or_nil {A : Type} (o : option (list A)) : list A := match o with Some l => l | None => [] end.
(** how far the parts of the first cells go *)
Definition end_of (parts : list (list nat)) (j : nat) : nat := length (concat (firstn (S j) parts)).
Definition describes {V : Type} (st : style) (k : grid V) (f : arrays V) : Prop :=
  a_points f = g_points k /\
  a_conn f = concat (map points_of (g_cells k)) /\
  a_offsets f = map (end_of (map points_of (g_cells k))) (seq 0 (length (g_cells k))) /\
  Forall2 (fun s z => In (type_of s, z) codes) (g_cells k) (a_types f) /\
  a_cid f = or_nil (g_cid k) /\ a_pid f = or_nil (g_pid k) /\ a_vid f = or_nil (g_vid k) /\
  match st with
  | Absent => a_faces f = [] /\ a_foffsets f = [] /\ Forall (fun s => type_of s <> POLYHEDRON) (g_cells k)
  | _ => a_faces f = concat (map (stream_of st) (g_cells k)) /\
         a_foffsets f = map (fun j => match nth_error (g_cells k) j, st with
                                      | Some (Plain _ _), Skipped => (-1)%Z
                                      | _, _ => Z.of_nat (end_of (map (stream_of st) (g_cells k)) j)
                                      end) (seq 0 (length (g_cells k)))
  end.

(** the ids: those there are, if they are all different; else the places *)
Definition numbered (given : option (list nat)) (n : nat) (ids : list nat) : Prop :=
  match given with
  | Some l => (NoDup l -> ids = l) /\ (~ NoDup l -> ids = seq 0 n)
  | None => ids = seq 0 n
  end.
(** the connectivity of bitpit, with the ids of the vertices *)
Definition connect (ids : list nat) (s : shape) : list nat :=
  match s with
  | Plain POLYGON vs => length vs :: map (fun i => nth i ids 0) vs
  | Plain _ vs => map (fun i => nth i ids 0) vs
  | Poly _ fs => length fs :: flat_map (fun vs => length vs :: map (fun i => nth i ids 0) vs) fs
  end.
Definition mesh_of {V : Type} (k : grid V) (ids cids : list nat) : mesh V :=
  Mesh (combine ids (g_points k))
       (map (fun e => (fst (fst e), type_of (snd (fst e)), connect ids (snd (fst e)), snd e))
            (combine (combine cids (g_cells k)) (match g_pid k with Some l => l | None => repeat 0%Z (length (g_cells k)) end))).

(** a cell of a mesh with its vertices: it has some, and the counts in its connectivity are right *)
Inductive holds (t : etype) : list nat -> list nat -> Prop :=
| holds_polygon vs : t = POLYGON -> vs <> [] -> holds t (length vs :: vs) vs
| holds_polyhedron fs : t = POLYHEDRON -> concat fs <> [] -> holds t (length fs :: flat_map (fun vs => length vs :: vs) fs) (concat fs)
| holds_other vs : t <> POLYGON -> t <> POLYHEDRON -> t <> UNDEFINED -> vs <> [] -> holds t vs vs.
Definition has_verts (c : cell) (vs : list nat) : Prop := let '(_, t, conn, _) := c in holds t conn vs.
Definition sound {V : Type} (m : mesh V) : Prop :=
  NoDup (map fst (m_verts m)) /\ NoDup (map (fun c => fst (fst (fst c))) (m_cells m)) /\
  Forall (fun c => exists vs, has_verts c vs /\ incl vs (map fst (m_verts m))) (m_cells m).
Definition vertex_of (c : cell) (i : nat) : Prop := exists vs, has_verts c vs /\ In i vs.
