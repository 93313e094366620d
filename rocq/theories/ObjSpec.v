(** What the theorems on the content of a geometry mean, independently of the functions of Obj.v. *)
From Coq Require Import String List Arith Bool ZArith Reals.
From Verif Require Import Vec Obj.
Import ListNotations.
Open Scope list_scope.

Definition distinct {A} (l : list (nat * A)) : Prop := NoDup (map fst l).
Definition well_formed (g : obj) : Prop := distinct (o_verts g) /\ distinct (o_cells g).
(** the ids chosen for new elements are not in use *)
Definition new_ids (fr : list nat -> nat) : Prop := forall l, ~ In (fr l) l.

(** values of an int *)
Definition int_range (p : Z) : Prop := (- 2 ^ 31 <= p < 2 ^ 31)%Z.
(** cell [id] of the geometry has the part identifier [p] *)
Definition carries (g : obj) (id : nat) (p : Z) : Prop := exists c, In (id, c) (o_cells g) /\ c_pid c = p.
(** the name registered for [p] *)
Definition named (g : obj) (p : Z) (s : string) : Prop := In (p, s) (o_names g).

(** The faces of a polyhedron written one after the other, each as its number of vertices followed
    by its vertices. *)
Definition stream (faces : list (list nat)) : list nat := flat_map (fun f => length f :: f) faces.
(** how many entries the connectivity of an element has, for the elements with a fixed number *)
Definition fixed_size (t : elem) : option nat :=
  match t with
  | EVertex => Some 1 | ELine => Some 2 | ETriangle => Some 3 | EPixel | EQuad | ETetra => Some 4 | EPyramid => Some 5
  | EWedge => Some 6 | EVoxel | EHexahedron => Some 8 | EPolygon | EPolyhedron | EUndefined => None
  end.
(** what a connectivity means: the list of the faces of the element as lists of vertices (a single
    list for an element that is not a polyhedron) *)
Inductive means : elem -> list nat -> list (list nat) -> Prop :=
  | means_fixed t l n : fixed_size t = Some n -> length l = n -> means t l [l]
  | means_polygon l : means EPolygon (length l :: l) [l]
  | means_polyhedron fs : means EPolyhedron (length fs :: stream fs) fs.
(** the vertices of a cell *)
Definition vertex_of (c : cell) (v : nat) : Prop := exists fs f, means (c_type c) (c_conn c) fs /\ In f fs /\ In v f.
Definition sound_cell (c : cell) : Prop := exists fs, means (c_type c) (c_conn c) fs.
Definition sound (g : obj) : Prop := forall id c, In (id, c) (o_cells g) -> sound_cell c.
(** element types of a geometry of type [t], without the structured ones of bitpit *)
Definition of_type (t : nat) (e : elem) : Prop :=
  match t with
  | 1 => e = ETriangle \/ e = EQuad \/ e = EPolygon
  | 2 => e = ETetra \/ e = EPyramid \/ e = EWedge \/ e = EHexahedron \/ e = EPolyhedron
  | 3 => e = EVertex
  | 4 => e = ELine
  | _ => False
  end.

(** what the documentation of the constructor from lists of vertices and connectivities calls a
    connectivity of an element for a mesh of type [t] (1 surface, 2 volume, 3 cloud, 4 curve) *)
Definition documented (t : nat) (e : elem) (l : list nat) : Prop := of_type t e /\ exists fs, means e l fs.
(** how a connectivity without the type of the element can be told: by its size, with a polygon of
    four vertices or more and any polyhedron of nine entries or more *)
Definition readable (e : elem) (l : list nat) : Prop :=
  match e with EPolygon => 5 <= length l | EPolyhedron => 9 <= length l | _ => True end.
(** vertex [v] of [g] is at the place of vertex [v'] of [g'] *)
Definition same_place (g g' : obj) (v v' : nat) : Prop := exists x, In (v, x) (o_verts g) /\ In (v', x) (o_verts g').
(** two cells have the same type, and faces with vertices at the same places in the same order *)
Definition same_cell (g g' : obj) (c c' : cell) : Prop :=
  c_type c = c_type c' /\ exists fs fs', means (c_type c) (c_conn c) fs /\ means (c_type c') (c_conn c') fs' /\
  Forall2 (Forall2 (same_place g g')) fs fs'.
(** the vertices of the cells are vertices of the geometry *)
Definition closed (g : obj) : Prop := forall id c v, In (id, c) (o_cells g) -> vertex_of c v -> In v (map fst (o_verts g)).
