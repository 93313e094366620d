(** What the theorems on the selections of a mesh and its boundary mean. *)
From Coq Require Import List Arith ZArith.
From Verif Require Import Obj ObjSpec FvSel.
Import ListNotations.

(** a cell made of vertices that satisfy [V] *)
Definition made_of (V : nat -> Prop) (c : cell) : Prop := (exists v, vertex_of c v) /\ forall v, vertex_of c v -> V v.
(** the vertices of a geometry *)
Definition vertex_in (g : obj) (v : nat) : Prop := exists x, In (v, x) (o_verts g).
(** [r] has the cells of [g] that satisfy [P], as they are, and their vertices, where they are *)
Definition cells_of (g : obj) (P : nat -> cell -> Prop) (r : obj) : Prop :=
  o_type r = o_type g /\ well_formed r /\
  (forall id c, In (id, c) (o_cells r) <-> In (id, c) (o_cells g) /\ P id c) /\
  (forall v x, In (v, x) (o_verts r) <-> In (v, x) (o_verts g) /\ exists id c, In (id, c) (o_cells g) /\ P id c /\ vertex_of c v).

(** the calls on a selection *)
Inductive fv_call := FvGeometry (g : option obj) | FvBoundary (g : option obj) | FvDual (d : bool) | FvSelection (e : option nat).
(** the types of a mesh and of its boundary: a volume and a surface, or a surface and a curve *)
Definition pair_of (topo : Z) (bulk bnd : nat) : Prop := ((topo <= 1)%Z -> bulk = 2 /\ bnd = 1) /\ ((2 <= topo)%Z -> bulk = 1 /\ bnd = 4).
