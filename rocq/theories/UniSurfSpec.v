(** What is expected of the union of surfaces: the cells of all of them, drawn in the same places. *)
From Coq Require Import Reals.
From Coq Require Import List ZArith.
From Verif Require Import Vec UniSurf.
Import ListNotations.
Local Open Scope Z_scope.

(** the places of the vertices of a cell *)
Inductive places (l : list vert) : list Z -> list vec -> Prop :=
| places_nil : places l [] []
| places_cons : forall i x conn xs, In (i, x) l -> places l conn xs -> places l (i :: conn) (x :: xs).
(** the surface has a cell with this pid, of this process, with its vertices in these places *)
Definition has_cell (s : surf) (pid rank : Z) (xs : list vec) : Prop :=
  exists c, In c (s_cells s) /\ u_pid c = pid /\ u_rank c = rank /\ places (s_verts s) (u_conn c) xs.
(** a surface by itself: no identifier twice *)
Definition a_surface (s : surf) : Prop := NoDup (map fst (s_verts s)) /\ NoDup (map u_id (s_cells s)).
(** each cell is on vertices that are there *)
Definition well_connected (s : surf) : Prop :=
  forall c i, In c (s_cells s) -> In i (u_conn c) -> exists x, In (i, x) (s_verts s).
(** an identifier of vertex is in one place over all the surfaces, one of a cell is of one cell *)
Definition same_vertices (l : list surf) : Prop :=
  forall s t i x y, In s l -> In t l -> In (i, x) (s_verts s) -> In (i, y) (s_verts t) -> x = y.
Definition same_cells (l : list surf) : Prop :=
  forall s t c d, In s l -> In t l -> In c (s_cells s) -> In d (s_cells t) -> u_id c = u_id d -> c = d.
