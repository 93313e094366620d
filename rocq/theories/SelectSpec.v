(** What the theorems on selected, clipped and stitched geometries mean. *)
From Coq Require Import String List Arith Bool ZArith Reals.
From Verif Require Import Vec Obj ObjSpec.
Import ListNotations.
Open Scope list_scope.

(** Every cell has a PID of an int with a name, and names are unique (C79: so is every geometry
    after any history). *)
Definition labelled (g : obj) : Prop :=
  (forall id c, In (id, c) (o_cells g) -> int_range (c_pid c) /\ exists s, named g (c_pid c) s) /\ NoDup (map fst (o_names g)).
(** a geometry in order *)
Definition proper (g : obj) : Prop := well_formed g /\ sound g /\ closed g /\ labelled g.

(** Vertices that are not within the tolerance: some coordinate differs by more.  The deletion of
    coincident vertices leaves alone a geometry where all are so. *)
Definition far (t : R) (x y : vec) : Prop := (t < Rabs (vx x - vx y) \/ t < Rabs (vy x - vy y) \/ t < Rabs (vz x - vz y))%R.
Definition apart_by (t : R) (g : obj) : Prop := forall v w x y, In (v, x) (o_verts g) -> In (w, y) (o_verts g) -> v <> w -> far t x y.
Definition apart (g : obj) : Prop := apart_by (o_tol g) g.
Definition merges_close (clean : obj -> obj) : Prop := forall g, apart g -> clean g = g.

(** [r] is the part of [g] made of the cells that satisfy [P]: these cells as they are, their
    vertices where they are, their PIDs with their names *)
Definition part (g : obj) (P : nat -> Prop) (r : obj) : Prop :=
  o_type r = o_type g /\ well_formed r /\
  (forall id c, In (id, c) (o_cells r) <-> In (id, c) (o_cells g) /\ P id) /\
  (forall v x, In (v, x) (o_verts r) <-> In (v, x) (o_verts g) /\ exists id c, In (id, c) (o_cells g) /\ P id /\ vertex_of c v) /\
  (forall p, In p (o_pids r) <-> exists id, P id /\ carries g id p) /\
  (forall p s, named r p s <-> named g p s /\ exists id, P id /\ carries g id p).
(** for a cloud, the vertices that satisfy [P] *)
Definition cloud_part (g : obj) (P : nat -> Prop) (r : obj) : Prop :=
  o_type r = o_type g /\ well_formed r /\ o_cells r = [] /\ forall v x, In (v, x) (o_verts r) <-> In (v, x) (o_verts g) /\ P v.

(** A geometry with cells that can be read and
    whose vertices exist. *)
Definition usable (g : obj) : Prop := well_formed g /\ sound g /\ closed g.

(** The requests made to a selection by PID, the latest first: what the documentation says is asked
    of PID [p]. *)
Inductive ask := Ask (i : Z) | Drop (i : Z).
Fixpoint asked (h : list ask) (p : Z) : Prop :=
  match h with
  | [] => False
  | Ask i :: r => (i < 0)%Z \/ p = i \/ asked r p
  | Drop i :: r => (0 <= i)%Z /\ p <> i /\ asked r p
  end.
(** without "all the PIDs" (a negative PID to activate), and without PID 0 to deactivate *)
Definition simple (a : ask) : Prop := match a with Ask i => (0 <= i)%Z | Drop i => i <> 0%Z end.

(** the side of the plane through [o] of normal [n] where [n] points *)
Definition beyond (o n x : vec) : Prop := (0 < vx n * (vx x - vx o) + vy n * (vy x - vy o) + vz n * (vz x - vz o))%R.
Definition behind (o n x : vec) : Prop := (vx n * (vx x - vx o) + vy n * (vy x - vy o) + vz n * (vz x - vz o) < 0)%R.

(** the elements of [r] numbered from [a] on are copies of the elements of [g], in order *)
Definition copies (g r : obj) (a b : nat) (start : Z) : Prop :=
  (forall k v x, nth_error (o_verts g) k = Some (v, x) -> In (a + k, x) (o_verts r)) /\
  (forall k i c, nth_error (o_cells g) k = Some (i, c) -> exists c', In (b + k, c') (o_cells r) /\ c_pid c' = (c_pid c + start)%Z /\ same_cell g r c c').
(** the geometries of a list, each with a shift of its PIDs, one after the other *)
Fixpoint all_copies (gs : list (obj * Z)) (r : obj) (a b : nat) : Prop :=
  match gs with
  | [] => True
  | (g, s) :: l => copies g r a b s /\ all_copies l r (a + length (o_verts g)) (b + length (o_cells g))
  end.
Definition total (f : obj -> nat) (gs : list obj) : nat := fold_right (fun g n => f g + n) 0 gs.
(** cells that can be stitched: neither a polyhedron nor a polygon of fewer than two vertices, with
    some vertex *)
Definition stitchable (c : cell) : Prop := c_type c <> EPolyhedron /\ (c_type c = EPolygon -> 3 <= length (c_conn c))%nat.
