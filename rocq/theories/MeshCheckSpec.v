(** What a mesh of good quality is, without the checker. *)
From Coq Require Import Reals List Arith Bool.
From Verif Require Import Vec MeshCheck.
Import ListNotations.
Open Scope R_scope.

(** Only the records of MeshCheck (cells, interfaces, meshes, tolerances) are used here. *)
Definition has_cell (g : mesh) (c : cell) : Prop := In c (m_cells g).
(** identifiers are unique, and cells and interfaces refer to cells that are there *)
Definition well_formed (g : mesh) : Prop :=
  NoDup (map c_id (m_cells g)) /\
  (forall c n, has_cell g c -> In n (c_adjacent c) -> exists d, has_cell g d /\ c_id d = n) /\
  (forall i, In i (m_interfaces g) -> (exists d, has_cell g d /\ c_id d = i_owner i) /\ (forall n, i_neigh i = Some n -> exists d, has_cell g d /\ c_id d = n)).
(** the angle between two directions *)
Definition is_angle (u v : vec) (a : R) : Prop := 0 <= a <= PI /\ dot u v = norm u * norm v * cos a.
(** from the centre of a cell, through an interface: to that of the cell beyond it, or of the interface on the border *)
Definition crossing (g : mesh) (i : interface) (u : vec) : Prop :=
  exists o, has_cell g o /\ c_id o = i_owner i /\
    match i_neigh i with
    | Some n => exists d, has_cell g d /\ c_id d = n /\ u = vsub (c_centre d) (c_centre o)
    | None => u = vsub (i_centre i) (c_centre o)
    end.
(** the faces of a cell, with their normals out of it *)
Definition faces (g : mesh) (c : cell) : list (interface * vec) :=
  flat_map (fun i => (if Nat.eq_dec (i_owner i) (c_id c) then [(i, i_normal i)] else []) ++
    (match i_neigh i with Some n => if Nat.eq_dec n (c_id c) then [(i, vscale (-1) (i_normal i))] else [] | None => [] end)) (m_interfaces g).
(** the centre of the cell is on the inner side of the face *)
Definition is_valid (c : cell) (f : interface * vec) : Prop := 0 < dot (vsub (i_centre (fst f)) (c_centre c)) (snd f).
Fixpoint total_area (l : list (interface * vec)) : R := match l with [] => 0 | f :: r => i_area (fst f) + total_area r end.
(** the area of the faces of which the centre of the cell is on the inner side *)
Inductive valid_area (c : cell) : list (interface * vec) -> R -> Prop :=
  | va_nil : valid_area c [] 0
  | va_yes : forall f r x, is_valid c f -> valid_area c r x -> valid_area c (f :: r) (i_area (fst f) + x)
  | va_no : forall f r x, ~ is_valid c f -> valid_area c r x -> valid_area c (f :: r) x.

(** nothing is degenerate: volumes and areas are positive, directions are not null *)
Definition regular (g : mesh) : Prop :=
  (forall c, has_cell g c -> 0 < c_volume c) /\
  (m_solid g = true -> (forall i u, In i (m_interfaces g) -> crossing g i u -> 0 < norm u /\ 0 < norm (i_normal i)) /\ (forall c, has_cell g c -> 0 < total_area (faces g c))).
(** the conditions, for the cells of a process *)
Definition good_volume (t : tolerances) (g : mesh) (c : cell) : Prop := t_minVolume t <= c_volume c <= t_maxVolume t.
Definition good_change (t : tolerances) (g : mesh) (c : cell) : Prop :=
  forall d, has_cell g d -> In (c_id d) (c_adjacent c) -> t_change t * c_volume d <= c_volume c.
Definition good_angle (t : R) (g : mesh) (i : interface) : Prop := forall u a, crossing g i u -> is_angle u (i_normal i) a -> a <= t.
Definition good_faces (t : tolerances) (g : mesh) (c : cell) : Prop := forall x, valid_area c (faces g c) x -> t_validity t * total_area (faces g c) <= x.
Definition acceptable (t : tolerances) (g : mesh) : Prop :=
  (forall c, has_cell g c -> c_interior c = true -> good_volume t g c /\ good_change t g c /\ (m_solid g = true -> good_faces t g c)) /\
  (m_solid g = true -> forall i, In i (m_interfaces g) -> good_angle (if i_neigh i then t_skewness t else t_boundary t) g i).
(** tolerances that a mesh can meet *)
Definition sensible (t : tolerances) : Prop :=
  t_minVolume t <= 10 ^ 18 /\ 0 <= t_maxVolume t /\ 0 <= t_skewness t /\ 0 <= t_boundary t /\ t_validity t <= 1 /\ t_change t <= 1.
(** the checks by the status that tells they failed *)
Definition passes (t : tolerances) (g : mesh) (v : status) : Prop :=
  match v with
  | Good => True
  | FaceValidity => m_solid g = true -> forall c, has_cell g c -> c_interior c = true -> good_faces t g c
  | VolumeChangeRatio => forall c, has_cell g c -> c_interior c = true -> good_change t g c
  | BoundarySkewness => m_solid g = true -> forall i, In i (m_interfaces g) -> i_neigh i = None -> good_angle (t_boundary t) g i
  | Skewness => m_solid g = true -> forall i n, In i (m_interfaces g) -> i_neigh i = Some n -> good_angle (t_skewness t) g i
  | MinimumVolume => forall c, has_cell g c -> c_interior c = true -> t_minVolume t <= c_volume c
  | MaximumVolume => forall c, has_cell g c -> c_interior c = true -> c_volume c <= t_maxVolume t
  end.
(** the numbers of the statuses, MeshChecker.hpp 95-104 *)
Definition number (v : status) : nat :=
  match v with Good => 0 | FaceValidity => 1 | VolumeChangeRatio => 2 | BoundarySkewness => 3 | Skewness => 4 | MinimumVolume => 5 | MaximumVolume => 6 end.
