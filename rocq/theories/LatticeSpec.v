(** What the lattices are measured against. *)
From Coq Require Import Reals List Arith ZArith Bool.
From Verif Require Import Vec Shape ShapeSpec Mesh MeshSpec Lattice.
Import ListNotations.
Open Scope R_scope.

(** The lattice is the result of a successful build on a shape s, after any sequence of calls on its
    mesh; the numbering it had before is arbitrary. *)
Definition built_lat (l : lattice) (s : shape) : Prop :=
  (exists l0, mreach any (l_mesh l0) /\ lat_build l0 = Some (true, l)) /\ m_shape (l_mesh l) = Some s.
(** The number (degree of freedom) of the point with indices t. *)
Definition dof (l : lattice) (t : Z * Z * Z) (d : Z) : Prop :=
  let '(i, j, k) := t in accessDOFFromGrid l (accessPointIndex (l_mesh l) i j k) = Some d.
(** Where it is. *)
Definition place (l : lattice) (t : Z * Z * Z) (p : vec) : Prop :=
  let '(i, j, k) := t in getGlobalPoint (l_mesh l) i j k = Some p.
(** The azimuth is treated as closed only if it is. *)
Definition closes (s : shape) : Prop := s_ct1 s = PERIODIC -> vy (getSpan s) = 2 * PI.
(** Shapes without a point that has several parameters, apart from the seam of a whole turn, and whose
    seam, if any, is declared. *)
Definition no_axis_seam (s : shape) : Prop :=
  s_kind s = CUBE \/ (s_kind s = CYLINDER /\ 0 < vx (s_inf s) /\ (vy (getSpan s) = 2 * PI -> s_ct1 s = PERIODIC)).
(** The joined points coincide. *)
Definition joinable (s : shape) : Prop :=
  match s_kind s with CUBE => True | CYLINDER => closes s | SPHERE => s_ct1 s <> PERIODIC | WEDGE => False end.
