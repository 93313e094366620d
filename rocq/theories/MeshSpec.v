(** What the structured meshes are measured against. *)
From Coq Require Import Reals List Arith ZArith Bool.
From Verif Require Import Vec Shape ShapeSpec Mesh.
Import ListNotations.
Open Scope R_scope.

(** Calls on a mesh, and the meshes a program can hold. Uninitialised memory is part of the call. *)
Inductive mop :=
| MOrigin (o : vec) | MSpan (sp : vec) | MInf (v : R) (dir : Z) | MFrame (a0 a1 a2 : vec) | MFrame1 (label : Z) (a : vec)
| MDim (d0 d1 d2 : Z) | MType (t : coordtype) (dir : Z) | MShape (junk : vec) (k : kind) | MShapeCopy (s : shape)
| MBuild | MClear | MMesh (junk o sp : vec) (k : kind) (d0 d1 d2 : Z) | MMeshSpacing (junk o sp : vec) (k : kind) (h : vec)
| MMeshCopy (s : shape) (d0 d1 d2 : Z) | MMeshCopySpacing (s : shape) (h : vec).
Definition mcall (m : mesh) (o : mop) : option mesh :=
  match o with
  | MOrigin v => Some (mesh_setOrigin m v)
  | MSpan v => Some (mesh_setSpan m v)
  | MInf v d => mesh_setInfLimits m v d
  | MFrame a b c => mesh_setRefSystem m a b c
  | MFrame1 l a => mesh_setRefSystem1 m l a
  | MDim a b c => Some (setDimension m a b c)
  | MType t d => Some (mesh_setCoordType m t d)
  | MShape j k => Some (mesh_setShape j m k)
  | MShapeCopy s => Some (mesh_setShapeCopy m (Some s))
  | MBuild => Some (snd (mesh_build m))
  | MClear => Some (clearMesh m)
  | MMesh j o sp k a b c => Some (setMesh j m o sp k a b c)
  | MMeshSpacing j o sp k h => setMeshSpacing j m o sp k h
  | MMeshCopy s a b c => Some (setMeshCopy m s a b c)
  | MMeshCopySpacing s h => setMeshCopySpacing m s h
  end.
(** [mreach safe m]: m is the result of a sequence of calls that all satisfy [safe]; shapes and meshes
    given as arguments are themselves results of such calls. *)
Inductive mreach (safe : mop -> Prop) : mesh -> Prop :=
| mreach_new : mreach safe new_mesh
| mreach_call m o m' : mreach safe m -> safe o ->
    (match o with MShapeCopy s | MMeshCopy s _ _ _ | MMeshCopySpacing s _ => exists k, reach k s | _ => True end) ->
    mcall m o = Some m' -> mreach safe m'
| mreach_assign a b : mreach safe a -> mreach safe b -> mreach safe (mesh_assign a b).
Definition any (_ : mop) : Prop := True.

(** Sizes, counted from direction 0. *)
Definition dim (m : mesh) (i : nat) : Z :=
  let '(a, b, c) := getDimension m in match i with 0%nat => a | 1%nat => b | _ => c end.
(** The least number of points of a mesh on a shape. *)
Definition min_points (k : kind) (i : nat) : Z :=
  match k, i with CYLINDER, 1%nat => 4 | SPHERE, 1%nat => 5 | SPHERE, 2%nat => 3 | _, _ => 2 end.
(** Index triples of points and cells. *)
Definition comp (t : Z * Z * Z) (i : nat) : Z :=
  let '(a, b, c) := t in match i with 0%nat => a | 1%nat => b | _ => c end.
Definition point_index (m : mesh) (t : Z * Z * Z) : Prop := forall i, (i < 3)%nat -> (0 <= comp t i < dim m i)%Z.
Definition cell_index (m : mesh) (t : Z * Z * Z) : Prop := forall i, (i < 3)%nat -> (0 <= comp t i < dim m i - 1)%Z.
Definition num_points (m : mesh) : Z := (dim m 0 * dim m 1 * dim m 2)%Z.
Definition num_cells (m : mesh) : Z := ((dim m 0 - 1) * (dim m 1 - 1) * (dim m 2 - 1))%Z.
(** The mesh is the result of a successful build, on a shape s none of whose dimensions is zero. *)
Definition built_on (m : mesh) (s : shape) : Prop :=
  (exists m0, mreach any m0 /\ mesh_build m0 = (true, m)) /\ m_shape m = Some s /\ solid s.
(** The numbers of points of a program fit an int. *)
Definition int_sizes (m : mesh) : Prop := forall i, (i < 3)%nat -> (dim m i <= 2 ^ 31)%Z.
(** The local coordinate number t of the local box of a shape divided in n parts. *)
Definition division (s : shape) (i : nat) (n : Z) (t : R) : R :=
  vent (getLocalOrigin s) i + t / IZR n * vent (s_span s) i.

(** y is a mixture of the values xs: a combination with non-negative coefficients of sum one. *)
Fixpoint sum (l : list R) : R := match l with [] => 0 | x :: r => x + sum r end.
Definition mixture (xs : list R) (y : R) : Prop :=
  exists cs, length cs = length xs /\ Forall (fun c => 0 <= c) cs /\ sum cs = 1 /\
             y = sum (map (fun '(c, x) => c * x) (combine cs xs)).
(** The local coordinates divided by the spacing fit an int: the point is not out of the range of the
    conversions to int. *)
Definition representable (m : mesh) (s : shape) (p : vec) : Prop :=
  forall i, (i < 3)%nat ->
    let q := (vent (toLocalCoord s p) i - vent (getLocalOrigin s) i) / (vent (s_span s) i / IZR (dim m i - 1)) in
    - 2 ^ 31 <= q < 2 ^ 31.
(** Data on points or cells, as a function of the triple of indices. *)
Definition point_data {A} (m : mesh) (data : list A) (f : Z -> Z -> Z -> A) : Prop :=
  Z.of_nat (length data) = num_points m /\
  forall i j k, point_index m (i, j, k) -> zget data (accessPointIndex m i j k) = Some (f i j k).
Definition cell_data {A} (m : mesh) (data : list A) (f : Z -> Z -> Z -> A) : Prop :=
  Z.of_nat (length data) = num_cells m /\
  forall i j k, cell_index m (i, j, k) -> zget data (accessCellIndex m i j k) = Some (f i j k).
(** The local coordinates of the point lie between those of the first and of the last centre. *)
Definition between_centres (m : mesh) (s : shape) (p : vec) : Prop :=
  exists lo hi, getLocalCCell m 0 0 0 = Some lo /\ getLocalCCell m (dim m 0 - 2) (dim m 1 - 2) (dim m 2 - 2) = Some hi /\
    forall n, (n < 3)%nat -> vent lo n <= vent (toLocalCoord s p) n <= vent hi n.
(** An affine function of a point. *)
Definition affine (a : R) (b p : vec) : R := a + dot b p.

(** Everything but the flag: the observable content of two meshes agrees. *)
Definition same_points (m m' : mesh) : Prop :=
  (forall i, (i < 3)%nat -> dim m i = dim m' i) /\
  (forall i j k, getLocalPoint m i j k = getLocalPoint m' i j k) /\
  (forall i j k, getLocalCCell m i j k = getLocalCCell m' i j k).
(** A call that does not set the polar infimum. *)
Definition no_polar (o : mop) : Prop := match o with MInf _ 2 => False | _ => True end.
