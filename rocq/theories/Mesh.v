(** Uniform structured meshes built on a shape (src/core/BasicMeshes.hpp, src/core/BasicMeshes.cpp).
    Doubles are real numbers (rounding, infinities and NaN are not modelled). Integers are unbounded,
    except in the conversions of doubles to int, which are undefined outside the range of int.
    A read outside of a vector, a call through the null shape and a NaN in a frame give None. *)
From Coq Require Import Reals List Arith ZArith Bool.
From Verif Require Import Vec Shape.
Import ListNotations.
Open Scope R_scope.

(** The members of one direction, e.g. m_nx, m_dx, m_xnode, m_xedge, src/core/BasicMeshes.hpp:48-59. *)
Record axis := Ax { a_n : Z; a_d : R; a_node : list R; a_edge : list R }.
(** m_setorigin, m_setspan, m_setInfLimits, m_setRefSys and the m_*_temp members,
    src/core/BasicMeshes.hpp:61-64, 68-71. m_shapetype_temp is CUBE in every object (44-45, 1004). *)
Record temps := Te { t_seto : bool; t_sets : bool; t_seti : bool; t_setr : bool;
                     t_o : vec; t_s : vec; t_i : vec; t_r : mat }.
Record mesh := Me { m_shape : option shape; m_x : axis; m_y : axis; m_z : axis; m_t : temps; m_built : bool }.

Definition no_temps : temps := Te false false false false vzero (V3 1 1 1) vzero ident.
Definition no_axis : axis := Ax 0 0 [] [].
(** UStructMesh::UStructMesh(), src/core/BasicMeshes.cpp:35-52. *)
Definition new_mesh : mesh := Me None no_axis no_axis no_axis no_temps false.

(** std::vector::operator[]. *)
Definition zget {A} (l : list A) (i : Z) : option A := if Z.ltb i 0 then None else nth_error l (Z.to_nat i).
(** (int) std::floor(x). *)
Definition to_int (x : R) : option Z :=
  let z := Int_part x in if (Z.leb (- 2 ^ 31) z && Z.ltb z (2 ^ 31))%bool then Some z else None.

(** Getters, src/core/BasicMeshes.cpp:222-291. *)
Definition mesh_getOrigin (m : mesh) : vec := match m_shape m with None => t_o (m_t m) | Some s => s_origin s end.
Definition mesh_getSpan (m : mesh) : vec := match m_shape m with None => t_s (m_t m) | Some s => getSpan s end.
Definition mesh_getInfLimits (m : mesh) : vec := match m_shape m with None => t_i (m_t m) | Some s => s_inf s end.
Definition mesh_getRefSystem (m : mesh) : mat := match m_shape m with None => t_r (m_t m) | Some s => s_sdr s end.
Definition mesh_getScaling (m : mesh) : vec := match m_shape m with None => V3 1 1 1 | Some s => s_scaling s end.
Definition mesh_getLocalSpan (m : mesh) : vec := match m_shape m with None => V3 1 1 1 | Some s => s_span s end.
Definition mesh_getShapeType (m : mesh) : kind := match m_shape m with None => CUBE | Some s => s_kind s end.
(** UStructMesh::getSpacing 327-332, getDimension 337-344. *)
Definition getSpacing (m : mesh) : vec :=
  let sc := mesh_getScaling m in V3 (a_d (m_x m) * vx sc) (a_d (m_y m) * vy sc) (a_d (m_z m) * vz sc).
Definition getDimension (m : mesh) : Z * Z * Z := (a_n (m_x m) + 1, a_n (m_y m) + 1, a_n (m_z m) + 1)%Z.

Definition with_shape (m : mesh) (s : option shape) : mesh := Me s (m_x m) (m_y m) (m_z m) (m_t m) (m_built m).
Definition with_temps (m : mesh) (t : temps) : mesh := Me (m_shape m) (m_x m) (m_y m) (m_z m) t (m_built m).
Definition unbuilt (m : mesh) : mesh := Me (m_shape m) (m_x m) (m_y m) (m_z m) (m_t m) false.

(** UStructMesh::setOrigin, src/core/BasicMeshes.cpp:541-548. *)
Definition mesh_setOrigin (m : mesh) (o : vec) : mesh :=
  match m_shape m with
  | None => let t := m_t m in with_temps m (Te true (t_sets t) (t_seti t) (t_setr t) o (t_s t) (t_i t) (t_r t))
  | Some s => with_shape m (Some (setOrigin s o))
  end.
(** UStructMesh::setSpan, src/core/BasicMeshes.cpp:558-580. *)
Definition mesh_setSpan (m : mesh) (sp : vec) : mesh :=
  unbuilt (match m_shape m with
           | None => let t := m_t m in with_temps m (Te (t_seto t) true (t_seti t) (t_setr t) (t_o t) sp (t_i t) (t_r t))
           | Some s => with_shape m (Some (setSpan s sp))
           end).
(** UStructMesh::setInfLimits(inflim, dir), src/core/BasicMeshes.cpp:588-595; without shape, dir is
    used as an index. *)
Definition mesh_setInfLimits (m : mesh) (v : R) (dir : Z) : option mesh :=
  match m_shape m with
  | None => let t := m_t m in let i := t_i t in
      let put i' := Some (with_temps m (Te (t_seto t) (t_sets t) true (t_setr t) (t_o t) (t_s t) i' (t_r t))) in
      if Z.eqb dir 0 then put (V3 v (vy i) (vz i)) else if Z.eqb dir 1 then put (V3 (vx i) v (vz i))
      else if Z.eqb dir 2 then put (V3 (vx i) (vy i) v) else None
  | Some s => Some (with_shape m (Some (setInfLimits s v dir)))
  end.
(** UStructMesh::setRefSystem with three axes or a matrix, src/core/BasicMeshes.cpp:619-629, 658-668. *)
Definition mesh_setRefSystem (m : mesh) (a0 a1 a2 : vec) : option mesh :=
  match m_shape m with
  | None => let t := m_t m in
      Some (with_temps m (Te (t_seto t) (t_sets t) (t_seti t) true (t_o t) (t_s t) (t_i t) (M3 a0 a1 a2)))
  | Some s => match setRefSystem s a0 a1 a2 with
              | Changed s' => Some (with_shape m (Some s')) | Rejected => Some m | Nan => None end
  end.
(** UStructMesh::setRefSystem(label, axis), src/core/BasicMeshes.cpp:638-650. *)
Definition mesh_setRefSystem1 (m : mesh) (label : Z) (axis : vec) : option mesh :=
  match m_shape m with
  | None => let t := m_t m in
      let put r := Some (with_temps m (Te (t_seto t) (t_sets t) (t_seti t) true (t_o t) (t_s t) (t_i t) r)) in
      match setRefSystem1 (new_shape CUBE) label axis with
      | Changed s => put (s_sdr s) | Rejected => put (s_sdr (new_shape CUBE)) | Nan => None end
  | Some s => match setRefSystem1 s label axis with
              | Changed s' => Some (with_shape m (Some s')) | Rejected => Some m | Nan => None end
  end.
(** UStructMesh::setDimension, src/core/BasicMeshes.cpp:676-696. *)
Definition set_n (a : axis) (n : Z) : axis := Ax n (a_d a) (a_node a) (a_edge a).
Definition setDimension (m : mesh) (d0 d1 d2 : Z) : mesh :=
  Me (m_shape m) (set_n (m_x m) (d0 - 1)) (set_n (m_y m) (d1 - 1)) (set_n (m_z m) (d2 - 1)) (m_t m) false.

(** UStructMesh::setShape(type), src/core/BasicMeshes.cpp:713-770. [junk] is what the uninitialised
    local variable spanMat[1] holds: line 732 fills spanMat[0] and, twice, spanMat[2]; line 733 sets
    the entry [1][1]. *)
Definition mesh_setShape (junk : vec) (m : mesh) (k : kind) : mesh :=
  let t := match m_shape m with
           | Some s => Te true true true true (s_origin s) (getSpan s) (s_inf s) (s_sdr s)
           | None => m_t m end in
  let origin := if t_seto t then t_o t else vzero in
  let span := if t_sets t then t_s t else
              match k with
              | CUBE | WEDGE => V3 1 1 1
              | CYLINDER => V3 (vx junk) (2 * PI) (vz junk)
              | SPHERE => V3 1 (2 * PI) PI
              end in
  let s0 := setSpan (setOrigin (new_shape k) origin) span in
  let s1 := if t_seti t then setInfLimits (setInfLimits (setInfLimits s0 (vx (t_i t)) 0) (vy (t_i t)) 1) (vz (t_i t)) 2 else s0 in
  let s2 := if t_setr t then match setRefSystem s1 (row0 (t_r t)) (row1 (t_r t)) (row2 (t_r t)) with
                             | Changed s' => s' | _ => s1 end else s1 in
  Me (Some s2) (m_x m) (m_y m) (m_z m) (Te false false false false (t_o t) (t_s t) (t_i t) (t_r t)) false.
(** UStructMesh::setShape from an external shape, src/core/BasicMeshes.cpp:777-814: the shape is copied
    (the casts succeed: the type tag and the class of the object agree). *)
Definition mesh_setShapeCopy (m : mesh) (p : option shape) : mesh :=
  match p with
  | None => m
  | Some s => let t := m_t m in
      Me (Some s) (m_x m) (m_y m) (m_z m) (Te false false false false (t_o t) (t_s t) (t_i t) (t_r t)) false
  end.

(** UStructMesh::setCoordType(type, i), src/core/BasicMeshes.cpp:832-835 (and 821-824, 842-855). *)
Definition mesh_setCoordType (m : mesh) (t : coordtype) (dir : Z) : mesh :=
  match m_shape m with None => m | Some s => with_shape m (Some (setCoordinateType s t dir)) end.

(** dimLimit, src/core/BasicMeshes.cpp:1626-1639 (and 893-906, 956-969 in setMesh). *)
Definition dimLimit (k : kind) : Z * Z * Z :=
  match k with CYLINDER => (2, 4, 2)%Z | SPHERE => (2, 5, 3)%Z | CUBE | WEDGE => (2, 2, 2)%Z end.
(** One direction of UStructMesh::build, src/core/BasicMeshes.cpp:1642-1660. *)
Definition build_axis (n lim : Z) (span o : R) : axis :=
  let n' := Z.max n (lim - 1) in
  let d := span / IZR n' in
  let edge := map (fun i => o + INR i * d) (seq 0 (Z.to_nat (n' + 1))) in
  Ax n' d (map (fun e => e + 0.5 * d) (firstn (Z.to_nat n') edge)) edge.
(** UStructMesh::build, src/core/BasicMeshes.cpp:1622-1664. *)
Definition mesh_build (m : mesh) : bool * mesh :=
  match m_shape m with
  | None => (false, m)
  | Some s =>
      let '(l0, l1, l2) := dimLimit (s_kind s) in
      let span := s_span s in let o := getLocalOrigin s in
      (true, Me (Some s) (build_axis (a_n (m_x m)) l0 (vx span) (vx o)) (build_axis (a_n (m_y m)) l1 (vy span) (vy o))
                (build_axis (a_n (m_z m)) l2 (vz span) (vz o)) (m_t m) true)
  end.

(** UStructMesh::setMesh(origin, span, type, dimensions), src/core/BasicMeshes.cpp:874-883. *)
Definition setMesh (junk : vec) (m : mesh) (o sp : vec) (k : kind) (d0 d1 d2 : Z) : mesh :=
  let m1 := mesh_setShape junk (with_shape m None) k in
  snd (mesh_build (setDimension (mesh_setSpan (mesh_setOrigin m1 o) sp) d0 d1 d2)).
(** The loop of lines 915-921 and 977-983 (one entry). *)
Definition spacing_dim (span spacing : R) (lim : Z) : option Z :=
  if Req_EM_T spacing 0 then Some lim
  else match to_int (span / spacing + 0.5) with None => None | Some z => Some (z + 1)%Z end.
Definition spacing_dims (m : mesh) (spacing : vec) (k : kind) : option mesh :=
  let '(l0, l1, l2) := dimLimit k in
  let sp := mesh_getSpan m in
  match spacing_dim (vx sp) (vx spacing) l0, spacing_dim (vy sp) (vy spacing) l1, spacing_dim (vz sp) (vz spacing) l2 with
  | Some d0, Some d1, Some d2 => Some (snd (mesh_build (setDimension m d0 d1 d2)))
  | _, _, _ => None
  end.
(** UStructMesh::setMesh(origin, span, type, spacing), src/core/BasicMeshes.cpp:893-925. *)
Definition setMeshSpacing (junk : vec) (m : mesh) (o sp : vec) (k : kind) (spacing : vec) : option mesh :=
  let m1 := mesh_setShape junk (with_shape m None) k in
  spacing_dims (mesh_setSpan (mesh_setOrigin m1 o) sp) spacing k.
(** UStructMesh::setMesh(shape, dimensions), src/core/BasicMeshes.cpp:934-941, with a non-null shape. *)
Definition setMeshCopy (m : mesh) (s : shape) (d0 d1 d2 : Z) : mesh :=
  snd (mesh_build (setDimension (mesh_setShapeCopy (with_shape m None) (Some s)) d0 d1 d2)).
(** UStructMesh::setMesh(shape, spacing), src/core/BasicMeshes.cpp:948-980, with a non-null shape. *)
Definition setMeshCopySpacing (m : mesh) (s : shape) (spacing : vec) : option mesh :=
  spacing_dims (mesh_setShapeCopy (with_shape m None) (Some s)) spacing (s_kind s).

(** UStructMesh::clearMesh, src/core/BasicMeshes.cpp:987-1007. *)
Definition clearMesh (m : mesh) : mesh := new_mesh.
(** Copy constructor 62-123: every member is copied. swap 139-203: all members are exchanged, but the
    shapes only if the other mesh has one. operator= 128-131: swap with a copy of the argument. *)
Definition mesh_copy (m : mesh) : mesh := m.
Definition mesh_swap (a x : mesh) : mesh * mesh :=
  match m_shape x with
  | Some _ => (x, a)
  | None => (with_shape x (m_shape a), with_shape a None)
  end.
Definition mesh_assign (a b : mesh) : mesh := fst (mesh_swap a (mesh_copy b)).

(** UStructMesh::accessCellIndex 1049-1053, 1063-1068; accessPointIndex 1078-1084 and
    src/core/BasicMeshes.hpp:204-207. Division and remainder truncate. *)
Definition accessCellIndex (m : mesh) (i j k : Z) : Z :=
  (a_n (m_y m) * a_n (m_z m) * i + a_n (m_z m) * j + k)%Z.
Definition cellCoords (m : mesh) (n : Z) : Z * Z * Z :=
  let k := Z.rem n (a_n (m_z m)) in
  let index := Z.quot n (a_n (m_z m)) in
  (Z.quot index (a_n (m_y m)), Z.rem index (a_n (m_y m)), k).
Definition accessPointIndex (m : mesh) (i j k : Z) : Z :=
  ((a_n (m_y m) + 1) * (a_n (m_z m) + 1) * i + (a_n (m_z m) + 1) * j + k)%Z.
Definition pointCoords (m : mesh) (n : Z) : Z * Z * Z :=
  let k := Z.rem n (a_n (m_z m) + 1) in
  let index := Z.quot n (a_n (m_z m) + 1) in
  (Z.quot index (a_n (m_y m) + 1), Z.rem index (a_n (m_y m) + 1), k).

(** Three reads, and a vector of them. *)
Definition read3 (a b c : option R) : option vec :=
  match a, b, c with Some x, Some y, Some z => Some (V3 x y z) | _, _, _ => None end.
(** UStructMesh::getLocalCCell 351-375, getLocalPoint 382-405. *)
Definition getLocalCCell (m : mesh) (i j k : Z) : option vec :=
  read3 (zget (a_node (m_x m)) i) (zget (a_node (m_y m)) j) (zget (a_node (m_z m)) k).
Definition getLocalPoint (m : mesh) (i j k : Z) : option vec :=
  read3 (zget (a_edge (m_x m)) i) (zget (a_edge (m_y m)) j) (zget (a_edge (m_z m)) k).
Definition getLocalCCellN (m : mesh) (n : Z) : option vec := let '(i, j, k) := cellCoords m n in getLocalCCell m i j k.
Definition getLocalPointN (m : mesh) (n : Z) : option vec := let '(i, j, k) := pointCoords m n in getLocalPoint m i j k.
(** UStructMesh::transfToGlobal, transfToLocal, src/core/BasicMeshes.cpp:1090-1145, on one point. *)
Definition transfToGlobal (m : mesh) (p : vec) : option vec :=
  match m_shape m with None => None | Some s => Some (toWorldCoord s p) end.
Definition transfToLocal (m : mesh) (p : vec) : option vec :=
  match m_shape m with None => None | Some s => Some (toLocalCoord s p) end.
(** UStructMesh::getGlobalCCell, getGlobalPoint, src/core/BasicMeshes.cpp:412-451. *)
Definition getGlobalPoint (m : mesh) (i j k : Z) : option vec :=
  match getLocalPoint m i j k with None => None | Some p => transfToGlobal m p end.
Definition getGlobalCCell (m : mesh) (i j k : Z) : option vec :=
  match getLocalCCell m i j k with None => None | Some p => transfToGlobal m p end.
(** UStructMesh::getCellNeighs, src/core/BasicMeshes.cpp:459-483. *)
Definition getCellNeighs (m : mesh) (i j k : Z) : list Z :=
  [accessPointIndex m i j k; accessPointIndex m (i + 1) j k; accessPointIndex m (i + 1) (j + 1) k;
   accessPointIndex m i (j + 1) k; accessPointIndex m i j (k + 1); accessPointIndex m (i + 1) j (k + 1);
   accessPointIndex m (i + 1) (j + 1) (k + 1); accessPointIndex m i (j + 1) (k + 1)]%Z.
(** UStructMesh::getLocalCoords, src/core/BasicMeshes.cpp:488-496; getGlobalCoords 501-508;
    getLocalCellCentroids, getGlobalCellCentroids 513-533. *)
Definition all_of {A} (f : Z -> option A) (n : Z) : list (option A) := map (fun i => f (Z.of_nat i)) (seq 0 (Z.to_nat n)).
Definition points (m : mesh) : Z := ((a_n (m_x m) + 1) * (a_n (m_y m) + 1) * (a_n (m_z m) + 1))%Z.
Definition cells (m : mesh) : Z := (a_n (m_x m) * a_n (m_y m) * a_n (m_z m))%Z.
Definition mesh_getLocalCoords (m : mesh) : list (option vec) := all_of (getLocalPointN m) (points m).
Definition getLocalCellCentroids (m : mesh) : list (option vec) := all_of (getLocalCCellN m) (cells m).

(** UStructMesh::locateCellByPoint, src/core/BasicMeshes.cpp:1018-1026. *)
Definition locate1 (a : axis) (o p : R) : option Z :=
  match to_int ((p - o) / a_d a) with
  | None => None
  | Some z => Some (Z.min (a_n a - 1) (Z.max 0 z))
  end.
Definition locateCellByPoint (m : mesh) (point : vec) : option (Z * Z * Z) :=
  match m_shape m with
  | None => None
  | Some s =>
      let p := toLocalCoord s point in let o := getLocalOrigin s in
      match locate1 (m_x m) (vx o) (vx p), locate1 (m_y m) (vy o) (vy p), locate1 (m_z m) (vz o) (vz p) with
      | Some i, Some j, Some k => Some (i, j, k)
      | _, _, _ => None
      end
  end.

(** Indices and second weight of one direction. Cells: lines 1157-1171; points: lines 1273-1289. *)
Definition clip01 (x : R) : R := Rmax 0 (Rmin 1 x).
Definition cell_stencil (a : axis) (i0 : Z) (p : R) : option (Z * Z * R) :=
  match zget (a_node a) i0 with
  | None => None
  | Some c => Some (i0, if Rlt_dec c p then Z.min (i0 + 1) (a_n a - 1) else Z.max 0 (i0 - 1),
                    clip01 (Rabs ((p - c) / a_d a)))
  end.
Definition point_stencil (a : axis) (o p : R) : option (Z * Z * R) :=
  match to_int ((p - o) / a_d a) with
  | None => None
  | Some z =>
      let i0 := Z.max 0 (Z.min (a_n a) z) in
      match zget (a_edge a) i0 with
      | None => None
      | Some e => Some (i0, if Rle_dec e p then Z.min (i0 + 1) (a_n a) else Z.max 0 (i0 - 1),
                        clip01 (Rabs ((p - e) / a_d a)))
      end
  end.
Definition stencil := ((Z * Z * R) * (Z * Z * R) * (Z * Z * R))%type.
Definition stencil3 (x y z : option (Z * Z * R)) : option stencil :=
  match x, y, z with Some a, Some b, Some c => Some (a, b, c) | _, _, _ => None end.
Definition cell_stencils (m : mesh) (point : vec) : option stencil :=
  match locateCellByPoint m point, transfToLocal m point with
  | Some (i0, j0, k0), Some p =>
      stencil3 (cell_stencil (m_x m) i0 (vx p)) (cell_stencil (m_y m) j0 (vy p)) (cell_stencil (m_z m) k0 (vz p))
  | _, _ => None
  end.
Definition point_stencils (m : mesh) (point : vec) : option stencil :=
  match m_shape m with
  | None => None
  | Some s =>
      let p := toLocalCoord s point in let o := getLocalOrigin s in
      stencil3 (point_stencil (m_x m) (vx o) (vx p)) (point_stencil (m_y m) (vy o) (vy p)) (point_stencil (m_z m) (vz o) (vz p))
  end.
(** The eight data values read, in the order of the sums of lines 1174-1181, 1292-1299, ... *)
Fixpoint all_some {A} (l : list (option A)) : option (list A) :=
  match l with
  | [] => Some []
  | x :: r => match x, all_some r with Some v, Some vs => Some (v :: vs) | _, _ => None end
  end.
Definition reads {A} (access : Z -> Z -> Z -> Z) (st : stencil) (data : list A) : option (list A) :=
  let '((i0, ip, _), (j0, jp, _), (k0, kp, _)) := st in
  all_some (map (zget data)
    [access i0 j0 k0; access i0 jp k0; access ip j0 k0; access ip jp k0;
     access i0 j0 kp; access i0 jp kp; access ip j0 kp; access ip jp kp]).
Definition weights (st : stencil) : list R :=
  let '((_, _, wx1), (_, _, wy1), (_, _, wz1)) := st in
  let wx0 := 1 - wx1 in let wy0 := 1 - wy1 in let wz0 := 1 - wz1 in
  [wz0 * wx0 * wy0; wz0 * wx0 * wy1; wz0 * wx1 * wy0; wz0 * wx1 * wy1;
   wz1 * wx0 * wy0; wz1 * wx0 * wy1; wz1 * wx1 * wy0; wz1 * wx1 * wy1].
(** The sums, left to right. *)
Definition wsum (ws xs : list R) : R :=
  match map (fun '(w, x) => w * x) (combine ws xs) with [] => 0 | t :: r => fold_left Rplus r t end.
Definition wsum3 (ws : list R) (xs : list vec) : vec :=
  match map (fun '(w, x) => vscale w x) (combine ws xs) with [] => vzero | t :: r => fold_left vadd r t end.

(** UStructMesh::interpolateCellData for double 1152-1182, int 1190-1221, darray3E 1228-1259. *)
Definition interpolateCellData (m : mesh) (point : vec) (data : list R) : option R :=
  match cell_stencils m point with None => None | Some st =>
  match reads (accessCellIndex m) st data with None => None | Some xs => Some (wsum (weights st) xs) end end.
Definition interpolateCellDataInt (m : mesh) (point : vec) (data : list Z) : option Z :=
  match cell_stencils m point with None => None | Some st =>
  match reads (accessCellIndex m) st data with None => None | Some xs => to_int (wsum (weights st) (map IZR xs) + 0.5) end end.
Definition interpolateCellData3 (m : mesh) (point : vec) (data : list vec) : option vec :=
  match cell_stencils m point with None => None | Some st =>
  match reads (accessCellIndex m) st data with None => None | Some xs => Some (wsum3 (weights st) xs) end end.
(** UStructMesh::interpolatePointData for double 1266-1300, int 1306-1341, darray3E 1348-1383. *)
Definition interpolatePointData (m : mesh) (point : vec) (data : list R) : option R :=
  match point_stencils m point with None => None | Some st =>
  match reads (accessPointIndex m) st data with None => None | Some xs => Some (wsum (weights st) xs) end end.
Definition interpolatePointDataInt (m : mesh) (point : vec) (data : list Z) : option Z :=
  match point_stencils m point with None => None | Some st =>
  match reads (accessPointIndex m) st data with None => None | Some xs => to_int (wsum (weights st) (map IZR xs) + 0.5) end end.
Definition interpolatePointData3 (m : mesh) (point : vec) (data : list vec) : option vec :=
  match point_stencils m point with None => None | Some st =>
  match reads (accessPointIndex m) st data with None => None | Some xs => Some (wsum3 (weights st) xs) end end.
