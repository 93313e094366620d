(** Selection of points and cells with a shape (src/core/BasicShapes.cpp:348-804, 1047-1116,
    1311-1377, 1595-1663, 1837-1917): one by one, and with the search trees of bitpit. *)
From Coq Require Import Reals List Arith ZArith Bool.
From Verif Require Import Vec Shape.
Import ListNotations.
Open Scope R_scope.

(** A tessellation: vertices with coordinates, cells with their vertices, both in storage order.
    Every vertex of a cell exists (invariant of bitpit::PatchKernel), so the coordinates of a
    missing one are not meaningful. *)
Record patch := Patch { p_verts : list (nat * vec); p_cells : list (nat * list nat) }.
Fixpoint coords (l : list (nat * vec)) (i : nat) : vec :=
  match l with [] => vzero | (j, v) :: r => if Nat.eqb i j then v else coords r i end.
Fixpoint vertices_of (l : list (nat * list nat)) (c : nat) : list nat :=
  match l with [] => [] | (d, vs) :: r => if Nat.eqb c d then vs else vertices_of r c end.

(** BasicShape::isSimplexIncluded(tri, indexT), src/core/BasicShapes.cpp:618-628. *)
Definition cellIncluded (s : shape) (g : patch) (c : nat) : bool :=
  fold_left (fun check v => check && isPointIncluded s (coords (p_verts g) v)) (vertices_of (p_cells g) c) true.

(** BasicShape::includeGeometry(tri) 408-424 and excludeGeometry(tri) 432-448. The array is as long
    as the cells and is cut to the number of matches. *)
Definition includeGeometryPatch (s : shape) (g : patch) : list nat :=
  filter (fun c => cellIncluded s g c) (map fst (p_cells g)).
Definition excludeGeometryPatch (s : shape) (g : patch) : list nat :=
  filter (fun c => negb (cellIncluded s g c)) (map fst (p_cells g)).

(** BasicShape::includeCloudPoints(list) 456-471 and excludeCloudPoints(list) 479-494: positions of
    the points in the list. *)
Fixpoint cloud (s : shape) (keep : bool) (l : list vec) (real : nat) : list nat :=
  match l with
  | [] => []
  | v :: r => if Bool.eqb (isPointIncluded s v) keep then real :: cloud s keep r (S real) else cloud s keep r (S real)
  end.
Definition includeCloudList (s : shape) (l : list vec) : list nat := cloud s true l 0.
Definition excludeCloudList (s : shape) (l : list vec) : list nat := cloud s false l 0.

(** BasicShape::includeCloudPoints(tri) 502-517 and excludeCloudPoints(tri) 525-541. *)
Definition includeCloudPatch (s : shape) (g : patch) : list nat :=
  map fst (filter (fun '(_, v) => isPointIncluded s v) (p_verts g)).
Definition excludeCloudPatch (s : shape) (g : patch) : list nat :=
  map fst (filter (fun '(_, v) => negb (isPointIncluded s v)) (p_verts g)).

(** The eight points of the intersectShapeAABBox methods, e.g. 1087-1090. *)
Definition corners (b t : vec) : list vec :=
  [V3 (vx b) (vy b) (vz b); V3 (vx t) (vy b) (vz b); V3 (vx t) (vy t) (vz b); V3 (vx b) (vy t) (vz b);
   V3 (vx b) (vy b) (vz t); V3 (vx t) (vy b) (vz t); V3 (vx t) (vy t) (vz t); V3 (vx b) (vy t) (vz t)].

(** The loops over the eight points that compute tmin and tmax. In the cube and the wedge they start
    from the first point, in the others from 1e18 and -1e18; "if(t<tmin) .. else if(t>tmax) .." is
    the same as taking both the minimum and the maximum. *)
Definition lmin (start : R) (l : list R) : R := fold_left Rmin l start.
Definition lmax (start : R) (l : list R) : R := fold_left Rmax l start.
Definition big : R := 10 ^ 18.

(** Cube::intersectShapeAABBox, src/core/BasicShapes.cpp:1085-1116. *)
Definition overlap_axis (s : shape) (pts : list vec) (axis : vec) (half : R) : bool :=
  let ts := map (fun v => dot v axis) pts in
  let tmin := lmin (hd 0 ts) (tl ts) in
  let tmax := lmax (hd 0 ts) (tl ts) in
  if Rlt_dec half tmin then false else if Rlt_dec tmax (- half) then false else true.
Definition cubeAABB (s : shape) (b t : vec) : bool :=
  let pts := map (fun v => vadd v (vscale (-1) (s_origin s))) (corners b t) in
  overlap_axis s pts (row0 (s_sdr s)) (0.5 * vx (s_scaling s)) &&
  overlap_axis s pts (row1 (s_sdr s)) (0.5 * vy (s_scaling s)) &&
  overlap_axis s pts (row2 (s_sdr s)) (0.5 * vz (s_scaling s)).

(** Cylinder::intersectShapeAABBox 1352-1377 and Sphere::intersectShapeAABBox 1635-1663. *)
Definition roundAABB (s : shape) (b t : vec) : bool :=
  let pts := map (fun v => localToBasic s (toLocalCoord s v)) (corners b t) in
  let hi f := lmax (- big) (map f pts) in
  let lo f := lmin big (map f pts) in
  if Rlt_dec (hi vx) 0 then false
  else if Rlt_dec 1 (lo vy) then false else if Rlt_dec (hi vy) 0 then false
  else if Rlt_dec 1 (lo vz) then false else if Rlt_dec (hi vz) 0 then false
  else true.

(** BasicShape::checkNearestPointToAABBox, src/core/BasicShapes.cpp:666-675. *)
Definition nearest (p b t : vec) : vec :=
  V3 (Rmin (vx t) (Rmax (vx p) (vx b))) (Rmin (vy t) (Rmax (vy p) (vy b))) (Rmin (vz t) (Rmax (vz p) (vz b))).

(** Wedge::intersectShapeAABBox, src/core/BasicShapes.cpp:1875-1917. *)
Definition wedgeAABB (s : shape) (b t : vec) : bool :=
  let axis := row2 (s_sdr s) in
  let pts := map (fun v => vadd v (vscale (-1) (s_origin s))) (corners b t) in
  let ts := map (fun v => dot v axis) pts in
  let proj := map (fun v => vadd v (vscale (-1 * dot v axis) axis)) pts in
  let tmin := lmin (hd 0 ts) (tl ts) in
  let tmax := lmax (hd 0 ts) (tl ts) in
  if Rlt_dec (0.5 * vz (s_scaling s)) tmin then false
  else if Rlt_dec tmax (-0.5 * vz (s_scaling s)) then false
  else
    let lo f := lmin (f (hd vzero proj)) (map f (tl proj)) in
    let hi f := lmax (f (hd vzero proj)) (map f (tl proj)) in
    let b2 := V3 (lo vx) (lo vy) (lo vz) in
    let t2 := V3 (hi vx) (hi vy) (hi vz) in
    isPointIncluded s (vadd (nearest vzero b2 t2) (s_origin s)).

Definition intersectShapeAABBox (s : shape) (b t : vec) : bool :=
  match s_kind s with
  | CUBE => cubeAABB s b t
  | CYLINDER | SPHERE => roundAABB s b t
  | WEDGE => wedgeAABB s b t
  end.

(** The tree of boxes of bitpit (PatchSkdTree): box, cells (read at the leaves only) and children. *)
Inductive skd := NoChild | SNode (bmin bmax : vec) (cells : list nat) (l r : skd).
(** BasicShape::searchBvTreeMatches, first loop, src/core/BasicShapes.cpp:741-767. The stack is last
    in first out, and the right child is pushed last: the visit is the recursive one with the right
    child first. The second loop (771-779) keeps the included cells of the candidate leaves. *)
Fixpoint skd_candidates (s : shape) (n : skd) : list nat :=
  match n with
  | NoChild => []
  | SNode b t cs l r =>
      if intersectShapeAABBox s b t then
        match l, r with
        | NoChild, NoChild => cs
        | _, _ => skd_candidates s r ++ skd_candidates s l
        end
      else []
  end.
Definition searchBvTreeMatches (s : shape) (g : patch) (n : skd) : list nat :=
  filter (fun c => cellIncluded s g c) (skd_candidates s n).

(** A geometry seen by the selections: its tessellation and its trees, rebuilt when not in sync. *)
Inductive kd := KNil | KNode (p : vec) (label : nat) (l r : kd).
Record geo := Geo { ge_patch : patch; ge_skd_ok : bool; ge_skd : skd; ge_kd : kd }.

(** BasicShape::includeGeometry(geo), src/core/BasicShapes.cpp:355-366. None is a null pointer. *)
Definition includeGeometry (s : shape) (og : option geo) : list nat :=
  match og with
  | None => []
  | Some g => if ge_skd_ok g then searchBvTreeMatches s (ge_patch g) (ge_skd g) else []
  end.

(** The outcome of the sorted differences at 385-399 and 583-597: the result, an array of negative
    size (std::vector throws), or a write beyond the end of the array. *)
Inductive selout := Sel (l : list nat) | BadSize | Overrun.

Fixpoint insert_sorted (x : nat) (l : list nat) : list nat :=
  match l with [] => [x] | y :: r => if Nat.leb x y then x :: l else y :: insert_sorted x r end.
Definition sort (l : list nat) : list nat := fold_right insert_sorted [] l.

(** The loop 389-398 with the array of size n: values already written, remaining space. *)
Fixpoint diff_loop (n : nat) (originals internals : list nat) : selout :=
  match originals with
  | [] => Sel (repeat 0%nat n)
  | o :: r =>
      match internals with
      | i :: ir => if Nat.eqb o i then diff_loop n r ir
                   else match n with
                        | O => Overrun
                        | S n' => match diff_loop n' r internals with Sel l => Sel (o :: l) | x => x end
                        end
      | [] => match n with
              | O => Overrun
              | S n' => match diff_loop n' r internals with Sel l => Sel (o :: l) | x => x end
              end
      end
  end.
Definition difference (originals internals : list nat) : selout :=
  if Nat.ltb (length originals) (length internals) then BadSize
  else diff_loop (length originals - length internals) (sort originals) (sort internals).

(** BasicShape::excludeGeometry(geo), src/core/BasicShapes.cpp:376-400. *)
Definition excludeGeometry (s : shape) (og : option geo) : selout :=
  match og with
  | None => Sel []
  | Some g => difference (map fst (p_cells (ge_patch g))) (includeGeometry s og)
  end.

(** getTempBBox: Cube 1051-1075, Cylinder 1315-1342, Sphere 1599-1627, Wedge 1841-1865. The points
    of the unit cube whose images are enclosed. *)
Definition cube_samples : list vec :=
  [V3 0 0 0; V3 1 1 1; V3 1 1 0; V3 0 0 1; V3 1 0 0; V3 0 1 1; V3 0 1 0; V3 1 0 1].
Definition samples (s : shape) : list vec :=
  match s_kind s with
  | CUBE | WEDGE => cube_samples
  | CYLINDER =>
      flat_map (fun i => flat_map (fun j => map (fun k => V3 (INR i * 1) (INR j * 0.25) (INR k * 1)) (seq 0 2)) (seq 0 5)) (seq 0 2)
  | SPHERE =>
      flat_map (fun i => flat_map (fun j => map (fun k => V3 (INR i * 1) (INR j * 0.25) (INR k * 0.5)) (seq 0 3)) (seq 0 5)) (seq 0 2)
  end.
Definition bbox (s : shape) : vec * vec :=
  let pts := map (fun b => toWorldCoord s (basicToLocal s b)) (samples s) in
  (V3 (lmin big (map vx pts)) (lmin big (map vy pts)) (lmin big (map vz pts)),
   V3 (lmax (- big) (map vx pts)) (lmax (- big) (map vy pts)) (lmax (- big) (map vz pts))).

(** BasicShape::intersectShapePlane, src/core/BasicShapes.cpp:798-804: 1 if the box is on the right,
    0 on the left, 2 across. *)
Definition level_coord (level : nat) (v : vec) : R :=
  match Nat.modulo level 3 with O => vx v | S O => vy v | _ => vz v end.
Definition intersectShapePlane (bb : vec * vec) (level : nat) (p : vec) : nat :=
  if Rlt_dec (level_coord level p) (level_coord level (fst bb)) then 1
  else if Rlt_dec (level_coord level (snd bb)) (level_coord level p) then 0 else 2.
(** bitpit::CGElem::intersectPointBox, without its distance tolerance. *)
Definition in_box (p b t : vec) : bool :=
  if Rle_dec (vx b) (vx p) then if Rle_dec (vx p) (vx t) then
  if Rle_dec (vy b) (vy p) then if Rle_dec (vy p) (vy t) then
  if Rle_dec (vz b) (vz p) then if Rle_dec (vz p) (vz t) then true
  else false else false else false else false else false else false.
(** BasicShape::searchKdTreeMatches, src/core/BasicShapes.cpp:685-722: last in first out stack, right
    child pushed last. *)
Fixpoint kd_candidates (bb : vec * vec) (n : kd) (level : nat) : list (nat * vec) :=
  match n with
  | KNil => []
  | KNode p label l r =>
      let check := intersectShapePlane bb level p in
      (if in_box p (fst bb) (snd bb) then [(label, p)] else []) ++
      (if Nat.ltb 0 check then kd_candidates bb r (S level) else []) ++
      (if Nat.eqb (Nat.modulo check 2) 0 then kd_candidates bb l (S level) else [])
  end.
Definition searchKdTreeMatches (s : shape) (n : kd) : list nat :=
  map fst (filter (fun '(_, v) => isPointIncluded s v) (kd_candidates (bbox s) n 0)).

(** MimmoObject::isEmpty, src/core/MimmoObject.cpp:987-993, used at 553 and 575: no vertices or no cells. *)
Definition is_empty (g : geo) : bool :=
  match p_verts (ge_patch g), p_cells (ge_patch g) with [], _ => true | _, [] => true | _, _ => false end.
(** BasicShape::includeCloudPoints(geo), src/core/BasicShapes.cpp:551-564. *)
Definition includeCloudPoints (s : shape) (og : option geo) : list nat :=
  match og with
  | None => []
  | Some g => if is_empty g then [] else searchKdTreeMatches s (ge_kd g)
  end.
(** BasicShape::excludeCloudPoints(geo), src/core/BasicShapes.cpp:572-598: the originals are the cells. *)
Definition excludeCloudPoints (s : shape) (og : option geo) : selout :=
  match og with
  | None => Sel []
  | Some g => if is_empty g then Sel []
              else difference (map fst (p_cells (ge_patch g))) (includeCloudPoints s og)
  end.
