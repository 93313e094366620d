(** AABBox (src/utils/AABBox.cpp) and OBBox (src/utils/OBBox.cpp): boxes around geometries.  Doubles are
    real numbers.  What the processes hold is a list; the reductions of MPI are folds over it.  The
    eigenvectors of a matrix (LAPACKE_dsyev) are a function.  Files, XML and plots are not modelled. *)
From Coq Require Import Reals List Arith ZArith Bool.
From Verif Require Import Vec Shape Specular.
Import ListNotations.
Open Scope R_scope.

(** a geometry: a cloud or a curve (types 3 and 4) or a surface; its points; the three points that stand for
    each of its cells (get3RepPoints, OBBox.cpp 930-974; the choice among the vertices of polygons is not modelled) *)
Record geo := Geo { g_cloud : bool; g_points : list vec; g_tris : list (vec * vec * vec) }.
(** the geometries of each process *)
Definition world := list (list geo).

(** std::numeric_limits<double>::max() *)
Definition dmax : R := (2 - / 2 ^ 52) * 2 ^ 1023.

(** ** The box along given axes, AABBox.cpp 295-330 and OBBox.cpp 438-476 (the two texts are equal, but for the
    points read: all those of the process, or the internal ones) *)
(** the loop over the points of a process and the reduction *)
Definition local_min (f : vec -> R) (gs : list geo) : R := fold_left (fun m g => fold_left (fun m x => Rmin m (f x)) (g_points g) m) gs dmax.
Definition local_max (f : vec -> R) (gs : list geo) : R := fold_left (fun m g => fold_left (fun m x => Rmax m (f x)) (g_points g) m) gs (-1 * dmax).
Definition least (f : vec -> R) (w : world) : R := fold_left (fun m gs => Rmin m (local_min f gs)) w dmax.
Definition greatest (f : vec -> R) (w : world) : R := fold_left (fun m gs => Rmax m (local_max f gs)) w (-1 * dmax).
(** a span too small is enlarged *)
Definition widen (s : vec) : vec :=
  let avg := (vx s + vy s + vz s) / 3 in V3 (Rmax (vx s) (/ 10 ^ 4 * avg)) (Rmax (vy s) (/ 10 ^ 4 * avg)) (Rmax (vz s) (/ 10 ^ 4 * avg)).
Record box := Box { b_origin : vec; b_span : vec; b_axes : mat }.
Definition along (m : mat) (w : world) : vec * vec :=
  (V3 (least (fun x => dot x (row0 m)) w) (least (fun x => dot x (row1 m)) w) (least (fun x => dot x (row2 m)) w),
   V3 (greatest (fun x => dot x (row0 m)) w) (greatest (fun x => dot x (row1 m)) w) (greatest (fun x => dot x (row2 m)) w)).
(** None: axes without an inverse, values that are not numbers *)
Definition box_along (m : mat) (w : world) : option box :=
  if Req_EM_T (det m) 0 then None
  else let (lo, hi) := along m w in
       Some (Box (dots (vscale (/ 2) (vadd lo hi)) (inverse m)) (widen (vsub hi lo)) m).

(** ** AABBox::execute, 269-330: the axes given by the user, the third computed *)
Definition user_axes (m : mat) : mat :=
  let n0 := norm (row0 m) in
  let n1 := norm (row1 m) in
  let '(a, b) := if Rlt_dec dmin n0 then (if Rlt_dec dmin n1 then (vscale (/ n0) (row0 m), vscale (/ n1) (row1 m)) else (V3 0 0 1, V3 0 1 0)) else (V3 0 0 1, V3 0 1 0) in
  M3 a b (cross a b).
Definition canonical : mat := M3 (V3 1 0 0) (V3 0 1 0) (V3 0 0 1).
(** the state is the box with its axes; setAxes, 203-206 *)
Definition aabb_new : box := Box vzero (V3 1 1 1) canonical.
Definition setAxes (m : mat) (b : box) : box := Box (b_origin b) (b_span b) m.
Definition no_geometry (w : world) : bool := forallb (fun gs => match gs with [] => true | _ => false end) w.
Definition aabb_execute (b : box) (w : world) : option box :=
  if no_geometry w then Some (Box vzero vzero (b_axes b)) else box_along (user_axes (b_axes b)) w.

(** ** OBBox *)
(** computeAABB, 486-529 *)
Definition computeAABB (w : world) : box :=
  let lo := V3 (least vx w) (least vy w) (least vz w) in
  let hi := V3 (greatest vx w) (greatest vy w) (greatest vz w) in
  Box (vscale (/ 2) (vadd lo hi)) (widen (vsub hi lo)) canonical.
(** evaluatePointsCovarianceMatrix, 616-684.  The matrix loc is not initialised ([junk], for each process) and
    is not emptied from a geometry to the next. *)
Definition coord (i : nat) (x : vec) : R := match i with 0%nat => vx x | 1%nat => vy x | _ => vz x end.
Definition sum_over (f : vec -> R) (w : world) : R :=
  fold_left (fun s gs => s + fold_left (fun s g => fold_left (fun s x => s + f x) (g_points g) s) gs 0) w 0.
Definition count (w : world) : R := INR (length (flat_map (flat_map g_points) w)).
Definition mass_center (w : world) (i : nat) : R := sum_over (coord i) w / count w.
Definition local_cov (c : vec -> R) (junk : R) (gs : list geo) : R :=
  snd (fold_left (fun st g => let loc := fold_left (fun s x => s + c x) (g_points g) (fst st) in (loc, snd st + loc)) gs (junk, 0)).
Definition point_cov (junk : R) (w : world) (j k : nat) : R :=
  let c := fun x => (coord j x - mass_center w j) * (coord k x - mass_center w k) in
  fold_left (fun s gs => s + local_cov c junk gs) w 0 / count w.
Definition sym (f : nat -> nat -> R) : mat := M3 (V3 (f 0%nat 0%nat) (f 0%nat 1%nat) (f 0%nat 2%nat)) (V3 (f 0%nat 1%nat) (f 1%nat 1%nat) (f 1%nat 2%nat)) (V3 (f 0%nat 2%nat) (f 1%nat 2%nat) (f 2%nat 2%nat)).
(** evaluateElementsCovarianceMatrix, 695-771 *)
Definition tri_area (t : vec * vec * vec) : R := let '(p, q, r) := t in / 2 * norm (cross (vsub q p) (vsub r p)).
Definition tri_mid (t : vec * vec * vec) (i : nat) : R := let '(p, q, r) := t in (coord i p + coord i q + coord i r) / 3.
Definition tri_moment (j k : nat) (t : vec * vec * vec) : R :=
  let '(p, q, r) := t in tri_area t * (9 * tri_mid t j * tri_mid t k + coord j p * coord k p + coord j q * coord k q + coord j r * coord k r) / 12.
Definition tri_sum (f : vec * vec * vec -> R) (w : world) : R :=
  fold_left (fun s gs => s + fold_left (fun s g => fold_left (fun s t => s + f t) (g_tris g) s) gs 0) w 0.
Definition tri_cov (w : world) (j k : nat) : R :=
  let a := tri_sum tri_area w in
  tri_sum (tri_moment j k) w / a - tri_sum (fun t => tri_area t * tri_mid t j) w / a * (tri_sum (fun t => tri_area t * tri_mid t k) w / a).
(** eigenVectors, 780-817: LAPACKE_dsyev gives the eigenvalues in ascending order and the eigenvectors, here
    the rows; the first and the third are swapped (the division by the norm of unit vectors is left out) *)
Section Oriented.
  Variable dsyev : mat -> mat * vec.
  Definition eigenVectors (m : mat) : mat * vec :=
    let (e, l) := dsyev m in (M3 (row2 e) (row1 e) (row0 e), V3 (vz l) (vy l) (vx l)).
  (** adjustBasis, 828-877 *)
  Definition right_hand (e : mat) : mat := if Rlt_dec (dot (row2 e) (cross (row0 e) (row1 e))) 0 then M3 (row0 e) (row1 e) (vscale (-1) (row2 e)) else e.
  Definition unit_if (v : vec) : vec := if Rlt_dec dmin (norm v) then vscale (/ norm v) v else v.
  Definition near (a b : R) : bool := if Rle_dec (Rabs (a - b)) dmin then true else false.
  Definition adjustBasis (e : mat) (l : vec) : mat :=
    let d0 := near (vy l) (vx l) in let d1 := near (vz l) (vy l) in let d2 := near (vx l) (vz l) in
    if d0 && d1 && d2 then canonical
    else if negb d0 && negb d1 && negb d2 then right_hand e
    else if d1 then right_hand (M3 (row0 e) (row1 e) (unit_if (cross (row0 e) (row1 e))))
    else right_hand (M3 (row0 e) (unit_if (cross (row2 e) (row0 e))) (row2 e)).
  (** computeOBB, 415-477.  None: without points, or with a null area, values that are not numbers *)
  Definition covariance (junk : R) (w : world) : option mat :=
    if existsb (existsb g_cloud) w then (if Req_EM_T (count w) 0 then None else Some (sym (point_cov junk w)))
    else (if Req_EM_T (tri_sum tri_area w) 0 then None else Some (sym (tri_cov w))).
  Definition computeOBB (junk : R) (w : world) : option box :=
    match covariance junk w with
    | None => None
    | Some c => let (e, l) := eigenVectors c in box_along (adjustBasis e l) w
    end.
  (** execute, 328-377 *)
  Inductive strategy := OBB | AABB | MINVOL.
  (** setOBBStrategyInt, 250-254 *)
  Definition setOBBStrategyInt (z : Z) : strategy := match Z.min 2 (Z.max z 0) with 0%Z => OBB | 1%Z => AABB | _ => MINVOL end.
  Definition volume (b : box) : R := vx (b_span b) * vy (b_span b) * vz (b_span b).
  Definition obb_execute (s : strategy) (junk : R) (w : world) : option box :=
    if no_geometry w then Some (Box vzero vzero canonical)
    else match s with
         | OBB => computeOBB junk w
         | AABB => Some (computeAABB w)
         | MINVOL =>
           match computeOBB junk w with
           | None => None
           | Some b => if Rlt_dec (volume b) (volume (computeAABB w)) then Some b else Some (computeAABB w)
           end
         end.
End Oriented.
