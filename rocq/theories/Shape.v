(** The elementary shapes of mimmo (src/core/BasicShapes.hpp, src/core/BasicShapes.cpp): cube,
    cylinder, sphere and wedge, their reference systems and coordinates, the point inclusion test
    and the selections of points and cells. Doubles are real numbers: rounding, infinities and NaN
    are not modelled, but an operation that would divide by zero in setRefSystem is a distinct
    outcome. *)
From Coq Require Import Reals List Arith ZArith Bool.
From Verif Require Import Vec.
Import ListNotations.
Open Scope R_scope.

(** enum class ShapeType, src/core/BasicShapes.hpp:38-43. *)
Inductive kind := CUBE | CYLINDER | SPHERE | WEDGE.
(** enum class CoordType, src/core/BasicShapes.hpp:49-55. *)
Inductive coordtype := UNCLAMPED | CLAMPED | PERIODIC | SYMMETRIC.

(** dmatrix33E: three rows. *)
Record mat := M3 { row0 : vec; row1 : vec; row2 : vec }.

(** BasicShape::transpose, src/core/BasicShapes.cpp:812-821. *)
Definition transpose (m : mat) : mat :=
  M3 (V3 (vx (row0 m)) (vx (row1 m)) (vx (row2 m)))
     (V3 (vy (row0 m)) (vy (row1 m)) (vy (row2 m)))
     (V3 (vz (row0 m)) (vz (row1 m)) (vz (row2 m))).

(** The variable det of BasicShape::inverse, src/core/BasicShapes.cpp:832-834. *)
Definition det (m : mat) : R :=
  vx (row0 m) * (vy (row1 m) * vz (row2 m) - vy (row2 m) * vz (row1 m)) -
  vy (row0 m) * (vx (row1 m) * vz (row2 m) - vx (row2 m) * vz (row1 m)) +
  vz (row0 m) * (vx (row1 m) * vy (row2 m) - vx (row2 m) * vy (row1 m)).

(** BasicShape::inverse, src/core/BasicShapes.cpp:829-847. *)
Definition inverse (m : mat) : mat :=
  let d := det m in
  M3 (V3 ((vy (row1 m) * vz (row2 m) - vy (row2 m) * vz (row1 m)) / d)
         ((vz (row0 m) * vy (row2 m) - vz (row2 m) * vy (row0 m)) / d)
         ((vy (row0 m) * vz (row1 m) - vy (row1 m) * vz (row0 m)) / d))
     (V3 ((vz (row1 m) * vx (row2 m) - vz (row2 m) * vx (row1 m)) / d)
         ((vx (row0 m) * vz (row2 m) - vx (row2 m) * vz (row0 m)) / d)
         ((vz (row0 m) * vx (row1 m) - vz (row1 m) * vx (row0 m)) / d))
     (V3 ((vx (row1 m) * vy (row2 m) - vx (row2 m) * vy (row1 m)) / d)
         ((vy (row0 m) * vx (row2 m) - vy (row2 m) * vx (row0 m)) / d)
         ((vx (row0 m) * vy (row1 m) - vx (row1 m) * vy (row0 m)) / d)).

(** BasicShape::matmul(vec, mat), src/core/BasicShapes.cpp:856-867: row vector times matrix. *)
Definition matmul_vm (v : vec) (m : mat) : vec :=
  V3 (0 + vx v * vx (row0 m) + vy v * vx (row1 m) + vz v * vx (row2 m))
     (0 + vx v * vy (row0 m) + vy v * vy (row1 m) + vz v * vy (row2 m))
     (0 + vx v * vz (row0 m) + vy v * vz (row1 m) + vz v * vz (row2 m)).
(** BasicShape::matmul(mat, vec), src/core/BasicShapes.cpp:875-886: matrix times column vector. *)
Definition matmul_mv (m : mat) (v : vec) : vec :=
  V3 (0 + vx v * vx (row0 m) + vy v * vy (row0 m) + vz v * vz (row0 m))
     (0 + vx v * vx (row1 m) + vy v * vy (row1 m) + vz v * vz (row1 m))
     (0 + vx v * vx (row2 m) + vy v * vy (row2 m) + vz v * vz (row2 m)).

(** The loops "out[i] = dotProduct(in, mat[i])" used by every toWorldCoord and toLocalCoord, e.g.
    src/core/BasicShapes.cpp:941-943. *)
Definition dots (v : vec) (m : mat) : vec := V3 (dot v (row0 m)) (dot v (row1 m)) (dot v (row2 m)).
(** The loops "out[i] = in[i]*m_scaling[i]" and "out[i] = in[i]/m_scaling[i]", e.g. 933-935, 971-973. *)
Definition cmul (a b : vec) : vec := V3 (vx a * vx b) (vy a * vy b) (vz a * vz b).
Definition cdiv (a b : vec) : vec := V3 (vx a / vx b) (vy a / vy b) (vz a / vz b).

(** Data of a shape, src/core/BasicShapes.hpp:94-102. The temporary m_bbox is a separate value. *)
Record shape := Sh {
  s_kind : kind; s_origin : vec; s_span : vec; s_inf : vec; s_sdr : mat; s_inv : mat;
  s_scaling : vec; s_ct0 : coordtype; s_ct1 : coordtype; s_ct2 : coordtype }.

Definition ident : mat := M3 (V3 1 0 0) (V3 0 1 0) (V3 0 0 1).

(** Constructors: BasicShape 91-102, Cube 894-897, Cylinder 1125-1129, Sphere 1387-1392,
    Wedge 1671-1674. *)
Definition new_shape (k : kind) : shape :=
  match k with
  | CUBE => Sh CUBE vzero (V3 1 1 1) vzero ident ident (V3 1 1 1) CLAMPED CLAMPED CLAMPED
  | CYLINDER => Sh CYLINDER vzero (V3 1 (2 * PI) 1) vzero ident ident (V3 1 1 1) CLAMPED PERIODIC CLAMPED
  | SPHERE => Sh SPHERE vzero (V3 1 (2 * PI) PI) vzero ident ident (V3 1 1 1) CLAMPED PERIODIC CLAMPED
  | WEDGE => Sh WEDGE vzero (V3 1 1 1) vzero ident ident (V3 1 1 1) CLAMPED CLAMPED CLAMPED
  end.

(** BasicShape::setOrigin, src/core/BasicShapes.cpp:130-132. *)
Definition setOrigin (s : shape) (o : vec) : shape :=
  Sh (s_kind s) o (s_span s) (s_inf s) (s_sdr s) (s_inv s) (s_scaling s) (s_ct0 s) (s_ct1 s) (s_ct2 s).

(** BasicShape::setCoordinateType, src/core/BasicShapes.cpp:275-277 (an index other than 0,1,2 is
    out of the array and not modelled: it changes nothing here). *)
Definition setCoordinateType (s : shape) (t : coordtype) (dir : Z) : shape :=
  Sh (s_kind s) (s_origin s) (s_span s) (s_inf s) (s_sdr s) (s_inv s) (s_scaling s)
     (if Z.eqb dir 0 then t else s_ct0 s) (if Z.eqb dir 1 then t else s_ct1 s) (if Z.eqb dir 2 then t else s_ct2 s).

(** checkSpan: Cube 1013-1017, Cylinder 1260-1269, Sphere 1532-1546, Wedge 1803-1807. The corrected
    span is returned, and the azimuthal coordinate becomes periodic when its span is the whole
    circle (8 atan 1 in the cylinder, 2 pi in the sphere). *)
Definition vabs (v : vec) : vec := V3 (Rabs (vx v)) (Rabs (vy v)) (Rabs (vz v)).
Definition checkSpan (s : shape) (sp : vec) : shape * vec :=
  let a := vabs sp in
  match s_kind s with
  | CUBE | WEDGE => (s, a)
  | CYLINDER =>
      let lim := 8 * atan 1 in
      let s1 := Rmin (vy a) lim in
      (if Rlt_dec s1 lim then s else setCoordinateType s PERIODIC 1, V3 (vx a) s1 (vz a))
  | SPHERE =>
      let lim := 2 * PI in
      let s1 := Rmin (vy a) lim in
      let s2 := Rmin (vz a) (0.5 * lim - vz (s_inf s)) in
      (if Rlt_dec s1 lim then s else setCoordinateType s PERIODIC 1, V3 (vx a) s1 s2)
  end.

(** setScaling: Cube 1040-1045, Cylinder 1302-1308, Sphere 1586-1593, Wedge 1830-1835. *)
Definition setScaling (s : shape) (sp : vec) : shape :=
  let mk span scal := Sh (s_kind s) (s_origin s) span (s_inf s) (s_sdr s) (s_inv s) scal (s_ct0 s) (s_ct1 s) (s_ct2 s) in
  match s_kind s with
  | CUBE | WEDGE => mk (V3 1 1 1) sp
  | CYLINDER => mk (V3 1 (vy sp) 1) (V3 (vx sp) 1 (vz sp))
  | SPHERE => mk (V3 1 (vy sp) (vz sp)) (V3 (vx sp) 1 1)
  end.

(** BasicShape::setSpan, src/core/BasicShapes.cpp:140-152. *)
Definition setSpan (s : shape) (sp : vec) : shape := let '(s', sp') := checkSpan s sp in setScaling s' sp'.
(** BasicShape::getSpan, src/core/BasicShapes.cpp:290-297. *)
Definition getSpan (s : shape) : vec := cmul (s_scaling s) (s_span s).

(** checkInfLimits: Cube 1026-1032, Cylinder 1278-1294, Sphere 1556-1578, Wedge 1816-1822.
    None: the value is not accepted. *)
Definition checkInfLimits (k : kind) (o : R) (dir : Z) : option R :=
  match k with
  | CUBE | WEDGE => None
  | CYLINDER => if Z.eqb dir 0 then Some (Rmax 0 o) else if Z.eqb dir 1 then Some (Rmin (2 * PI) (Rmax 0 o)) else None
  | SPHERE => if Z.eqb dir 0 then Some (Rmax 0 o) else if Z.eqb dir 1 then Some (Rmin (2 * PI) (Rmax 0 o))
              else if Z.eqb dir 2 then Some (Rmin ((0.5 - / 10 ^ 12) * (2 * PI)) (Rmax 0 o)) else None
  end.
(** BasicShape::setInfLimits(orig, dir), src/core/BasicShapes.cpp:163-172. *)
Definition setInfLimits (s : shape) (o : R) (dir : Z) : shape :=
  if (Z.ltb dir 0 || Z.ltb 2 dir)%bool then s else
  let span := getSpan s in
  match checkInfLimits (s_kind s) o dir with
  | None => s
  | Some v =>
      let inf := V3 (if Z.eqb dir 0 then v else vx (s_inf s)) (if Z.eqb dir 1 then v else vy (s_inf s))
                    (if Z.eqb dir 2 then v else vz (s_inf s)) in
      setSpan (Sh (s_kind s) (s_origin s) (s_span s) inf (s_sdr s) (s_inv s) (s_scaling s) (s_ct0 s) (s_ct1 s) (s_ct2 s)) span
  end.
(** BasicShape::setInfLimits(val), src/core/BasicShapes.cpp:182-186. *)
Definition setInfLimits3 (s : shape) (v : vec) : shape :=
  setInfLimits (setInfLimits (setInfLimits s (vx v) 0) (vy v) 1) (vz v) 2.

(** Outcome of setRefSystem: frame changed, call rejected (the object is unchanged; with assertions
    enabled the program stops), or a division by zero, which leaves NaN in the frame. *)
Inductive refout := Changed (s : shape) | Rejected | Nan.
Definition with_frame (s : shape) (m : mat) : shape :=
  Sh (s_kind s) (s_origin s) (s_span s) (s_inf s) m (inverse m) (s_scaling s) (s_ct0 s) (s_ct1 s) (s_ct2 s).
Definition vdivs (v : vec) (k : R) : vec := V3 (vx v / k) (vy v / k) (vz v / k).

(** BasicShape::setRefSystem(axis0, axis1, axis2), src/core/BasicShapes.cpp:196-225. The division by
    zero of inverse() is shown impossible (ShapeProofs, within_invertible), so it is not an outcome here. *)
Definition setRefSystem (s : shape) (a0 a1 a2 : vec) : refout :=
  let a := norm a0 in let b := norm a1 in let c := norm a2 in
  if Rlt_dec 0 a then if Rlt_dec 0 b then if Rlt_dec 0 c then
    let x0 := vdivs a0 a in let x1 := vdivs a1 b in let x2 := vdivs a2 c in
    let val := Rabs (dot x0 x1) + Rabs (dot x1 x2) + Rabs (dot x0 x2) in
    if Rlt_dec (/ 1000) val then Rejected else Changed (with_frame s (M3 x0 x1 x2))
  else Rejected else Rejected else Rejected.

(** m_sdr[i] read and written with an index in 0,1,2. *)
Definition mrow (m : mat) (i : nat) : vec := match i with O => row0 m | S O => row1 m | _ => row2 m end.
Definition set_mrow (m : mat) (i : nat) (v : vec) : mat :=
  match i with O => M3 v (row1 m) (row2 m) | S O => M3 (row0 m) v (row2 m) | _ => M3 (row0 m) (row1 m) v end.

(** BasicShape::setRefSystem(label, axis), src/core/BasicShapes.cpp:232-260. *)
Definition setRefSystem1 (s : shape) (label : Z) (axis : vec) : refout :=
  if (Z.ltb label 0 || Z.ltb 2 label)%bool then Rejected else
  let a := norm axis in
  if Rlt_dec 0 a then
    let l := Z.to_nat label in
    let m1 := set_mrow (s_sdr s) l (vdivs axis a) in
    let next_label := Nat.modulo (l + 1) 3 in
    let fin_label := Nat.modulo (l + 2) 3 in
    let pj := dot (mrow ident next_label) (mrow m1 l) in
    let w := vsub (mrow ident next_label) (vscale pj (mrow m1 l)) in
    if Req_EM_T (norm w) 0 then Nan else
    let m2 := set_mrow m1 next_label (vdivs w (norm w)) in
    let u := cross (mrow m2 l) (mrow m2 next_label) in
    if Req_EM_T (norm u) 0 then Nan else
    let m3 := set_mrow m2 fin_label (vdivs u (norm u)) in
    Changed (with_frame s m3)
  else Rejected.

(** getLocalOrigin: Cube 982-984, Cylinder 1223-1225, Sphere 1493-1495, Wedge 1772-1774. *)
Definition getLocalOrigin (s : shape) : vec :=
  match s_kind s with
  | CUBE => V3 (- (/ 2)) (- (/ 2)) (- (/ 2))
  | CYLINDER => V3 0 0 (- (/ 2))
  | SPHERE => V3 0 0 0
  | WEDGE => V3 0 0 (- (/ 2))
  end.

(** basicToLocal: Cube 992-994, Cylinder 1233-1238, Sphere 1503-1509, Wedge 1782-1784. *)
Definition basicToLocal (s : shape) (p : vec) : vec :=
  match s_kind s with
  | CUBE | WEDGE => vadd p (getLocalOrigin s)
  | CYLINDER => vadd (V3 (vx p) (vy p * vy (s_span s)) (vz p)) (getLocalOrigin s)
  | SPHERE => vadd (V3 (vx p) (vy p * vy (s_span s)) (vz p * vz (s_span s))) (getLocalOrigin s)
  end.
(** localToBasic: Cube 1002-1004, Cylinder 1246-1251, Sphere 1517-1523, Wedge 1792-1794. *)
Definition localToBasic (s : shape) (p : vec) : vec :=
  match s_kind s with
  | CUBE | WEDGE => vsub p (getLocalOrigin s)
  | CYLINDER => let r := vadd p (vscale (-1) (getLocalOrigin s)) in V3 (vx r) (vy r / vy (s_span s)) (vz r)
  | SPHERE => let r := vadd p (vscale (-1) (getLocalOrigin s)) in
              V3 (vx r) (vy r / vy (s_span s)) (vz r / vz (s_span s))
  end.

(** std::atan2 of <cmath> on real numbers, principal value in (-pi, pi] (negative zero, for which
    the result is -pi, does not exist in the model). *)
Definition atan2 (y x : R) : R :=
  if Rlt_dec 0 x then atan (y / x)
  else if Rlt_dec x 0 then (if Rle_dec 0 y then atan (y / x) + PI else atan (y / x) - PI)
  else if Rlt_dec 0 y then PI / 2 else if Rlt_dec y 0 then - (PI / 2) else 0.
(** getSign, src/common/customOperators.hpp:140-145. *)
Definition getSign (t : R) : R := if Rlt_dec t 0 then -1 * 1 else 1.
(** Lines 1200-1201 and 1468-1469: the angle in [0, 2 pi) of a point. *)
Definition angle (y x : R) : R := let p := atan2 y x in p - (getSign p - 1) * PI.
(** Lines 1205-1207 and 1473-1475: the angle from the mark m_infLimits[1]. *)
Definition from_mark (t m : R) : R :=
  let param := 2 * PI in
  let w1 := t - m in
  let w2 := if Rlt_dec w1 0 then param + w1 else w1 in
  if Rlt_dec param w2 then w2 - param else w2.

(** std::numeric_limits<double>::max(). *)
Definition dbl_max : R := (2 - / 2 ^ 52) * 2 ^ 1023.

(** toWorldCoord: Cube 928-947, Cylinder 1157-1177, Sphere 1421-1442, Wedge 1705-1728. *)
Definition toWorldCoord (s : shape) (p : vec) : vec :=
  match s_kind s with
  | CUBE =>
      let work := cmul p (s_scaling s) in
      vadd (dots work (s_inv s)) (s_origin s)
  | CYLINDER =>
      let work := cmul p (s_scaling s) in
      let work2 := V3 ((vx work + vx (s_inf s)) * cos (vy work + vy (s_inf s)))
                      ((vx work + vx (s_inf s)) * sin (vy work + vy (s_inf s))) (vz work) in
      vadd (dots work2 (s_inv s)) (s_origin s)
  | SPHERE =>
      let work := cmul p (s_scaling s) in
      let work2 := V3 ((vx work + vx (s_inf s)) * cos (vy work + vy (s_inf s)) * sin (vz work + vz (s_inf s)))
                      ((vx work + vx (s_inf s)) * sin (vy work + vy (s_inf s)) * sin (vz work + vz (s_inf s)))
                      ((vx work + vx (s_inf s)) * cos (vz work + vz (s_inf s))) in
      vadd (dots work2 (s_inv s)) (s_origin s)
  | WEDGE =>
      let work2 := V3 (vx p) (vy p * (1 - vx p)) (vz p) in
      let work := cmul work2 (s_scaling s) in
      vadd (dots work (s_inv s)) (s_origin s)
  end.

(** toLocalCoord: Cube 955-977, Cylinder 1185-1218, Sphere 1450-1488, Wedge 1736-1767. In the sphere
    work keeps the components of point - m_origin when its norm is not positive. *)
Definition toLocalCoord (s : shape) (p : vec) : vec :=
  let work := vsub p (s_origin s) in
  let work2 := dots work (s_sdr s) in
  match s_kind s with
  | CUBE => cdiv work2 (s_scaling s)
  | CYLINDER =>
      let '(r, t) := if Req_EM_T (vx work2) 0 then
                       if Req_EM_T (vy work2) 0 then (0, 0)
                       else (sqrt (vx work2 * vx work2 + vy work2 * vy work2), angle (vy work2) (vx work2))
                     else (sqrt (vx work2 * vx work2 + vy work2 * vy work2), angle (vy work2) (vx work2)) in
      cdiv (V3 (r - vx (s_inf s)) (from_mark t (vy (s_inf s))) (vz work2)) (s_scaling s)
  | SPHERE =>
      let r := norm work2 in
      let '(t, f) :=
        if Rlt_dec 0 r then
          let t0 := if Req_EM_T (vx work2) 0 then
                      if Req_EM_T (vy work2) 0 then 0 else angle (vy work2) (vx work2)
                    else angle (vy work2) (vx work2) in
          (from_mark t0 (vy (s_inf s)), acos (vz work2 / r) - vz (s_inf s))
        else (vy work, vz work) in
      cdiv (V3 (r - vx (s_inf s)) t f) (s_scaling s)
  | WEDGE =>
      let w := cdiv work2 (s_scaling s) in
      V3 (vx w)
         (if Rlt_dec 0 (Rabs (1 - vx w)) then vy w / (1 - vx w)
          else if Rlt_dec 0 (Rabs (vy w)) then dbl_max else 0)
         (vz w)
  end.

(** BasicShape::isPointIncluded(point), src/core/BasicShapes.cpp:634-645. *)
Definition tol : R := / 10 ^ 12.
Definition in_range (x : R) : bool :=
  if Rlt_dec (-1 * tol) x then if Rlt_dec x (1 + tol) then true else false else false.
Definition isPointIncluded (s : shape) (p : vec) : bool :=
  let b := localToBasic s (toLocalCoord s p) in
  in_range (vx b) && in_range (vy b) && in_range (vz b).
(** BasicShape::isSimplexIncluded(vertices), src/core/BasicShapes.cpp:604-611. *)
Definition isSimplexIncluded (s : shape) (vs : list vec) : bool :=
  fold_left (fun check v => check && isPointIncluded s v) vs true.
