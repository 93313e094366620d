(** Model of the tests of a point against a cell (src/core/MimmoCGUtils.cpp 41-120, and
    src/core/SkdTreeUtils.cpp, locatePointOnPatch 457-505 and checkPointBelongsToCell 590-621).
    [tiny] is numeric_limits<double>::min(), [big] numeric_limits<double>::max(); doubles are reals.
    areaTriangle is half the length of the cross product of two sides, as in bitpit.  [None] is an
    exception, or the cell of a null id. *)
From Coq Require Import List Arith Bool Reals.
From Verif Require Import Vec.
Import ListNotations.
Open Scope R_scope.

Section Tests.
  Variable tiny : R.

  (** isPointInsideSegment, 69-77 *)
  Definition isPointInsideSegment (p v0 v1 : vec) (tol : R) : bool :=
    let pv := vsub p v0 in
    let seg := vsub v1 v0 in
    let len := norm seg in
    let seg := if Rlt_dec tiny len then vscale (/ len) seg else seg in
    let v := dot pv seg in
    if Rlt_dec tol (norm (vsub pv (vscale v seg))) then false
    else if Rle_dec (0 - tol) v then (if Rle_dec v (len + tol) then true else false) else false.

  Definition areaTriangle (a b c : vec) : R := norm (cross (vsub b a) (vsub c a)) / 2.
  (** isPointInsideTriangle, 87-101 *)
  Definition isPointInsideTriangle (p v0 v1 v2 : vec) (tol : R) : bool :=
    let normal := cross (vsub v1 v0) (vsub v2 v0) in
    let len := norm normal in
    if Rlt_dec tiny len then
      let normal := vscale (/ len) normal in
      if Rlt_dec tol (Rabs (dot (vsub p v0) normal)) then false
      else
        let a1 := areaTriangle p v0 v1 / (/ 2 * len) in
        let a2 := areaTriangle p v1 v2 / (/ 2 * len) in
        let a3 := areaTriangle p v2 v0 / (/ 2 * len) in
        if Rle_dec (a1 + a2 + a3 - 1) tol then true else false
    else false.

  (** isPointInsidePolygon, 111-122: the triangles of vertex 0 with two consecutive ones *)
  Fixpoint fan (p v0 : vec) (l : list vec) (tol : R) : bool :=
    match l with
    | a :: (b :: _) as r => if isPointInsideTriangle p v0 a b tol then true else fan p v0 r tol
    | _ => false
    end.
  Definition isPointInsidePolygon (p : vec) (vs : list vec) (tol : R) : bool :=
    match vs with [] => false | v0 :: l => fan p v0 l tol end.

  (** checkPointBelongsToCell: the elements by type; the vertices of lines and triangles are read by
      position *)
  Inductive shape := Line | Triangle | Polygonal (* PIXEL, QUAD, POLYGON *) | OtherShape.
  Definition checkPointBelongsToCell (p : vec) (t : shape) (vs : list vec) (tol : R) : option bool :=
    match t, vs with
    | Line, v0 :: v1 :: _ => Some (isPointInsideSegment p v0 v1 tol)
    | Triangle, v0 :: v1 :: v2 :: _ => Some (isPointInsideTriangle p v0 v1 v2 tol)
    | Polygonal, _ => Some (isPointInsidePolygon p vs tol)
    | _, _ => None
    end.
  (** locatePointOnPatch: the closest cell of bitpit is a parameter *)
  Definition locatePointOnPatch (closest : vec -> option nat) (cell : nat -> shape * list vec) (p : vec) (tol : R) : option (option nat) :=
    match closest p with
    | None => None
    | Some id => match checkPointBelongsToCell p (fst (cell id)) (snd (cell id)) tol with
                 | None => None
                 | Some b => Some (if b then Some id else None)
                 end
    end.
End Tests.

(** distancePointPolygon, 41-60: the distance from a triangle is of bitpit *)
Fixpoint vsum (l : list vec) : vec := match l with [] => vzero | v :: r => vadd v (vsum r) end.
Fixpoint least (d : vec -> vec -> vec -> vec -> R) (p b : vec) (l : list vec) (m : R) : R :=
  match l with
  | v :: (w :: _) as r => least d p b r (Rmin m (d p b v w))
  | _ => m
  end.
Definition distancePointPolygon (d : vec -> vec -> vec -> vec -> R) (big : R) (p : vec) (vs : list vec) : R :=
  least d p (vscale (/ INR (length vs)) (vsum vs)) vs big.
