(** Model of the distance from a surface and of the projection on it (src/core/SkdTreeUtils.cpp,
    distance 49-64 and 129-156, signedDistance 83-102 and 201-238, projectPoint 376-383, 398-402 and
    419-447, computePseudoNormal 513-579).

    findPointClosestCell, the distances point-cell with the weights of the nearest point, and
    evalVertexNormal are of bitpit: they are parameters here, and what is asked of them is in the
    specification.  Doubles are reals without rounding, but overflow is here: a product over [big]
    (numeric_limits<double>::max()) is an infinity, and infinity times zero is not a number. *)
From Coq Require Import List Arith Bool Reals.
From Verif Require Import Vec.
Import ListNotations.
Open Scope R_scope.

Inductive num := Fin (x : R) | PInf | NInf | NaN.
Definition fabs (a : num) : num := match a with Fin x => Fin (Rabs x) | PInf | NInf => PInf | NaN => NaN end.
Definition infinity (positive : bool) : num := if positive then PInf else NInf.
Definition pos (x : R) : bool := if Rlt_dec 0 x then true else false.

Section Distance.
  Variable big : R.
  Definition fmul (a b : num) : num :=
    match a, b with
    | Fin x, Fin y => if Rlt_dec big (Rabs (x * y)) then infinity (pos (x * y)) else Fin (x * y)
    | Fin x, PInf | PInf, Fin x => if Req_EM_T x 0 then NaN else infinity (pos x)
    | Fin x, NInf | NInf, Fin x => if Req_EM_T x 0 then NaN else infinity (negb (pos x))
    | PInf, PInf | NInf, NInf => PInf
    | PInf, NInf | NInf, PInf => NInf
    | NaN, _ | _, NaN => NaN
    end.
  (** x - a, for x finite *)
  Definition fsub (x : R) (a : num) : num := match a with Fin y => Fin (x - y) | PInf => NInf | NInf => PInf | NaN => NaN end.

  (** the surface: coordinates and normals of the vertices of a cell, tolerance of the patch *)
  Variable corners : nat -> list vec.
  Variable vnormals : nat -> list vec.
  Variable tol : R.
  (** distancePointTriangle, distancePointSegment, distancePointPolygon: weights of the nearest point *)
  Variable weights : vec -> list vec -> list R.
  (** findPointClosestCell: cell and distance, nothing if no cell is within the radius *)
  Variable closest : vec -> R -> option (nat * R).

  Fixpoint blend (w : list R) (l : list vec) : vec :=
    match w, l with
    | x :: w, v :: l => vadd (vscale x v) (blend w l)
    | _, _ => vzero
    end.
  (** findPointClosestCell in the outputs id and h: NULL_ID and big when there is none *)
  Definition find_closest (p : vec) (r : R) : option nat * R :=
    match closest p r with Some (id, h) => (Some id, h) | None => (None, big) end.

  (** distance *)
  Definition distance (p : vec) (r : R) : option nat * num := let (id, h) := find_closest p r in (id, Fin h).

  (** computePseudoNormal: the sign and the normal; the three branches of 538-565 differ in the weights.
      The normal is [None] when the division of 574 is by zero *)
  Definition computePseudoNormal (p : vec) (id : option nat) : R * option vec :=
    match id with
    | None => (big, Some vzero)
    | Some id =>
        let lambda := weights p (corners id) in
        let normal := blend lambda (vnormals id) in
        let xP := blend lambda (corners id) in
        let d := dot normal (vsub p xP) in
        let s := if Rlt_dec d 0 then -1 else 1 in
        let pn := vscale s (vsub p xP) in
        let normX := norm pn in
        (s, if Rlt_dec normX tol then (if Req_EM_T (norm normal) 0 then None else Some (vscale (/ norm normal) normal))
            else (if Req_EM_T normX 0 then None else Some (vscale (/ normX) pn)))
    end.
  (** signedDistance: id, distance, normal *)
  Definition signedDistance (p : vec) (r : R) : option nat * num * option vec :=
    let (id, h) := find_closest p r in
    let (s, n) := computePseudoNormal p id in
    (id, fmul (Fin s) (Fin h), n).

  Definition fcoord (x : R) (d : num) (n : R) : num := fsub x (fmul d (Fin n)).
  (** the coordinates of a point projected, 445 *)
  Definition moved_point (p : vec) (d : num) (n : option vec) : num * num * num :=
    match n with
    | None => (NaN, NaN, NaN)
    | Some n => (fcoord (vx p) d (vx n), fcoord (vy p) d (vy n), fcoord (vz p) d (vz n))
    end.
  Definition is_big (a : num) : bool := match a with Fin x => if Req_EM_T x big then true else false | _ => false end.
  Definition at_least_big (a : num) : bool := match a with Fin x => if Rle_dec big x then true else false | PInf => true | _ => false end.
  (** the larger of two distances without sign, 440-441 (the largest absolute value is the one of the
      largest or of the smallest element) *)
  Definition larger (a b : num) : num :=
    match a, b with
    | Fin x, Fin y => Fin (Rmax x y)
    | NaN, x | x, NaN => x
    | _, _ => PInf
    end.
  (** the loop of 432-443 on the points with their radii: [None] when the steps do not suffice; the
      results are the distances and the normals of the last step, and the radii *)
  Fixpoint search (fuel : nat) (l : list (vec * R)) : option (list (vec * (option nat * num * option vec)) * list R) :=
    match fuel with
    | O => None
    | S n =>
        let found := map (fun pr => (fst pr, signedDistance (fst pr) (snd pr))) l in
        let radii := map (fun pr => if at_least_big (fabs (snd (fst (signedDistance (fst pr) (snd pr))))) then snd pr * (3 / 2) else snd pr) l in
        let max_dist := fold_right (fun e m => larger (fabs (snd (fst (snd e)))) m) (Fin 0) found in
        if is_big max_dist then search n (combine (map fst l) radii) else Some (found, radii)
    end.
  (** projectPoint on arrays: points projected, ids, radii (the array of the caller) *)
  Definition projectPoint (fuel : nat) (l : list (vec * R)) : option (list (num * num * num) * list (option nat) * list R) :=
    match l with
    | [] => Some ([], [], [])
    | _ =>
        match search fuel (map (fun pr => (fst pr, Rmax (snd pr) tol)) l) with
        | None => None
        | Some (found, radii) =>
            Some (map (fun e => moved_point (fst e) (snd (fst (snd e))) (snd (snd e))) found, map (fun e => fst (fst (snd e))) found, radii)
        end
    end.
End Distance.
