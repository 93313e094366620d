(** Distances on a triangulated surface by fast marching (CreateSeedsOnSurface::updateEikonal,
    solveEikonal and the functions they call).  Doubles are real numbers; the value
    std::numeric_limits<double>::max() of the points not reached yet is [None], and adding a length
    to it leaves it as it is.  Divisions by the length of an edge without length (which give NaN)
    are not modelled: such triangles are outside the theorems. *)
From Coq Require Import Reals List Arith Bool ZArith.
From Verif Require Import Vec.
Import ListNotations.
Open Scope R_scope.

(** A value that can be the maximal double. *)
Definition olt (a b : option R) : bool :=
  match a, b with
  | Some x, Some y => if Rlt_dec x y then true else false
  | Some _, None => true
  | None, _ => false
  end.
(** std::min(a, b): b when it is smaller, else a. *)
Definition omin (a b : option R) : option R := if olt b a then b else a.
(** std::abs. *)
Definition oabs (a : option R) : option R := option_map Rabs a.
(** The sum with a length. *)
Definition oplus (a : option R) (d : R) : option R := option_map (fun x => x + d) a.

(** CreateSeedsOnSurface.cpp 1063, 1071-1073: the tolerance. *)
Definition tolA : R := / 1000000000000.
(** CreateSeedsOnSurface.cpp 1089-1090: std::min(1.0, std::max(0.0, xi)). *)
Definition clamp (xi : R) : R := Rmin 1 (Rmax 0 xi).
(** CreateSeedsOnSurface.cpp 1093-1098 (1101-1106, 1115-1120, 1123-1128 with xi 0 and 1): the value
    carried from the point P at xi of the edge U W to V. *)
Definition carried (g : R) (xU xW xV : vec) (pU pW xi : R) : R :=
  let P := vadd (vscale (1 - xi) xU) (vscale xi xW) in
  (1 - xi) * pU + xi * pW + g * norm (vsub xV P).

(** CreateSeedsOnSurface.cpp 1056-1134, case of two dead nodes with values: std::min(tempVal1,
    tempVal2), or [None] when both are left at the old value (default of the switch).  The switch on
    (discr < -tol) + 2 (|A| > tol) + 3 (|A| < tol) - 1 is written out: 1 for the two roots, 2 for the
    ends of the edge (also for a negative discriminant with |A| > tol), any other number the default. *)
Definition two_dead (g : R) (xU xW xV : vec) (pU pW : R) : option R :=
  let dVU := norm (vsub xV xU) in
  let eVU := vscale (/ dVU) (vsub xV xU) in
  let dWU := norm (vsub xW xU) in
  let eWU := vscale (/ dWU) (vsub xW xU) in
  let K := pW - pU in
  let a := dWU * dWU in
  let b := - dWU * dVU * dot eWU eVU in
  let c := dVU * dVU in
  let A := a * (K * K - a) in
  let B := b * (K * K - a) in
  let C := K * K * c - b * b in
  let discr := B * B - A * C in
  let kind := ((if Rlt_dec discr (- tolA) then 1 else 0) + (if Rgt_dec (Rabs A) tolA then 2 else 0)
               + (if Rlt_dec (Rabs A) tolA then 3 else 0))%nat in
  match kind with
  | 2%nat =>
      let d := Rabs discr in
      let xi1 := clamp ((- B - sqrt d) / A) in
      let xi2 := clamp ((- B + sqrt d) / A) in
      Some (Rmin (carried g xU xW xV pU pW xi1) (carried g xU xW xV pU pW xi2))
  | 3%nat => Some (Rmin (pU + g * norm (vsub xV xU)) (pW + g * norm (vsub xV xW)))
  | _ => None
  end.

(** CreateSeedsOnSurface.cpp 1056-1134 with values that may be maximal.  With the value of W maximal
    K squared is infinite, the discriminant NaN, the switch takes case 1 and std::max(0.0, NaN) is 0,
    so the value is the one carried from U; with the value of U maximal the sum is maximal. *)
Definition from_two (g : R) (xU xW xV : vec) (fU fW : option R) : option R :=
  match oabs fU, oabs fW with
  | Some pU, Some pW => two_dead g xU xW xV pU pW
  | Some pU, None => Some (pU + g * norm (vsub xV xU))
  | None, _ => None
  end.

Definition tri := (Z * Z * Z)%type.

(** CreateSeedsOnSurface.cpp 1028-1034: the two other vertices of a triangle, from the one after V. *)
Definition others (v : Z) (t : tri) : list (Z * Z) :=
  match t with
  | (a, b, c) => if Z.eqb a v then [(b, c)] else if Z.eqb b v then [(c, a)] else if Z.eqb c v then [(a, b)] else []
  end.
(** CreateSeedsOnSurface.cpp 1019-1026 (bitpit findCellVertexOneRing, taken as all the triangles with
    the vertex). *)
Definition ring (ts : list tri) (v : Z) : list (Z * Z) := flat_map (others v) ts.
(** CreateSeedsOnSurface.cpp 1361-1382 findVertexVertexOneRing: the set of the other vertices of the
    ring (its order has no effect on what follows). *)
Definition neighs (ts : list tri) (v : Z) : list Z :=
  filter (fun w => negb (Z.eqb w v)) (nodup Z.eq_dec (flat_map (fun p => [fst p; snd p]) (ring ts v))).

(** Flags: 0 dead, 1 alive, 2 far away. *)
Record state := ST { fld : Z -> option R; act : Z -> nat; heap : list (option R * Z) }.

(** CreateSeedsOnSurface.cpp 1028-1145, the body of the loop on the ring: the value after one triangle. *)
Definition one_cell (g : R) (x : Z -> vec) (f : Z -> option R) (fl : Z -> nat) (v : Z) (value : option R) (p : Z * Z) : option R :=
  let U := fst p in
  let W := snd p in
  match fl U, fl W with
  | O, O => omin value (from_two g (x U) (x W) (x v) (f U) (f W))
  | O, _ => omin value (oplus (oabs (f U)) (g * norm (vsub (x v) (x U))))
  | _, O => omin value (oplus (oabs (f W)) (g * norm (vsub (x v) (x W))))
  | _, _ => value
  end.
(** CreateSeedsOnSurface.cpp 994-1151 updateEikonal.  The default of the inner switch (the old value
    twice) is the minimum with [None]. *)
Definition updateEikonal (g : R) (ts : list tri) (x : Z -> vec) (f : Z -> option R) (fl : Z -> nat) (v : Z) : option R :=
  fold_left (one_cell g x f fl v) (ring ts v) (oabs (f v)).

Definition set {A : Type} (m : Z -> A) (k : Z) (y : A) : Z -> A := fun z => if Z.eqb z k then y else m z.

(** CreateSeedsOnSurface.cpp 1346-1351 isDeadFront. *)
Definition isDeadFront (deads : list Z) (v : Z) : bool := existsb (Z.eqb v) deads.
(** The field given to solveEikonal (CreateSeedsOnSurface.cpp 509-511): zero on the seeds, maximal
    elsewhere. *)
Definition given (deads : list Z) (v : Z) : option R := if isDeadFront deads v then Some 0 else None.
(** CreateSeedsOnSurface.cpp 1216: a neighbour with a value not negative and not maximal. *)
Definition known (s : R) (o : option R) : bool :=
  match o with Some y => if Rle_dec 0 (s * y) then true else false | None => false end.
(** CreateSeedsOnSurface.cpp 1192-1224: the flags at the start. *)
Definition flags (s : R) (ts : list tri) (deads : list Z) (v : Z) : nat :=
  if isDeadFront deads v then O
  else if existsb (fun w => known s (given deads w)) (neighs ts v) then 1%nat else 2%nat.
(** CreateSeedsOnSurface.cpp 1239-1263: the alive vertices with their values.  bitpit's MinPQueue is
    a list of pairs from which a smallest one is taken. *)
Definition begin (g s : R) (ts : list tri) (x : Z -> vec) (verts deads : list Z) : state :=
  let f := given deads in
  let fl := flags s ts deads in
  ST f fl (map (fun v => (updateEikonal s ts x f fl v, v)) (filter (fun v => Nat.eqb (fl v) 1) verts)).

(** CreateSeedsOnSurface.cpp 1286-1310: one neighbour of the vertex just settled. *)
Definition touch (g s : R) (ts : list tri) (x : Z -> vec) (st : state) (J : Z) : state :=
  let value := updateEikonal s ts x (fld st) (act st) J in
  match act st J with
  | 1%nat => ST (fld st) (act st) (map (fun p => if Z.eqb (snd p) J then (value, J) else p) (heap st))
  | 2%nat => ST (fld st) (set (act st) J 1%nat) ((value, J) :: heap st)
  | _ => st
  end.
(** CreateSeedsOnSurface.cpp 1270-1310: the vertex taken is settled, then its neighbours. *)
Definition settle (g s : R) (ts : list tri) (x : Z -> vec) (st : state) (k : option R) (v : Z) (rest : list (option R * Z)) : state :=
  fold_left (touch g s ts x) (neighs ts v) (ST (set (fld st) v k) (set (act st) v O) rest).

(** CreateSeedsOnSurface.cpp 1268-1272: one turn of the loop; any of the smallest pairs can be the one
    taken. *)
Inductive turn (g s : R) (ts : list tri) (x : Z -> vec) (st : state) : state -> Prop :=
| Turn : forall l k v r, heap st = l ++ (k, v) :: r ->
    (forall k' v', In (k', v') (l ++ r) -> olt k' k = false) ->
    turn g s ts x st (settle g s ts x st k v (l ++ r)).
(** The loop after n turns (solveEikonal 1175-1315, called with g = s = 1). *)
Inductive turns (g s : R) (ts : list tri) (x : Z -> vec) (st : state) : nat -> state -> Prop :=
| T0 : turns g s ts x st 0 st
| TS : forall n st1 st2, turns g s ts x st n st1 -> turn g s ts x st1 st2 -> turns g s ts x st (S n) st2.
