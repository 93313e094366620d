(** What the search of the closest cell is expected to give, without the tree: the least of the
    distances over a list of cells. *)
From Coq Require Import Reals.
From Coq Require Import List Bool.
From Verif Require Import Vec SkdFind.
Import ListNotations.
Local Open Scope nat_scope.

(** the cells under a node *)
Fixpoint cells_of (t : tree) : list nat :=
  match t with Leaf _ cells => cells | Fork _ l r => cells_of l ++ cells_of r end.

(** the boxes are right: each leaf has a cell, and the distance from a cell is between those from the boxes around *)
Fixpoint right_boxes (mind maxd : box -> vec -> R) (dist : nat -> vec -> R) (p : vec) (t : tree) : Prop :=
  match t with
  | Leaf b cells => cells <> [] /\ forall c, In c cells -> (mind b p <= dist c p <= maxd b p)%R
  | Fork b l r =>
      (forall c, In c (cells_of l) \/ In c (cells_of r) -> (mind b p <= dist c p <= maxd b p)%R) /\
      right_boxes mind maxd dist p l /\ right_boxes mind maxd dist p r
  end.

(** [c] is a cell of [l] accepted by [ok], and no accepted one is nearer *)
Definition closest (dist : nat -> vec -> R) (p : vec) (l : list nat) (ok : nat -> bool) (c : nat) : Prop :=
  In c l /\ ok c = true /\ forall c', In c' l -> ok c' = true -> (dist c p <= dist c' p)%R.

(** the operation of the reduction gives one of the two, the one with the least distance *)
Definition distance_of (a : option (nat * nat * R)) : option R := option_map snd a.
Definition not_farther (a b : option (nat * nat * R)) : Prop :=
  match distance_of a, distance_of b with
  | Some x, Some y => (x <= y)%R
  | _, None => True
  | None, Some _ => False
  end.
Definition picks_least (pick : option (nat * nat * R) -> option (nat * nat * R) -> option (nat * nat * R)) : Prop :=
  forall a b, (pick a b = a \/ pick a b = b) /\ not_farther (pick a b) a /\ not_farther (pick a b) b.

(** [(r, c)] is, among the cells of all the processes, ghosts too, one at the least distance, and [r] owns it *)
Definition closest_of_all (nprocs : nat) (dist : nat -> nat -> vec -> R) (interior : nat -> nat -> bool)
    (cells : nat -> list nat) (p : vec) (r c : nat) : Prop :=
  r < nprocs /\ In c (cells r) /\ interior r c = true /\
  forall r' c', r' < nprocs -> In c' (cells r') -> (dist r c p <= dist r' c' p)%R.

(** a ghost cell is an interior cell of another process, in the same place *)
Definition ghosts_owned (nprocs : nat) (dist : nat -> nat -> vec -> R) (interior : nat -> nat -> bool)
    (cells : nat -> list nat) (p : vec) : Prop :=
  forall r g, r < nprocs -> In g (cells r) -> interior r g = false ->
    exists r' c, r' < nprocs /\ In c (cells r') /\ interior r' c = true /\ dist r' c p = dist r g p.

(** the surface is shared out well among the processes, for the point [p] *)
Definition shared_out (mind maxd : box -> vec -> R) (dist : nat -> nat -> vec -> R) (interior : nat -> nat -> bool)
    (trees : nat -> tree) (pbox : nat -> box) (big : R) (nprocs : nat) (p : vec) : Prop :=
  (forall r, r < nprocs -> right_boxes mind maxd (dist r) p (trees r)) /\
  ghosts_owned nprocs dist interior (fun r => cells_of (trees r)) p /\
  (forall r, r < nprocs -> exists c, In c (cells_of (trees r)) /\ (dist r c p <= maxd (pbox r) p)%R) /\
  (forall r c, r < nprocs -> In c (cells_of (trees r)) -> (dist r c p <= big)%R).
