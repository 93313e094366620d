(** What is asked of the distances, of the location and of the projection on a surface spread over
    several processes. *)
From Coq Require Import List Arith Bool Reals.
From Verif Require Import Vec GlobDist.
Import ListNotations.
Open Scope nat_scope.

(** The searches: a cell is of one of the processes; without a cell there is no process. *)
Definition valid (nprocs : nat) (queries : nat -> list (query vec)) : Prop :=
  forall me q, me < nprocs -> In q (queries me) ->
    match q_rank q with Some k => k < nprocs /\ q_id q <> None | None => q_id q = None end.
(** Every process asks for the same points. *)
Definition same_queries (nprocs : nat) (queries : nat -> list (query vec)) : Prop := forall me, me < nprocs -> queries me = queries 0.

(** The answer is the one of the owner of the cell: normal, and distance with its sign. *)
Definition signed_right (big : R) (pseudo : nat -> vec -> option nat -> R * vec) (q : query vec) (h : R) : vec * R :=
  match q_rank q with
  | Some k => (snd (pseudo k (q_point q) (q_id q)), (h * fst (pseudo k (q_point q) (q_id q)))%R)
  | None => (V3 big big big, h)
  end.
Definition located_right (belongs : nat -> vec -> option nat -> bool) (q : query vec) : option nat :=
  match q_rank q with Some k => if belongs k (q_point q) (q_id q) then q_id q else None | None => None end.

(** The radii tried for a point: the first, 3/2 of it, and so on; the last is the largest double. *)
Definition tried (big r : R) (kmax k : nat) : R := if Nat.ltb k (kmax - 1) then (r * (3 / 2) ^ k)%R else big.
(** The result of the first radius that finds something, among the first n. *)
Definition first_hit {H : Type} (f : nat -> option H) (n : nat) (o : option H) : Prop :=
  match o with
  | Some h => exists k, k < n /\ f k = Some h /\ forall j, j < k -> f j = None
  | None => forall j, j < n -> f j = None
  end.
