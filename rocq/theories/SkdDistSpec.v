(** What the distance from a surface and the projection on it are asked for. *)
From Coq Require Import List Reals.
From Verif Require Import Vec SkdDist.
Import ListNotations.
Open Scope R_scope.

(** The surface as a set of points: [on id x] when x is a point of the cell id. *)
Definition nearest (on : nat -> vec -> Prop) (p x : vec) : Prop :=
  (exists id, on id x) /\ forall id y, on id y -> norm (vsub p x) <= norm (vsub p y).
(** What bitpit is asked for: the search gives a cell with a nearest point and its distance, or no cell
    and then none is within the radius; the weights are those of the nearest point of the cell. *)
Definition search_right (on : nat -> vec -> Prop) (closest : vec -> R -> option (nat * R)) : Prop :=
  forall p r, match closest p r with
              | Some (id, h) => exists x, on id x /\ nearest on p x /\ h = norm (vsub p x) /\ h <= r
              | None => forall id y, on id y -> r < norm (vsub p y)
              end.
(** the sum of the vectors, each times its weight *)
Definition weighted (w : list R) (l : list vec) (x : vec) : Prop :=
  length w = length l /\
  vx x = fold_right Rplus 0 (map (fun e => fst e * vx (snd e)) (combine w l)) /\
  vy x = fold_right Rplus 0 (map (fun e => fst e * vy (snd e)) (combine w l)) /\
  vz x = fold_right Rplus 0 (map (fun e => fst e * vz (snd e)) (combine w l)).
Definition weights_right (on : nat -> vec -> Prop) (corners : nat -> list vec) (weights : vec -> list vec -> list R) : Prop :=
  forall p id, (exists x, on id x) -> exists x, weighted (weights p (corners id)) (corners id) x /\ on id x /\ forall y, on id y -> norm (vsub p x) <= norm (vsub p y).
