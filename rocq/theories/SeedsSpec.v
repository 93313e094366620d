(** What is expected of points spread on a surface, without the model. *)
From Coq Require Import Reals List Arith Bool ZArith.
From Verif Require Import Vec.
Import ListNotations.
Open Scope R_scope.

(** A candidate is a point with a sensitivity; where it stands for the distribution: its position from the first candidate,
    times its sensitivity. *)
Definition place (l : list (vec * R)) (j : nat) : vec :=
  match nth_error l j, nth_error l 0 with Some (p, s), Some (o, _) => vscale s (vsub p o) | _, _ => vzero end.
Definition apart (l : list (vec * R)) (i j : nat) : R := norm (vsub (place l i) (place l j)).
(** different candidates of the list *)
Definition selection (l : list (vec * R)) (n : nat) (idx : list nat) : Prop :=
  length idx = n /\ NoDup idx /\ (forall i, In i idx -> (i < length l)%nat).
(** any two of them are farther than h *)
Definition separated (l : list (vec * R)) (h : R) (idx : list nat) : Prop := forall i j, In i idx -> In j idx -> i <> j -> h < apart l i j.
(** no candidate is farther than h from all of them *)
Definition covering (l : list (vec * R)) (h : R) (idx : list nat) : Prop :=
  forall j, (j < length l)%nat -> exists i, In i idx /\ apart l j i <= h.
(** n candidates in different places *)
Definition different_places (l : list (vec * R)) (n : nat) : Prop :=
  exists idx, length idx = n /\ (forall i, In i idx -> (i < length l)%nat) /\ NoDup (map (place l) idx).
(** the distribution takes no account of the sensitivity *)
Definition unitary (l : list (vec * R)) : Prop := forall e, In e l -> snd e = 1.

(** A field from 0 to 1: 0 for the least value, 1 for the greatest, in proportion between. *)
Definition rescaled (l r : list R) : Prop :=
  exists lo hi, In lo l /\ In hi l /\ lo < hi /\ (forall v, In v l -> lo <= v <= hi) /\ r = map (fun v => (v - lo) / (hi - lo)) l.

(** Each vertex after the first is where the distance from those before it, times the sensitivity, is greatest. *)
Definition farthest_first (verts : list nat) (geodesic : list nat -> nat -> R) (sensitivity : nat -> R) (l : list nat) : Prop :=
  forall k v, nth_error l (S k) = Some v ->
    forall w, In w verts -> geodesic (firstn (S k) l) w * sensitivity w <= geodesic (firstn (S k) l) v * sensitivity v.
(** A distance: zero on the vertices it is from, positive on the others. *)
Definition distance_like (geodesic : list nat -> nat -> R) : Prop :=
  forall l v, (In v l -> geodesic l v = 0) /\ (~ In v l -> 0 < geodesic l v).
