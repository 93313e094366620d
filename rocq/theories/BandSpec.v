(** What a user expects of narrow bands and connectivities. *)
From Coq Require Import List Arith Reals.
From Verif Require Import Obj ObjSpec.
Import ListNotations.

(** the search of the distance within a threshold is right: it gives the distance [d] when it is less
    than the threshold, and nothing less than the threshold otherwise *)
Definition measured (d : nat -> R) (maxdist : R) (measure : nat -> R) : Prop :=
  forall id, ((d id < maxdist)%R -> measure id = d id) /\ ((maxdist <= d id)%R -> (maxdist <= measure id)%R).
(** the elements of the band joined to a seed by a chain of neighbours inside the band *)
Inductive joined (d : nat -> R) (maxdist : R) (neigh : nat -> list nat) (seeds : list nat) : nat -> Prop :=
| joined_seed : forall x, In x seeds -> (d x < maxdist)%R -> joined d maxdist neigh seeds x
| joined_next : forall x y, joined d maxdist neigh seeds x -> In y (neigh x) -> (d y < maxdist)%R -> joined d maxdist neigh seeds y.
(** [r] is exactly the set of the elements that satisfy [P], with their distances *)
Definition band_of (d : nat -> R) (P : nat -> Prop) (r : list (nat * R)) : Prop :=
  NoDup (map fst r) /\ forall id x, In (id, x) r <-> P id /\ x = d id.
(** two vertices are the ends of an edge of a cell *)
Definition edge_of (edges : nat * cell -> list (nat * nat)) (g : obj) (a b : nat) : Prop :=
  exists e, In e (o_cells g) /\ (In (a, b) (edges e) \/ In (b, a) (edges e)).
