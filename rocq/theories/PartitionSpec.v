(** What is expected of partitions. *)
From Coq Require Import Reals List Arith ZArith.
From Verif Require Import Partition.
Import ListNotations.

(** the process of a cell in a map *)
Definition goes (m : rmap) (x r : Z) : Prop := find x m = Some r.
(** each cell of a list goes to one process among n, and nothing else is in the map *)
Definition shares (ids : list Z) (n : Z) (m : rmap) : Prop := forall x, (In x ids -> exists r, goes m x r /\ (0 <= r < n)%Z) /\ (~ In x ids -> find x m = None).
(** what METIS is asked to give: a process for each vertex *)
Definition metis_right (metis : nat -> list nat * list nat -> Z -> list Z) : Prop :=
  forall nv g n, (0 < n)%Z -> length (metis nv g n) = nv /\ forall r, In r (metis nv g n) -> (0 <= r < n)%Z.
(** a graph in compressed rows, as METIS reads it: what is next to vertex i *)
Definition next_to (g : list nat * list nat) (i j : nat) : Prop :=
  exists s e k, nth_error (fst g) i = Some s /\ nth_error (fst g) (S i) = Some e /\ (s <= k < e)%nat /\ nth_error (snd g) k = Some j.
(** neighbours are in the mesh and know of each other; identifiers are distinct and not negative *)
Definition well_made (cells : list cell) : Prop :=
  NoDup (map c_id cells) /\ (forall c, In c cells -> (0 <= c_id c)%Z) /\
  (forall c x, In c cells -> In x (c_neighs c) -> exists d, In d cells /\ c_id d = x /\ In (c_id c) (c_neighs d)).
(** the graph is that of the mesh *)
Definition graph_of (cells : list cell) (g : list nat * list nat) : Prop :=
  forall i j c d, nth_error cells i = Some c -> nth_error cells j = Some d -> (next_to g i j <-> In (c_id d) (c_neighs c)).
(** METIS asks for graphs that are the same in both directions *)
Definition both_ways (g : list nat * list nat) : Prop := forall i j, next_to g i j -> next_to g j i.
(** cells of the boundary stay in distinct places in memory, all of them within the count of cells *)
Definition places (b : border) : Prop :=
  (forall c x d p, In (c, Some (x, d, p)) (b_faces b) -> In x (b_ids b) /\ (p < length (b_ids b))%nat) /\
  (forall c x d p c' x' d' p', In (c, Some (x, d, p)) (b_faces b) -> In (c', Some (x', d', p')) (b_faces b) -> (x = x' <-> p = p')).
(** a boundary cell goes with the volume cell nearest to it among those that found it *)
Definition follows (top : R) (m : rmap) (b : border) (bm : rmap) : Prop :=
  forall x, (forall r, goes bm x r -> exists c d p, In (c, Some (x, d, p)) (b_faces b) /\ goes m c r /\ forall c' d' p', In (c', Some (x, d', p')) (b_faces b) -> (d <= d')%R) /\
    (find x bm = None -> forall c d p, ~ In (c, Some (x, d, p)) (b_faces b)).
