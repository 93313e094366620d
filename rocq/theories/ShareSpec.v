(** What is asked of the data that processes share. *)
From Coq Require Import List Arith NArith Bool.
From Verif Require Import Mpi Stream StreamSpec Share.
Import ListNotations.

(** Whatever the schedule, and whatever the library copies: no process waits for ever, all end after
    at most [bound] steps, and then what the processes have received satisfies [result]. *)
Definition ends_with {W : Type} (p : nat -> list (op W)) (bound : nat) (result : (nat -> list (rcv W)) -> Prop) : Prop :=
  forall k s, steps k (start p) s ->
    k <= bound /\ (all_done s \/ exists s', recv_step s s') /\ (all_done s -> result (got s)).

(** the value a list of entries gives to an id *)
Definition gives {A : Type} (l : list (N * A)) (id : N) (x : A) : Prop := In (id, x) l.
Definition one_each {A : Type} (l : list (N * A)) : Prop := NoDup (map fst l).
Definition by_increasing_id {A : Type} (l : list (N * A)) : Prop :=
  forall i j a b, i < j -> nth_error l i = Some a -> nth_error l j = Some b -> (fst a < fst b)%N.
(** the value of an id is that of the first process, in an order, that has one *)
Definition from_first {A : Type} (order : list nat) (data : nat -> list (N * A)) (l : list (N * A)) : Prop :=
  forall id x, gives l id x <-> exists before r after, order = before ++ r :: after /\ gives (data r) id x /\ forall q y, In q before -> ~ gives (data q) id y.
(** the processes do not contradict each other *)
Definition agree {A : Type} (nprocs : nat) (data : nat -> list (N * A)) : Prop :=
  forall r q id x y, r < nprocs -> q < nprocs -> gives (data r) id x -> gives (data q) id y -> x = y.
(** all that the processes have, and nothing else *)
Definition union {A : Type} (nprocs : nat) (data : nat -> list (N * A)) (l : list (N * A)) : Prop :=
  forall id x, gives l id x <-> exists r, r < nprocs /\ gives (data r) id x.

(** the boundary conditions can exist in memory *)
Definition bc_valid (b : bccgns) : Prop :=
  valid t_pidtobc (pidtobc b) /\ valid t_zonetobndpid (zonetobndpid b) /\ valid t_pidtolisttype (pidtolisttype b) /\
  valid t_names (bcpidnames b) /\ valid t_names (zonepidnames b).

(** the other processes, in increasing order *)
Definition other (nprocs me : nat) : list nat := filter (fun a => negb (Nat.eqb a me)) (seq 0 nprocs).
(** what a process has and can send *)
Definition maps_valid (m : rbf_maps) : Prop :=
  valid t_points (m_nodes m) /\ valid t_points (m_displs m) /\ valid t_radii (m_radii m) /\
  by_increasing_id (m_nodes m) /\ by_increasing_id (m_displs m) /\ by_increasing_id (m_radii m).
Definition maps_first (order : list nat) (mine : nat -> rbf_maps) (m : rbf_maps) : Prop :=
  (by_increasing_id (m_nodes m) /\ by_increasing_id (m_displs m) /\ by_increasing_id (m_radii m)) /\
  from_first order (fun r => m_nodes (mine r)) (m_nodes m) /\ from_first order (fun r => m_displs (mine r)) (m_displs m) /\ from_first order (fun r => m_radii (mine r)) (m_radii m).
