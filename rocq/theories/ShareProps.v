(** Property theorems C102. *)
From Coq Require Import List Arith NArith Bool Lia.
From Verif Require Import Mpi Stream Share ShareSpec ShareProofs.
From Verif Require StreamSpec.
Import ListNotations.
Open Scope nat_scope.

(** What process 0 has read from the file is, in the end, the result of every process, for every value
    of every type with stream operators (no map in a map, see C15), every number of processes and every
    schedule. *)
Theorem C102_read : forall nprocs t x, StreamSpec.no_map_in_map t = true -> StreamSpec.valid t x ->
  ends_with (sendReadDataToAllProcs nprocs t x) (4 * (nprocs - 1)) (fun log => forall me, me < nprocs -> data_read t x me (log me) = Some x).
Proof. exact read_ends. Qed.
Print Assumptions C102_read.

(** The boundary conditions of a CGNS file are not the ones read: on the other processes the types of
    the conditions are replaced by the kinds of the lists, and the kinds of the lists are lost. *)
Theorem C102_boundary_refuted : exists nprocs b, bc_valid b /\
  ends_with (communicateAllProcsStoredBC nprocs b) (20 * (nprocs - 1)) (fun log => exists c, bc_read b 1 (log 1) = Some c /\
    pidtobc b = [(5, 20)]%N /\ pidtobc c = [(5, 1)]%N /\ pidtolisttype b = [(5, 1)]%N /\ pidtolisttype c = []) /\
  exists k s, steps k (start (communicateAllProcsStoredBC nprocs b)) s /\ all_done s.
Proof.
  exists 2, (Bc [(5, 20)]%N [(1, [5])]%N [(5, 1)]%N [] []).
  assert (V : bc_valid (Bc [(5, 20)]%N [(1, [5])]%N [(5, 1)]%N [] [])).
  { unfold bc_valid; cbn; unfold StreamSpec.size_ok, StreamSpec.fits; cbn. repeat split; repeat constructor; cbn; try lia; intuition congruence. }
  split; [exact V|]. split; [|exact (end_exists _ _ _ _ (boundary_ends 2 _ V))].
  apply (from_zero_end 2 (bc_parcels (Bc [(5, 20)]%N [(1, [5])]%N [(5, 1)]%N [] []))). intros log H. eexists. unfold bc_read. rewrite (H 1) by lia. split; [vm_compute; reflexivity|]. repeat split.
Qed.
Print Assumptions C102_boundary_refuted.

(** The zones and the names are right; the types are those of process 0 except where a kind of list is
    known. *)
Theorem C102_boundary_partial : forall nprocs b, bc_valid b ->
  ends_with (communicateAllProcsStoredBC nprocs b) (20 * (nprocs - 1)) (fun log => forall me, 0 < me -> me < nprocs ->
    exists c, bc_read b me (log me) = Some c /\ zonetobndpid c = zonetobndpid b /\ bcpidnames c = bcpidnames b /\ zonepidnames c = zonepidnames b /\ pidtolisttype c = [] /\
      forall pid, StreamSpec.value_of N.eq_dec pid (pidtobc c) = match StreamSpec.value_of N.eq_dec pid (pidtolisttype b) with Some y => Some y | None => StreamSpec.value_of N.eq_dec pid (pidtobc b) end).
Proof. exact boundary_ends. Qed.
Print Assumptions C102_boundary_partial.

(** Fields without geometry on the other processes: process 0 has the entries of all, one for each id,
    that of the first process that has it, with the name and the location of its own field. *)
Theorem C102_collect_partial : forall nprocs memory t (loc : nat -> field (den t)), 0 < nprocs -> StreamSpec.no_map_in_map (TField t) = true ->
  (forall r, r < nprocs -> StreamSpec.valid (TField t) (loc r)) -> (forall r, 0 < r < nprocs -> snd (f_geo (loc r)) = 0%N) ->
  ends_with (collectDataFromAllProcs nprocs t loc) (4 * (nprocs - 1)) (fun log => exists f, data_collected memory t loc (log 0) = Some f /\
    f_name f = f_name (loc 0) /\ f_loc f = f_loc (loc 0) /\ one_each (f_data f) /\ from_first (seq 0 nprocs) (fun r => f_data (loc r)) (f_data f)).
Proof. exact collect_ends. Qed.
Print Assumptions C102_collect_partial.

(** As soon as the field of another process is linked to its geometry, process 0 uses a pointer into
    the memory of the other. *)
Theorem C102_collect_refuted : forall nprocs memory t (loc : nat -> field (den t)) r, StreamSpec.no_map_in_map (TField t) = true ->
  (forall r, r < nprocs -> StreamSpec.valid (TField t) (loc r)) ->
  0 < r < nprocs -> snd (f_geo (loc r)) <> 0%N -> memory (snd (f_geo (loc r))) = false ->
  ends_with (collectDataFromAllProcs nprocs t loc) (4 * (nprocs - 1)) (fun log => data_collected memory t loc (log 0) = None) /\
  exists k s, steps k (start (collectDataFromAllProcs nprocs t loc)) s /\ all_done s.
Proof.
  intros nprocs memory t loc r O V L Z M. pose proof (collect_foreign nprocs memory t loc r O V L Z M) as H. split; [exact H|exact (end_exists _ _ _ _ H)].
Qed.
Print Assumptions C102_collect_refuted.

(** Every process has in the end the nodes, the displacements and the radii of all, by increasing id:
    its own, then those of the first process that has them. *)
Theorem C102_nodes_first : forall nprocs mine, (forall r, r < nprocs -> maps_valid (mine r)) ->
  ends_with (exchange nprocs mine) (12 * nprocs * nprocs) (fun log => forall me, me < nprocs ->
    exists m, maps_known mine me (log me) = Some m /\ maps_first (me :: other nprocs me) mine m).
Proof. exact exchange_ends. Qed.
Print Assumptions C102_nodes_first.

(** If the processes do not contradict each other they all have the same. *)
Theorem C102_nodes : forall nprocs mine, (forall r, r < nprocs -> maps_valid (mine r)) ->
  agree nprocs (fun r => m_nodes (mine r)) -> agree nprocs (fun r => m_displs (mine r)) -> agree nprocs (fun r => m_radii (mine r)) ->
  ends_with (exchange nprocs mine) (12 * nprocs * nprocs) (fun log => exists m, (forall me, me < nprocs -> maps_known mine me (log me) = Some m) /\
    (0 < nprocs -> by_increasing_id (m_nodes m) /\ by_increasing_id (m_displs m) /\ by_increasing_id (m_radii m) /\
     union nprocs (fun r => m_nodes (mine r)) (m_nodes m) /\ union nprocs (fun r => m_displs (mine r)) (m_displs m) /\ union nprocs (fun r => m_radii (mine r)) (m_radii m))).
Proof.
  intros nprocs mine V A1 A2 A3 k s Hs. destruct (exchange_ends nprocs mine V k s Hs) as (Hk & Hp & Hd). split; [exact Hk|]. split; [exact Hp|]. intros D. specialize (Hd D).
  destruct nprocs as [|n]; [exists (Maps [] [] []); split; [intros me L; lia|intros L; lia]|].
  assert (U : forall me m, me < S n -> maps_first (me :: other (S n) me) mine m -> union (S n) (fun r => m_nodes (mine r)) (m_nodes m) /\ union (S n) (fun r => m_displs (mine r)) (m_displs m) /\ union (S n) (fun r => m_radii (mine r)) (m_radii m)).
  { intros me m L (_ & F1 & F2 & F3). split; [|split].
    - refine (first_union _ _ _ me _ L A1 _ F1). intros r Lr. apply inc_once, inc_by. apply (V r Lr).
    - refine (first_union _ _ _ me _ L A2 _ F2). intros r Lr. apply inc_once, inc_by. apply (V r Lr).
    - refine (first_union _ _ _ me _ L A3 _ F3). intros r Lr. apply inc_once, inc_by. apply (V r Lr). }
  destruct (Hd 0 (Nat.lt_0_succ n)) as (m0 & E0 & F0). destruct (U 0 m0 (Nat.lt_0_succ n) F0) as (W1 & W2 & W3). destruct F0 as ((B1 & B2 & B3) & _).
  exists m0. split; [|intros _; repeat split; try assumption; try (apply W1); try (apply W2); apply W3]. intros me L. destruct (Hd me L) as (m & E & F). rewrite E. f_equal. destruct (U me m L F) as (X1 & X2 & X3). destruct F as ((C1 & C2 & C3) & _).
  assert (Q1 : m_nodes m = m_nodes m0) by (apply inc_unique; [apply inc_by; exact C1|apply inc_by; exact B1|]; intros id x; rewrite (X1 id x), (W1 id x); reflexivity).
  assert (Q2 : m_displs m = m_displs m0) by (apply inc_unique; [apply inc_by; exact C2|apply inc_by; exact B2|]; intros id x; rewrite (X2 id x), (W2 id x); reflexivity).
  assert (Q3 : m_radii m = m_radii m0) by (apply inc_unique; [apply inc_by; exact C3|apply inc_by; exact B3|]; intros id x; rewrite (X3 id x), (W3 id x); reflexivity).
  destruct m, m0. cbn in *. congruence.
Qed.
Print Assumptions C102_nodes.

(** A vertex shared by two processes with different displacements: each keeps its own. *)
Definition shared_vertex (r : nat) : rbf_maps :=
  Maps [(3, [0; 0; 0])]%N [(3, if Nat.eqb r 0 then [1; 0; 0] else [2; 0; 0])]%N [].
Theorem C102_nodes_differ_refuted : (forall r, r < 2 -> maps_valid (shared_vertex r)) /\
  ends_with (exchange 2 shared_vertex) 48 (fun log => exists m m', maps_known shared_vertex 0 (log 0) = Some m /\ maps_known shared_vertex 1 (log 1) = Some m' /\ m_displs m <> m_displs m') /\
  exists k s, steps k (start (exchange 2 shared_vertex)) s /\ all_done s.
Proof.
  assert (V : forall r, r < 2 -> maps_valid (shared_vertex r)).
  { intros r _. unfold maps_valid, shared_vertex. cbn. unfold StreamSpec.size_ok, StreamSpec.fits. cbn.
    assert (B : forall (A : Type) (e : N * A), by_increasing_id [e]) by (intros A e i j a b L _ H; destruct j as [|[|j]]; [lia|discriminate|discriminate]).
    assert (B0 : forall A : Type, by_increasing_id (@nil (N * A))) by (intros A i j a b L H; destruct i; discriminate).
    destruct (Nat.eqb r 0); (repeat split; repeat constructor; cbn; try lia; auto). }
  split; [exact V|]. pose proof (exchange_ends 2 shared_vertex V) as H. split; [|exact (end_exists _ _ _ _ H)].
  apply (to_all_end 2 (fun r => rbf_parcels (shared_vertex r)) [(900, 910); (920, 930); (920, 930)]); [reflexivity|]. intros log L. exists (Maps [(3, [0; 0; 0])]%N [(3, [1; 0; 0])]%N []), (Maps [(3, [0; 0; 0])]%N [(3, [2; 0; 0])]%N []).
  unfold maps_known. rewrite (L 0), (L 1) by lia. split; [vm_compute; reflexivity|]. split; [vm_compute; reflexivity|]. cbn. discriminate.
Qed.
Print Assumptions C102_nodes_differ_refuted.

(** The lists given to the RBF: the nodes by increasing id, the displacement of each (zero if it has
    none) and, if each node has a radius or none has, its radius. *)
Theorem C102_lists : forall m, one_each (m_radii m) -> one_each (m_displs m) -> m_radii m = [] \/ map fst (m_radii m) = map fst (m_nodes m) ->
  exists displs, rbf_lists m = Some (map snd (m_nodes m), displs, map snd (m_radii m)) /\ length displs = length (m_nodes m) /\
    forall i id c, nth_error (m_nodes m) i = Some (id, c) ->
      (forall d, gives (m_displs m) id d -> nth_error displs i = Some d) /\ ((forall d, ~ gives (m_displs m) id d) -> nth_error displs i = Some [0; 0; 0]%N).
Proof.
  intros m O D H. unfold rbf_lists.
  assert (Q : put_radii (m_radii m) (map fst (m_nodes m)) 0 (repeat 0%N (length (m_radii m))) = Some (map snd (m_radii m))).
  { destruct H as [-> | H]; [apply put_radii_none|]. rewrite <- H. apply (put_radii_all (m_radii m) (m_radii m) []); [exact O|auto]. }
  rewrite Q. eexists. split; [reflexivity|]. split; [apply map_length|]. intros i id c N. split.
  - intros d G. erewrite map_nth_error by exact N. cbn [fst]. rewrite (entry_here _ _ id d D G). reflexivity.
  - intros Z. erewrite map_nth_error by exact N. cbn [fst]. destruct (entry_of id (m_displs m)) as [d|] eqn:E; [|reflexivity]. exfalso. apply (Z d). clear - E. induction (m_displs m) as [|(j, x) l IH]; [discriminate|]. cbn [entry_of] in E. destruct (N.eqb_spec j id) as [-> | D]; [injection E as <-; left; reflexivity|right; exact (IH E)].
Qed.
Print Assumptions C102_lists.

(** A radius for the second node only: the list of the radii is overrun. *)
Theorem C102_radii_refuted : exists m, maps_valid m /\ rbf_lists m = None.
Proof.
  exists (Maps [(1, [0; 0; 0]); (2, [1; 0; 0])]%N [] [(2, 7)]%N). split; [|reflexivity].
  unfold maps_valid. cbn. unfold StreamSpec.size_ok, StreamSpec.fits. cbn.
  assert (B : forall (A : Type) (e : N * A), by_increasing_id [e]) by (intros A e i j a b L _ H; destruct j as [|[|j]]; [lia|discriminate|discriminate]).
  assert (B0 : forall A : Type, by_increasing_id (@nil (N * A))) by (intros A i j a b L H; destruct i; discriminate).
  repeat split; repeat constructor; cbn; try lia; auto. intros i j a b L Ha Hb. destruct i as [|[|[|i]]]; destruct j as [|[|[|j]]]; cbn in *; try lia; try discriminate. injection Ha as <-. injection Hb as <-. cbn. lia.
Qed.
Print Assumptions C102_radii_refuted.

(** three processes: a field with an entry on each, two of them of the same id *)
Definition three (r : nat) : field (den (TNum 8)) :=
  Build_field (0, 0)%N data_name 1 (match r with O => [(4, 40)] | S O => [(5, 50); (4, 41)] | _ => [(6, 60)] end)%N.
Example C102_nonvacuous :
  ends_with (collectDataFromAllProcs 3 (TNum 8) three) 8 (fun log => exists f, data_collected (fun _ => false) (TNum 8) three (log 0) = Some f /\ f_data f = [(4, 40); (5, 50); (6, 60)]%N) /\
  (forall r, r < 3 -> StreamSpec.valid (TField (TNum 8)) (three r)) /\
  (exists k s, steps k (start (sendReadDataToAllProcs 3 (TVec TStr) [[65; 66]; []]%N)) s /\ all_done s /\ data_read (TVec TStr) [[65; 66]; []]%N 2 (got s 2) = Some [[65; 66]; []]%N) /\
  agree 2 (fun r => m_nodes (shared_vertex r)).
Proof.
  split; [|split; [|split]].
  - apply (to_zero_end 3 (fun r => [Parcel 100 110 (write (TField (TNum 8)) (three r))]) [(100, 110)]); [reflexivity|]. intros log H. eexists. unfold data_collected. rewrite H. split; vm_compute; reflexivity.
  - intros [|[|[|r]]] L; try lia; cbn; unfold StreamSpec.chars_ok, StreamSpec.size_ok, StreamSpec.fits; cbn; repeat split; repeat constructor; cbn; try lia; intuition congruence.
  - assert (V : StreamSpec.valid (TVec TStr) [[65; 66]; []]%N) by (cbn; unfold StreamSpec.chars_ok, StreamSpec.size_ok, StreamSpec.fits; cbn; repeat split; repeat constructor; cbn; lia).
    pose proof (read_ends 3 (TVec TStr) [[65; 66]; []]%N eq_refl V) as H. destruct (end_exists _ _ _ _ H) as (k & s & Hs & D). exists k, s. split; [exact Hs|]. split; [exact D|]. apply (H k s Hs); [exact D|lia].
  - intros r q id x y _ _ [G | []] [G' | []]. congruence.
Qed.
