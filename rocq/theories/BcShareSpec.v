(** Boundary conditions: maps from numbers, kept through a stream and equal on all the processes. *)
From Coq Require Import List ZArith Sorting.Sorted.
From Verif Require Import BcShare.
Local Open Scope Z_scope.

(** the elements of a map are in the order of their keys, each key once *)
Definition a_map {V} (m : list (Z * V)) : Prop := StronglySorted (fun a b => fst a < fst b) m.
Definition all_maps (b : bccgns) : Prop :=
  a_map (pidtobc b) /\ a_map (zonetobndpid b) /\ a_map (pidtolisttype b) /\ a_map (bcpidnames b) /\ a_map (zonepidnames b).
(** the element of a key *)
Definition has {V} (m : list (Z * V)) (k : Z) (v : V) : Prop := In (k, v) m.
Definition no_key {V} (m : list (Z * V)) (k : Z) : Prop := forall v, ~ In (k, v) m.
