(** Property theorems about mimmo::Chain (C01 - C06). *)
From Coq Require Import List ZArith Bool Arith Lia Permutation Relations.
From Verif Require Import Chain ChainSpec ChainProofs ChainWitness.
Import ListNotations.
Open Scope nat_scope.

(** C01. *)
Theorem C01_chain_order :
  forall g, consistent g -> acyclic g ->
  forall reqs, NoDup (map fst reqs) ->
  exists n c,
    (forall fuel, n <= fuel -> add_objects fuel g empty_chain reqs = CDone c 0) /\
    Permutation (entries c) (assigned 0 reqs) /\
    ordered g (objs (entries c)).
Proof. exact add_objects_spec. Qed.
Print Assumptions C01_chain_order.

Example C01_nonvacuous :
  consistent diamond /\ acyclic diamond /\ NoDup (map fst [en 3 (-1); en 1 7; en 0 (-1); en 2 (-1)]) /\
  add_objects 5 diamond empty_chain [en 3 (-1); en 1 7; en 0 (-1); en 2 (-1)]
  = CDone {| entries := [en 0 1; en 1 7; en 2 2; en 3 0]; counter := 3 |} 0.
Proof. exact diamond_example. Qed.

(** C02: refuted by a cycle of three blocks, whose last member is never inserted: the
    recursion of addObject does not end. *)
Theorem C02_addObject_returns_refuted :
  exists g c o, consistent g /\
    (exists reqs, add_objects 3 g empty_chain reqs = CDone c 0) /\
    forall fuel id, add_object fuel g c o id = COutOfFuel.
Proof. exact cycle3_never_returns. Qed.
Print Assumptions C02_addObject_returns_refuted.

(** C02, the part that holds: on acyclic pins addObject returns a valid (non-negative) result,
    and a result of -1 means that the chain is unchanged and that the object and an object of
    the chain are linked both ways. *)
Theorem C02_addObject_returns_partial :
  forall g, consistent g ->
  (acyclic g -> forall c o id, NoDup (o :: objs (entries c)) -> ordered g (objs (entries c)) ->
     exists n c' r, (forall fuel, n <= fuel -> add_object fuel g c o id = CDone c' r) /\ (0 <= r)%Z /\
        ordered g (objs (entries c'))) /\
  (forall fuel c o id c', NoDup (objs (entries c)) -> add_object fuel g c o id = CDone c' (-1) ->
     entries c' = entries c /\ exists x, In x (objs (entries c)) /\ edge g o x /\ edge g x o).
Proof.
  exact (fun g Hg => conj (fun Hac => add_object_returns g Hg Hac)
                          (fun fuel c o id c' ND => add_minus_one g c o id fuel c' Hg ND)).
Qed.
Print Assumptions C02_addObject_returns_partial.

Example C02_minus_one_happens :
  add_object 5 two_cycle {| entries := [en 0 0]; counter := 1 |} 1 (-1)
  = CDone {| entries := [en 0 0]; counter := 2 |} (-1).
Proof. reflexivity. Qed.

(** C03: refuted when two parents have to be moved. *)
Theorem C03_returned_index_refuted :
  exists g c o c' r, consistent g /\ acyclic g /\ ordered g (objs (entries c)) /\
    NoDup (o :: objs (entries c)) /\
    add_object 5 g c o (-1) = CDone c' (Z.of_nat r) /\
    nth_error (objs (entries c')) r <> Some o.
Proof. exact returned_index_wrong. Qed.
Print Assumptions C03_returned_index_refuted.

(** C03 holds when no parent of the object stands after one of its children. *)
Theorem C03_returned_index_partial :
  forall g c o id, consistent g -> NoDup (o :: objs (entries c)) ->
  (forall p x, In p (parents g o) -> In x (children g o) ->
     forall i j, nth_error (objs (entries c)) i = Some p ->
                 nth_error (objs (entries c)) j = Some x -> i < j) ->
  forall fuel, 1 <= fuel ->
  exists c' r, add_object fuel g c o id = CDone c' (Z.of_nat r) /\
     nth_error (objs (entries c')) r = Some o.
Proof. exact add_direct_index. Qed.
Print Assumptions C03_returned_index_partial.

Example C03_nonvacuous :
  add_object 1 diamond {| entries := [en 0 0; en 1 1; en 3 2]; counter := 3 |} 2 (-1)
  = CDone {| entries := [en 0 0; en 1 1; en 2 3; en 3 2]; counter := 4 |} 2.
Proof. reflexivity. Qed.

(** C04. *)
Theorem C04_exec_order :
  forall g l, NoDup (objs l) ->
  (exec g l = None /\ ~ ordered g (objs l)) \/
  (exec g l = Some (objs l) /\ ordered g (objs l)).
Proof. exact exec_spec. Qed.
Print Assumptions C04_exec_order.

Theorem C04_exec_cycle :
  forall g l, has_cycle_in g (objs l) -> exec g l = None.
Proof. exact exec_cycle. Qed.
Print Assumptions C04_exec_cycle.

Example C04_nonvacuous :
  exec diamond [en 0 1; en 2 2; en 1 7; en 3 0] = Some [0; 2; 1; 3] /\
  exec diamond [en 0 1; en 3 2; en 1 7] = None /\
  has_cycle_in two_cycle (objs [en 1 0; en 0 1]).
Proof. exact exec_examples. Qed.

(** C05: refuted by a pin added after the objects. *)
Theorem C05_loop_error_only_for_loops_refuted :
  exists g0 g1 c, acyclic g0 /\ acyclic g1 /\ consistent g0 /\ consistent g1 /\
    (exists reqs, add_objects 3 g0 empty_chain reqs = CDone c 0) /\
    (forall p x, edge g0 p x -> edge g1 p x) /\
    exec g1 (entries c) = None.
Proof. exact late_pin_loop_error. Qed.
Print Assumptions C05_loop_error_only_for_loops_refuted.

(** C05 holds for a chain filled after its pins were made. *)
Theorem C05_loop_error_only_for_loops_partial :
  forall g, consistent g -> acyclic g ->
  forall reqs, NoDup (map fst reqs) ->
  exists n c, (forall fuel, n <= fuel -> add_objects fuel g empty_chain reqs = CDone c 0) /\
     exec g (entries c) = Some (objs (entries c)).
Proof. exact no_loop_error_when_pins_first. Qed.
Print Assumptions C05_loop_error_only_for_loops_partial.

(** C06: automatic ids stay distinct over any history, even with pins changing in between;
    deletion removes exactly the object with the id; a clone of a well-ordered chain is the
    same list. *)
Theorem C06_ids_distinct :
  forall fuel ops c r, run_ops fuel empty_chain ops = CDone c r -> NoDup (ids (entries c)).
Proof. exact (fun fuel ops c r H => proj1 (run_ops_ids fuel ops empty_chain c r empty_ids_inv H)). Qed.
Print Assumptions C06_ids_distinct.

Theorem C06_delete_exact :
  forall g c id, NoDup (ids (entries c)) ->
  entries (fst (delete_object g c id)) = filter (fun e => negb (Z.eqb (snd e) id)) (entries c) /\
  (snd (delete_object g c id) = true <->
   exists o, In (o, id) (entries c) /\ (parents g o <> [] \/ children g o <> [])).
Proof. exact delete_object_exact. Qed.
Print Assumptions C06_delete_exact.

Theorem C06_clone_same :
  forall g c, consistent g -> NoDup (objs (entries c)) -> ordered g (objs (entries c)) ->
  (forall e, In e (entries c) -> (0 <= snd e)%Z) ->
  forall fuel, 1 <= fuel -> exists c', clone fuel g c = CDone c' 0 /\ entries c' = entries c.
Proof. exact clone_same. Qed.
Print Assumptions C06_clone_same.

(** Refuted for a clone: the next automatic id in a clone is already in use. *)
Theorem C06_ids_after_clone_refuted :
  exists g c c1 c2, consistent g /\ acyclic g /\
    (exists reqs, add_objects 3 g empty_chain reqs = CDone c 0) /\
    clone 3 g c = CDone c1 0 /\ add_object 3 g c1 9 (-1) = CDone c2 1 /\
    ~ NoDup (ids (entries c2)).
Proof. exact clone_id_collision. Qed.
Print Assumptions C06_ids_after_clone_refuted.

Example C06_nonvacuous :
  run_ops 5 empty_chain [(diamond, OpAdd 3); (diamond, OpAdd 0); (diamond, OpDel 0%Z);
                         (diamond, OpAdd 1); (diamond, OpAdd 3)]
  = CDone {| entries := [en 0 1; en 1 2; en 3 3]; counter := 4 |} 0.
Proof. reflexivity. Qed.
