(** Property theorems C18, C19, C44, C45. *)
From Coq Require Import List Arith Bool Lia.
From Verif Require Import SharedPtr Registry RegistrySpec RegistryProofs.
Import ListNotations.

(** C18: after any history of addPort calls, the ids of ports, containers and data types are
    0 .. k-1, each used once; a name is registered iff it was in a call, with the container, data
    type and file of its first call; the containers and data types registered are those of the
    first calls; and each call returned the id of its port. *)
Theorem C18_registry : forall debug h r ids, register debug new_registry h = Some (r, ids) ->
  consecutive p_id (ports r) /\ consecutive (fun x => x) (containers r) /\ consecutive (fun x => x) (datatypes r) /\
  (forall n, match first_call n h with
             | None => contains n (ports r) = false
             | Some c => exists i, find n (ports r) = Some i /\ p_con i = c_con c /\ p_dat i = c_dat c /\ p_file i = c_file c
             end) /\
  (forall x, In x (map fst (containers r)) <-> exists c, is_first h c /\ c_con c = x) /\
  (forall x, In x (map fst (datatypes r)) <-> exists c, is_first h c /\ c_dat c = x) /\
  length ids = length h /\
  (forall k c i, nth_error h k = Some c -> nth_error ids k = Some i ->
     exists f, find (c_name c) (ports r) = Some f /\ p_id f = i).
Proof. exact registry_ok. Qed.
Print Assumptions C18_registry.

(** Later registrations never change what was recorded. *)
Theorem C18_stable : forall debug h1 h2 r1 ids1 r2 ids2,
  register debug new_registry h1 = Some (r1, ids1) -> register debug new_registry (h1 ++ h2) = Some (r2, ids2) ->
  (forall n i, find n (ports r1) = Some i -> find n (ports r2) = Some i) /\
  (forall x i, find x (containers r1) = Some i -> find x (containers r2) = Some i) /\
  (forall x i, find x (datatypes r1) = Some i -> find x (datatypes r2) = Some i).
Proof. exact registry_stable. Qed.
Print Assumptions C18_stable.

(** The debug build stops exactly when two calls disagree on a port. *)
Theorem C18_conflicts_stop_debug_builds : forall h, (exists x, register true new_registry h = Some x) <->
  (forall c c', In c h -> In c' h -> c_name c = c_name c' -> c_con c = c_con c' /\ c_dat c = c_dat c').
Proof. exact registry_debug. Qed.
Print Assumptions C18_conflicts_stop_debug_builds.

Definition calls : list call :=
  [ {| c_name := 5; c_con := 1; c_dat := 2; c_file := 0 |}; {| c_name := 6; c_con := 1; c_dat := 3; c_file := 0 |};
    {| c_name := 5; c_con := 1; c_dat := 2; c_file := 9 |}; {| c_name := 4; c_con := 8; c_dat := 2; c_file := 0 |} ].
Example C18_nonvacuous :
  register true new_registry calls = register false new_registry calls /\
  option_map snd (register true new_registry calls) = Some [0; 1; 0; 2] /\
  (let bad := calls ++ [ {| c_name := 4; c_con := 1; c_dat := 2; c_file := 0 |} ] in
   register true new_registry bad = None /\ option_map snd (register false new_registry bad) = Some [0; 1; 0; 2; 2]).
Proof. repeat split. Qed.

(** C44 fails in a release build: asking for the data of an unregistered port registers it, with
    the id of another port. *)
Theorem C44_lookup_registers_refuted : exists h r ids n r' i other,
  register false new_registry h = Some (r, ids) /\ contains n (ports r) = false /\
  get_port_data false r n = Some (r', i) /\ contains n (ports r') = true /\
  n <> other /\ option_map p_id (find n (ports r')) = option_map p_id (find other (ports r')) /\
  contains other (ports r') = true.
Proof.
  exists calls. eexists. eexists. exists 77. eexists. eexists. exists 5.
  split; [reflexivity|]. split; [reflexivity|]. split; [reflexivity|]. split; [reflexivity|].
  split; [discriminate|]. split; reflexivity.
Qed.
Print Assumptions C44_lookup_registers_refuted.

(** The lookup of a registered port, and any lookup that returns in a debug build, change nothing. *)
Theorem C44_lookup_partial : forall debug r n r' i,
  get_port_data debug r n = Some (r', i) -> debug = true \/ contains n (ports r) = true ->
  r' = r /\ find n (ports r) = Some i.
Proof.
  intros debug r n r' i. unfold get_port_data, contains. destruct (find n (ports r)) as [j|].
  - intros [= <- <-] _. auto.
  - destruct debug; [discriminate|]. intros _ [H|H]; discriminate.
Qed.
Print Assumptions C44_lookup_partial.
Example C44_nonvacuous : exists r ids i, register true new_registry calls = Some (r, ids) /\
  get_port_data true r 6 = Some (r, i) /\ p_dat i = 3.
Proof. repeat eexists. Qed.

(** C19: when every creator is given to the factory once, create(name) calls the creator last
    added for that name and not removed, and returns null iff there is none. *)
Theorem C19_create : forall h, NoDup (added h) -> exists f, frun new_factory h = Some f /\
  (forall n, create n f = Some (registered n h)) /\
  NoDup (registered_blocks f) /\
  (forall n, In n (registered_blocks f) <-> exists c, registered n h = Some c).
Proof. exact factory_ok. Qed.
Print Assumptions C19_create.

(** Creators are deleted once: when replaced or removed, and at the end of the program. *)
Theorem C19_deleted_once : forall h, NoDup (added h) -> exists f f', frun new_factory h = Some f /\
  NoDup (deleted f) /\
  (forall c, In c (deleted f) <-> In c (added h) /\ forall n, registered n h <> Some c) /\
  destroy_factory f = Some f' /\ NoDup (deleted f') /\ (forall c, In c (deleted f') <-> In c (added h)).
Proof. exact factory_deletes_once. Qed.
Print Assumptions C19_deleted_once.

(** Registering the same creator again for its name deletes it and keeps it: create then uses a
    deleted creator. *)
Theorem C19_same_creator_refuted : exists h n c f,
  frun new_factory h = Some f /\ registered n h = Some c /\ create n f = None.
Proof. exists [AddCreator 1 10; AddCreator 1 10], 1, 10. eexists. repeat split. Qed.
Print Assumptions C19_same_creator_refuted.

Definition factory_history : list fop :=
  [AddCreator 1 10; AddCreator 2 20; Create 1; AddCreator 1 11; RemoveCreator 2; Create 2; AddCreator 3 30].
Example C19_nonvacuous : NoDup (added factory_history) /\
  registered 1 factory_history = Some 11 /\ registered 2 factory_history = None /\ registered 3 factory_history = Some 30.
Proof.
  split; [|repeat split].
  repeat constructor; simpl; intuition discriminate.
Qed.

(** C45 fails: addCreator does not return the number of registered creators, but one more. *)
Theorem C45_count_refuted : exists n c f' k, add_creator n c new_factory = Some (f', k) /\ k <> length (registered_blocks f').
Proof. exists 1, 10. eexists. eexists. split; [reflexivity|discriminate]. Qed.
Print Assumptions C45_count_refuted.
Theorem C45_count_partial : forall h n c, NoDup (added (h ++ [AddCreator n c])) -> exists f f' k,
  frun new_factory h = Some f /\ add_creator n c f = Some (f', k) /\
  k = length (registered_blocks f') + 1.
Proof. exact add_returns. Qed.
Print Assumptions C45_count_partial.
Example C45_nonvacuous : NoDup (added (factory_history ++ [AddCreator 3 31])).
Proof. repeat constructor; simpl; intuition discriminate. Qed.
