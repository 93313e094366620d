(** Property theorems C20 and C43. *)
From Coq Require Import List Arith Bool.
From Verif Require Import SharedPtr SharedPtrSpec SharedPtrProofs SharedPtrWitness.
Import ListNotations.

(** C20: a program that gives each raw pointer only once never touches freed memory (the run is
    neither UB nor stuck); each variable holds what the operations mean, its counter is the
    number of variables holding the same object, the objects in memory are those still raw and
    those with an owner, and the counters in memory are those in use. *)
Theorem C20_shared_ownership : forall l, disciplined nobody l -> run start l <> NoExec ->
  exists s, run start l = Ok s /\
    (forall h o, find h (holds (meanings nobody l)) = Some o -> get h s = Ok o /\
       get_counter h s = Ok (match o with Some o => n_owners o (holds (meanings nobody l)) | None => 0 end)) /\
    (forall o, In o (objects s) <-> In o (raw (meanings nobody l)) \/ owned o (holds (meanings nobody l)) = true) /\
    (forall c, In c (map fst (counters s)) <-> exists h v, In (h, v) (handles s) /\ h_cnt v = Some c).
Proof. exact shared_ok. Qed.
Print Assumptions C20_shared_ownership.

(** An object is deleted by an operation exactly when that operation takes its last owner away. *)
Theorem C20_deleted_with_last_owner : forall l x s s', disciplined nobody (l ++ [x]) ->
  run start l = Ok s -> run start (l ++ [x]) = Ok s' ->
  forall o, (In o (objects s) /\ ~ In o (objects s')) <->
            (owned o (holds (meanings nobody l)) = true /\ owned o (holds (meanings nobody (l ++ [x]))) = false /\
             ~ In o (raw (meanings nobody (l ++ [x])))).
Proof. exact deleted_when_last_goes. Qed.
Print Assumptions C20_deleted_with_last_owner.

Example C20_nonvacuous : disciplined nobody (busy ++ busy_end) /\ run start (busy ++ busy_end) <> NoExec /\
  (exists s, run start busy = Ok s /\ objects s = [8; 7] /\
     get 3 s = Ok (Some 7) /\ get_counter 3 s = Ok 4 /\ get 4 s = Ok (Some 7) /\ get_counter 0 s = Ok 1) /\
  disciplined nobody reuse /\ run start reset_own = UB.
Proof.
  split; [exact busy_disciplined|]. split; [rewrite busy_all; discriminate|].
  split; [exact busy_runs|]. split; [apply reuse_runs|exact reset_own_ub].
Qed.

(** C43 fails: every raw pointer is given once, the getter of the sending block returns a
    pointer that is the only owner of its object, and the receiver reads freed memory. *)
Theorem C43_streamed_pointer_refuted :
  (forall o h f, In (Construct h (Some o) f) getter_makes_it -> o = 7) /\
  (exists s, run start (firstn 5 getter_makes_it) = Ok s) /\
  run start getter_makes_it = UB /\ run start read_back = UB.
Proof.
  split; [|split; [apply getter_prefix_fine|split; [exact getter_makes_it_ub|exact read_back_ub]]].
  intros o h f. simpl. intuition congruence.
Qed.
Print Assumptions C43_streamed_pointer_refuted.

(** C43 holds while the object has an owner other than the variable read into. *)
Theorem C43_streamed_pointer_partial : forall l h m f o,
  disciplined nobody l -> find m (sent (meanings nobody l)) = Some (Some o) ->
  owned o (del h (holds (meanings nobody l))) = true ->
  run start (l ++ [StreamIn h m f]) <> NoExec ->
  exists s, run start (l ++ [StreamIn h m f]) = Ok s /\ get h s = Ok (Some o) /\ In o (objects s) /\
    get_counter h s = Ok (n_owners o (set h (Some o) (holds (meanings nobody l)))).
Proof. exact stream_in_ok. Qed.
Print Assumptions C43_streamed_pointer_partial.

Example C43_nonvacuous : exists l h m f o, disciplined nobody l /\ find m (sent (meanings nobody l)) = Some (Some o) /\
  owned o (del h (holds (meanings nobody l))) = true /\ run start (l ++ [StreamIn h m f]) <> NoExec.
Proof.
  exists (firstn 12 busy), 4, 50, 0, 7. split; [vm_compute; intuition auto|].
  split; [reflexivity|]. split; [reflexivity|]. vm_compute. discriminate.
Qed.
