(** Concrete histories for C20 and C43. *)
From Coq Require Import List Arith Bool.
From Verif Require Import SharedPtr SharedPtrSpec.
Import ListNotations.

(** Two objects, copies, moves, self assignment, swap, reset; every variable destroyed at the end. *)
Definition busy : list op :=
  [ NewObject 7; Construct 0 (Some 7) 100; CopyConstruct 1 0; Construct 2 None 0; Assign 2 1;
    Assign 2 2; NewObject 8; Construct 3 (Some 8) 101; Swap 3 0; MoveConstruct 4 3; MoveAssign 3 4;
    StreamOut 3 50; StreamIn 4 50 0 ].
Definition busy_end : list op :=
  [ Reset 0 None 0; Destroy 0; Destroy 1; Destroy 2; Destroy 3; Destroy 4 ].

Lemma busy_disciplined : disciplined nobody (busy ++ busy_end).
Proof.
  vm_compute. intuition auto. exists (Some 7). auto.
Qed.
Lemma busy_runs : exists s, run start busy = Ok s /\ objects s = [8; 7] /\
  get 3 s = Ok (Some 7) /\ get_counter 3 s = Ok 4 /\ get 4 s = Ok (Some 7) /\ get_counter 0 s = Ok 1.
Proof. eexists. split; [vm_compute; reflexivity|]. repeat split. Qed.
Lemma busy_all : run start (busy ++ busy_end) = Ok {| handles := []; counters := []; objects := [];
  msgs := [(50, {| h_obj := Some 7; h_cnt := Some 100 |})] |}.
Proof. vm_compute. reflexivity. Qed.

(** An address used again by a new object after the first one has been deleted. *)
Definition reuse : list op :=
  [ NewObject 7; Construct 0 (Some 7) 100; Destroy 0; NewObject 7; Construct 0 (Some 7) 100; CopyConstruct 1 0 ].
Lemma reuse_runs : disciplined nobody reuse /\ exists s, run start reuse = Ok s /\ get_counter 1 s = Ok 2.
Proof. split; [vm_compute; intuition auto|]. eexists. split; vm_compute; reflexivity. Qed.

(** h.reset(h.get()): the object is deleted, then taken again; its end is a double deletion. *)
Definition reset_own : list op := [ NewObject 7; Construct 0 (Some 7) 100; Reset 0 (Some 7) 101; Destroy 0 ].
Lemma reset_own_ub : run start reset_own = UB.
Proof. vm_compute. reflexivity. Qed.

(** writeBuffer (InOut.tpp 130-133): the getter returns the only owner, kept in a local variable
    (1) of the sender while it is streamed, and destroyed before the receiver reads it into a
    default constructed variable (2). *)
Definition getter_makes_it : list op :=
  [ NewObject 7; Construct 1 (Some 7) 100; StreamOut 1 50; Destroy 1;
    Construct 2 None 0; StreamIn 2 50 0 ].
Lemma getter_makes_it_ub : run start getter_makes_it = UB.
Proof. vm_compute. reflexivity. Qed.
Lemma getter_prefix_fine : disciplined nobody (firstn 5 getter_makes_it) /\ exists s, run start (firstn 5 getter_makes_it) = Ok s.
Proof. split; [vm_compute; intuition auto|]. eexists. vm_compute. reflexivity. Qed.

(** A pointer streamed out and read back in the same variable, its only owner. *)
Definition read_back : list op := [ NewObject 7; Construct 0 (Some 7) 100; StreamOut 0 50; StreamIn 0 50 0 ].
Lemma read_back_ub : run start read_back = UB.
Proof. vm_compute. reflexivity. Qed.
