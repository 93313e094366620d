(** What is asked of processes that communicate: they do as if the communications were made one at a
    time, in an order that does not depend on the schedule. *)
From Coq Require Import List Arith Bool.
From Verif Require Import Mpi.
Import ListNotations.

Section Spec.
  Context {W : Type}.
  (** one communication: from, to, tag, what is sent, the room for it *)
  Record comm := Comm { c_src : nat; c_dst : nat; c_tag : nat; c_data : list (rcv W) -> list W; c_room : list (rcv W) -> nat }.
  (** one at a time: what every process has received *)
  Fixpoint play (cs : list comm) (log : nat -> list (rcv W)) : nat -> list (rcv W) :=
    match cs with
    | [] => log
    | c :: r => play r (fun j => if Nat.eqb j (c_dst c) then log j ++ [(c_src c, c_tag c, c_data c (log (c_src c)))] else log j)
    end.
  (** no process sends to itself, and the messages have room *)
  Fixpoint fits (cs : list comm) (log : nat -> list (rcv W)) : Prop :=
    match cs with
    | [] => True
    | c :: r => c_src c <> c_dst c /\ length (c_data c (log (c_src c))) <= c_room c (log (c_dst c)) /\
        fits r (fun j => if Nat.eqb j (c_dst c) then log j ++ [(c_src c, c_tag c, c_data c (log (c_src c)))] else log j)
    end.
  (** the calls of process i for the communications *)
  Definition side (i : nat) (c : comm) : list (op W) :=
    if Nat.eqb (c_src c) i then [Send (c_dst c) (c_tag c) (c_data c)]
    else if Nat.eqb (c_dst c) i then [Recv (c_src c) (c_tag c) (c_room c)] else [].

  (** Whatever the schedule and the choices of the library: the processes never wait for each other for
      ever (even if nothing is ever copied), they end, and what they receive is always the same. *)
  Definition always_ends (p : nat -> list (op W)) (bound : nat) (result : nat -> list (rcv W)) : Prop :=
    forall k s, steps k (start p) s ->
      k <= bound /\
      (all_done s \/ exists s', recv_step s s') /\
      (all_done s -> forall i, got s i = result i).
End Spec.
Arguments comm : clear implicits.
