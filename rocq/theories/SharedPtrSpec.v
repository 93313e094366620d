(** What shared ownership means, independently of counters: which object each variable holds,
    which raw objects no variable has taken yet, and which streamed pointers are still good. *)
From Coq Require Import List Arith Bool.
From Verif Require Import SharedPtr.
Import ListNotations.

Record owners := { holds : list (nat * option nat);   (* variable -> object held (None: empty) *)
                   raw : list nat;                     (* allocated, never given to a pointer *)
                   sent : list (nat * option nat) }.   (* buffer -> object streamed to it, still alive *)

Definition holds_obj (o : nat) (e : nat * option nat) : bool :=
  match snd e with Some o' => Nat.eqb o o' | None => false end.
Definition owned (o : nat) (l : list (nat * option nat)) : bool := existsb (holds_obj o) l.
Definition n_owners (o : nat) (l : list (nat * option nat)) : nat := length (filter (holds_obj o) l).

(** The meaning of each operation on the ownership. *)
Definition give (h : nat) (o : option nat) (a : owners) : owners :=
  {| holds := set h o (holds a); raw := match o with Some o => remove Nat.eq_dec o (raw a) | None => raw a end; sent := sent a |}.
Definition held (h : nat) (a : owners) : option nat :=
  match find h (holds a) with Some o => o | None => None end.
Definition write (h : nat) (o : option nat) (a : owners) : owners :=
  {| holds := set h o (holds a); raw := raw a; sent := sent a |}.

(** A streamed pointer to an object that has lost its last owner is stale: forgotten. *)
Definition prune (a : owners) : owners :=
  {| holds := holds a; raw := raw a;
     sent := filter (fun e => match snd e with Some o => owned o (holds a) | None => true end) (sent a) |}.

Definition meaning (a : owners) (x : op) : owners :=
  prune
  match x with
  | NewObject o => {| holds := holds a; raw := o :: raw a; sent := sent a |}
  | Construct h o _ => give h o a
  | CopyConstruct h k => write h (held k a) a
  | MoveConstruct h k => write k None (write h (held k a) a)
  | Assign h k => write h (held k a) a
  | MoveAssign h k => if Nat.eqb h k then a else write k None (write h (held k a) a)
  | Swap h k => write k (held h a) (write h (held k a) a)
  | Reset h o _ => give h o a
  | Destroy h => {| holds := del h (holds a); raw := raw a; sent := sent a |}
  | StreamOut k m => {| holds := holds a; raw := raw a; sent := set m (held k a) (sent a) |}
  | StreamIn h m _ => write h (match find m (sent a) with Some o => o | None => None end) a
  end.

Fixpoint meanings (a : owners) (l : list op) : owners :=
  match l with [] => a | x :: l => meanings (meaning a x) l end.
Definition nobody : owners := {| holds := []; raw := []; sent := [] |}.

(** The rule a program has to follow: a raw pointer is given to a pointer only once, and a
    streamed pointer is read only while the object has an owner other than the destination. *)
Definition follows_rule (a : owners) (x : op) : Prop :=
  match x with
  | Construct _ (Some o) _ | Reset _ (Some o) _ => In o (raw a)
  | StreamIn h m _ => exists r, find m (sent a) = Some r /\
                      match r with Some o => owned o (del h (holds a)) = true | None => True end
  | _ => True
  end.
Fixpoint disciplined (a : owners) (l : list op) : Prop :=
  match l with [] => True | x :: l => follows_rule a x /\ disciplined (meaning a x) l end.
(** The same without streams. *)
Definition no_streams (x : op) : bool := match x with StreamIn _ _ _ | StreamOut _ _ => false | _ => true end.
