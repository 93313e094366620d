(** Model of blocking point-to-point communication between processes, as the MPI standard has it and
    the code uses it (MPI_Send, MPI_Recv: src/core/SkdTreeUtils.cpp 789-890 and 1112-1172,
    src/manipulators/MRBF.cpp, src/iogeneric/GenericInput.tpp, GenericOutput.tpp).

    A process is the list of the calls it still has to make.  What it sends, and the room it gives to
    what it receives, are functions of what it has received so far (its other data do not change).
    MPI_Send may copy the message in a buffer and return, or wait for the receiver: the library
    chooses, at every call.  Messages from a process to another with the same tag do not overtake.
    A message longer than the room of the receive is an error: there is no step. *)
From Coq Require Import List Arith Bool.
Import ListNotations.

Section Net.
  Context {W : Type}.
  (** source, tag, data *)
  Definition rcv : Type := nat * nat * list W.
  Inductive op : Type :=
  | Send (dst tag : nat) (data : list rcv -> list W)
  | Recv (src tag : nat) (room : list rcv -> nat).
  Record net := Net { prog : nat -> list op; chan : nat -> nat -> list (nat * list W); got : nat -> list rcv }.

  Definition upd {X : Type} (f : nat -> X) (i : nat) (x : X) : nat -> X := fun j => if Nat.eqb j i then x else f j.
  (** the first message with a tag, and the others *)
  Fixpoint take (t : nat) (q : list (nat * list W)) : option (list W * list (nat * list W)) :=
    match q with
    | [] => None
    | (t', m) :: r => if Nat.eqb t' t then Some (m, r) else match take t r with Some (m', r') => Some (m', (t', m) :: r') | None => None end
    end.

  (** MPI_Send copies the message *)
  Inductive send_step (s : net) : net -> Prop :=
  | Buffered i d t f r : prog s i = Send d t f :: r ->
      send_step s (Net (upd (prog s) i r) (upd (chan s) i (upd (chan s i) d (chan s i d ++ [(t, f (got s i))]))) (got s)).
  (** MPI_Recv finds the message copied, or the sender waiting *)
  Inductive recv_step (s : net) : net -> Prop :=
  | Copied d i t room r m q : prog s d = Recv i t room :: r -> take t (chan s i d) = Some (m, q) -> length m <= room (got s d) ->
      recv_step s (Net (upd (prog s) d r) (upd (chan s) i (upd (chan s i) d q)) (upd (got s) d (got s d ++ [(i, t, m)])))
  | Met i d t f r room r' : i <> d -> prog s i = Send d t f :: r -> prog s d = Recv i t room :: r' -> take t (chan s i d) = None -> length (f (got s i)) <= room (got s d) ->
      recv_step s (Net (upd (upd (prog s) i r) d r') (chan s) (upd (got s) d (got s d ++ [(i, t, f (got s i))]))).
  Definition step (s s' : net) : Prop := send_step s s' \/ recv_step s s'.
  Inductive steps : nat -> net -> net -> Prop :=
  | Steps0 s : steps 0 s s
  | StepsS k s s' s'' : steps k s s' -> step s' s'' -> steps (S k) s s''.
  Definition start (p : nat -> list op) : net := Net p (fun _ _ => []) (fun _ => []).
  Definition all_done (s : net) : Prop := forall i, prog s i = [].
End Net.
Arguments op : clear implicits.
Arguments net : clear implicits.
Arguments rcv : clear implicits.
