(** Notions used to state C18, C19, C44, C45. *)
From Coq Require Import List Arith Bool.
From Verif Require Import SharedPtr Registry.
Import ListNotations.

(** The first call for a name, if any. *)
Fixpoint first_call (n : nat) (h : list call) : option call :=
  match h with
  | [] => None
  | c :: h => if Nat.eqb (c_name c) n then Some c else first_call n h
  end.

(** c is the first call for its name. *)
Definition is_first (h : list call) (c : call) : Prop := In c h /\ first_call (c_name c) h = Some c.

(** A table from names to ids: one id per name, and the ids used are 0, 1, ..., k-1, each once. *)
Definition consecutive {A} (id : A -> nat) (l : list (nat * A)) : Prop :=
  NoDup (map fst l) /\ map (fun e => id (snd e)) l = seq 0 (length l).

(** The creator registered for a name after a history: the last one added and not removed. *)
Definition registered (n : nat) (h : list fop) : option nat :=
  fold_left (fun acc x => match x with
                          | AddCreator m c => if Nat.eqb m n then Some c else acc
                          | RemoveCreator m => if Nat.eqb m n then None else acc
                          | Create _ => acc
                          end) h None.
Definition added (h : list fop) : list nat :=
  flat_map (fun x => match x with AddCreator _ c => [c] | _ => [] end) h.
