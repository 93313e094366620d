(** What is asked of the blocks of generic data. *)
From Coq Require Import String List Arith NArith ZArith Bool.
From Verif Require Import Text GeomIo GenBlk.
Import ListNotations.

(** a text with no white space at its ends, that may be empty *)
Definition white (c : N) : Prop := (c = 32 \/ 9 <= c <= 13)%N.
Definition trimmed (l : list N) : Prop := (forall c r, l = c :: r -> ~ white c) /\ (forall c r, l = r ++ [c] -> ~ white c).
(** operations that leave the result of a block as it is *)
Definition quiet {V C : Type} (o : op V C) : Prop :=
  match o with ClearInput | SetReadFromFile _ | SetCsv _ | SetFilename _ | SetReadDir _ | Files _ => True | _ => False end.
(** what a block is to do at the end of a history: the last it was told *)
Definition last_reading {V C : Type} (ops : list (op V C)) (dflt : bool) : bool := fold_left (fun b o => match o with SetReadFromFile x => x | _ => b end) ops dflt.
Definition last_csv {V C : Type} (ops : list (op V C)) (dflt : bool) : bool := fold_left (fun b o => match o with SetCsv x => x | _ => b end) ops dflt.
Definition last_dir {V C : Type} (ops : list (op V C)) (dflt : list N) : list N := fold_left (fun b o => match o with SetReadDir x => x | _ => b end) ops dflt.
Definition last_name {V C : Type} (ops : list (op V C)) (dflt : list N) : list N := fold_left (fun b o => match o with SetFilename x => x | _ => b end) ops dflt.
Definition last_files {V C : Type} (ops : list (op V C)) (dflt : list N -> option C) : list N -> option C := fold_left (fun b o => match o with Files x => x | _ => b end) ops dflt.
(** numbers that a variable of so many bits holds *)
Definition holds (bits z : Z) : Prop := (- 2 ^ (bits - 1) <= z < 2 ^ (bits - 1))%Z.
(** a field whose numbers are held: long identifiers, each once *)
Definition held {V : Type} (f : field V) : Prop :=
  holds 64 (Z.of_nat (length (f_name f))) /\ holds 32 (f_loc f) /\ holds 32 (Z.of_nat (length (f_rows f))) /\ Forall (fun e => holds 64 (fst e)) (f_rows f) /\ NoDup (map fst (f_rows f)).
