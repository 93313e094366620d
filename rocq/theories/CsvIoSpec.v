(** What is asked of the files of data. *)
From Coq Require Import List NArith ZArith.
From Verif Require Import Text TextSpec CsvIo.
Import ListNotations.

(** a name made of one word *)
Definition one_word (w : list N) : Prop := w <> [] /\ forall c, In c w -> c <> 32%N /\ ~ (9 <= c <= 13)%N.
(** the field read is the field written; [ok]: what is asked of the values *)
Definition field_kept {A : Type} (ok : A -> A -> Prop) (f g : mpv A) : Prop :=
  v_name g = v_name f /\ v_loc g = v_loc f /\
  Forall2 (fun e e' => fst e' = fst e /\ ok (snd e) (snd e')) (v_data f) (v_data g).
