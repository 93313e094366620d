(** What a user expects of the options of the blocks of Wavefront OBJ meshes. *)
From Coq Require Import List NArith ZArith.
Import ListNotations.

(** A blank: space, tab, line feed, vertical tab, form feed, carriage return. *)
Definition blank (c : N) : Prop := c = 32%N \/ (9 <= c <= 13)%N.
(** A name: something without blanks. *)
Definition word (w : list N) : Prop := w <> [] /\ forall c, In c w -> ~ blank c.
(** The words of a text, in their order. *)
Inductive separated : list N -> list (list N) -> Prop :=
| Sep_end : forall b, (forall c, In c b -> blank c) -> separated b []
| Sep_word : forall b w r ws, (forall c, In c b -> blank c) -> word w -> (r = [] \/ exists c r', r = c :: r' /\ blank c) ->
    separated r ws -> separated (b ++ w ++ r) (w :: ws).
(** Neither the first nor the last character is a blank. *)
Definition tight (l : list N) : Prop := (forall c r, l = c :: r -> ~ blank c) /\ (forall c r, l = r ++ [c] -> ~ blank c).
