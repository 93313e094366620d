(** Notions used to state C17. *)
From Coq Require Import List Arith Bool.
From Verif Require Import Chain Pins PinsSpec.
Import ListNotations.

(** The names are a bijection between a set of names and a set of blocks. *)
Definition good_names (names : list (nat * obj)) : Prop :=
  NoDup (map fst names) /\ NoDup (map snd names).

(** The ports a block has, or will have once built, and their data types. *)
Definition out_type (w : world) (o : obj) (s : pid) : option dtype :=
  option_map po_type (lookup s (if b_built (w o) then b_outs (w o)
                                else match b_proto (w o) with Some (os, _) => os | None => [] end)).
Definition in_type (w : world) (o : obj) (r : pid) : option dtype :=
  option_map pi_type (lookup r (if b_built (w o) then b_ins (w o)
                                else match b_proto (w o) with Some (_, is) => is | None => [] end)).

(** A pin between these ports would be accepted. *)
Definition connectable (w : world) (a : obj) (s : pid) (b : obj) (r : pid) : Prop :=
  b_ct (w a) <> BACKWARD /\ b_ct (w b) <> FORWARD /\
  exists t, out_type w a s = Some t /\ in_type w b r = Some t.

(** Every pin of w is between named blocks, and between registered port names. *)
Definition pins_are_named (names : list (nat * obj)) (registered : nat -> bool) (w : world) : Prop :=
  forall a s b r, In (b, r) (out_links w a s) ->
    In a (map snd names) /\ In b (map snd names) /\ registered s = true /\ registered r = true.
