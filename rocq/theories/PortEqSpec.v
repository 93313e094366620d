(** What comparing two ports should say. *)

From Coq Require Import ZArith String List.
From Verif Require Import PortEq.
Local Open Scope Z_scope.

(** Two output ports with the same links and the same type of data. *)
Definition same_out (p q : oport) : Prop :=
  o_objs p = o_objs q /\ o_ports p = o_ports q /\
  t_con (o_tag p) = t_con (o_tag q) /\ t_data (o_tag p) = t_data (o_tag q).

(** Two input ports with the same links, the same type of data, and the same
    obligation. *)
Definition same_in (p q : iport) : Prop :=
  i_objs p = i_objs q /\ t_con (i_tag p) = t_con (i_tag q) /\
  t_data (i_tag p) = t_data (i_tag q) /\
  i_mand p = i_mand q /\ i_family p = i_family q.
