(** Copy and comparison of the ports of a block.

    Models DataType::operator== (src/core/InOut.cpp 60-65), the copy
    constructor and the comparison of PortOut (86-104), of PortIn (199-218),
    and those of PortOutT and PortInT (src/core/InOut.tpp 104-121, 227-247).

    Simplifications: blocks, variables and methods are the numbers of their
    addresses; tags and ports are strings; a buffer is the list of its
    bytes. *)

From Coq Require Import ZArith String List Bool.
Import ListNotations.
Open Scope list_scope.
Local Open Scope Z_scope.

(** src/core/InOut.hpp 55-60 *)
Record tag : Type := Tag { t_con : string; t_data : string }.

(** src/core/InOut.cpp 60-65 *)
Definition tag_eq (a b : tag) : bool :=
  let check := true in
  let check := check && String.eqb (t_con a) (t_con b) in
  let check := check && String.eqb (t_data a) (t_data b) in
  check.

(** std::vector::operator== on addresses and on names *)
Fixpoint vec_eq {A : Type} (e : A -> A -> bool) (l m : list A) : bool :=
  match l, m with
  | [], [] => true
  | x :: r, y :: s => e x y && vec_eq e r s
  | _, _ => false
  end.

(** src/core/InOut.hpp 99-104 *)
Record oport : Type := OPort {
  o_objs : list Z;
  o_ports : list string;
  o_buffer : list Z;
  o_tag : tag }.

(** src/core/InOut.hpp 204-210 *)
Record iport : Type := IPort {
  i_objs : list Z;
  i_buffer : list Z;
  i_mand : bool;
  i_family : Z;
  i_tag : tag }.

(** src/core/InOut.cpp 86-92 *)
Definition o_copy (p : oport) : oport :=
  OPort (o_objs p) (o_ports p) (o_buffer p) (o_tag p).

(** src/core/InOut.cpp 97-103 *)
Definition o_eq (p q : oport) : bool :=
  let check := true in
  let check := check && vec_eq String.eqb (o_ports p) (o_ports q) in
  let check := check && vec_eq Z.eqb (o_objs p) (o_objs q) in
  let check := check && tag_eq (o_tag p) (o_tag q) in
  check.

(** src/core/InOut.cpp 199-206 *)
Definition i_copy (p : iport) : iport :=
  IPort (i_objs p) (i_buffer p) (i_mand p) (i_family p) (i_tag p).

(** src/core/InOut.cpp 211-218: lines 215 and 216 assign, so that the port on
    the left changes; && does not evaluate its right side once the check has
    failed.  The answer, and the port on the left afterwards. *)
Definition i_eq (p q : iport) : bool * iport :=
  let check := true in
  let check := check && vec_eq Z.eqb (i_objs p) (i_objs q) in
  let check := check && tag_eq (i_tag p) (i_tag q) in
  let p1 := if check
            then IPort (i_objs p) (i_buffer p) (i_mand q) (i_family p) (i_tag p)
            else p in
  let check := check && i_mand q in
  let p2 := if check
            then IPort (i_objs p1) (i_buffer p1) (i_mand p1) (i_family q)
                       (i_tag p1)
            else p1 in
  let check := check && negb (i_family q =? 0) in
  (check, p2).

(** A port with its owner, its variable and its method
    (src/core/InOut.hpp 150-155, 255-260); 0 is the null pointer. *)
Record typed (P : Type) : Type := Typed {
  y_port : P; y_obj : Z; y_var : Z; y_fun : Z }.
Arguments Typed {P}. Arguments y_port {P}. Arguments y_obj {P}.
Arguments y_var {P}. Arguments y_fun {P}.

(** src/core/InOut.tpp 104-108, 227-231 *)
Definition y_copy {P : Type} (c : P -> P) (p : typed P) : typed P :=
  Typed (c (y_port p)) (y_obj p) (y_var p) (y_fun p).

(** src/core/InOut.tpp 114-120, 237-243 *)
Definition y_eq {P : Type} (p q : typed P) : bool :=
  let equal := true in
  let equal := equal && (y_obj p =? y_obj q) in
  let equal := equal && (y_var p =? y_var q) in
  let equal := equal && (y_fun p =? y_fun q) in
  equal.
