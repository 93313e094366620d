(** Notions used to state the properties of fields. *)
From Coq Require Import List Arith Bool Sorted Permutation.
From Verif Require Import SharedPtr Field.
Import ListNotations.

(** Ids are distinct: in a geometry, and in a field (a pierced vector never repeats an id). *)
Definition geom_ok (g : geom) : Prop :=
  NoDup (g_verts g) /\ NoDup (map fst (g_cells g)) /\ NoDup (map fst (g_ifaces g)).
Definition field_ok {A} (f : mpv A) : Prop :=
  NoDup (map fst (f_data f)) /\ match f_geo f with Some g => geom_ok g | None => True end.

(** The elements of a location, and those a field is defined on. *)
Definition elements_of (g : geom) (l : location) : list nat :=
  match l with
  | LUndef => []
  | LPoint => g_verts g
  | LCell => map fst (g_cells g)
  | LIface => map fst (g_ifaces g)
  end.
Definition elements {A} (f : mpv A) : list nat :=
  match f_geo f with None => [] | Some g => elements_of g (f_loc f) end.
(** The value of an element, if it has one. *)
Definition value {A} (f : mpv A) (id : nat) : option A := find id (f_data f).
(** Every id of the field is an element; every element has a value. *)
Definition coherent {A} (f : mpv A) : Prop := forall id, value f id <> None -> In id (elements f).
Definition complete {A} (f : mpv A) : Prop := forall id, In id (elements f) -> value f id <> None.

Definition same_header {A} (f f' : mpv A) : Prop := f_geo f' = f_geo f /\ f_loc f' = f_loc f /\ f_name f' = f_name f.

(** l' has some of the elements of l, in the same order. *)
Inductive sublist {B} : list B -> list B -> Prop :=
| sub_nil : sublist [] []
| sub_skip : forall x l' l, sublist l' l -> sublist l' (x :: l)
| sub_keep : forall x l' l, sublist l' l -> sublist (x :: l') (x :: l).

(** The elements of internal (not ghost) cells. *)
Definition internal_element (g : geom) (l : location) (id : nat) : Prop :=
  match l with
  | LCell => g_interior g id = true
  | LPoint => exists c vs, In (c, vs) (g_cells g) /\ g_interior g c = true /\ In id vs
  | _ => True
  end.
