(** Specification vocabulary for the chain properties, independent of how the chain works. *)
From Coq Require Import List ZArith Relations.
From Verif Require Import Chain.
Import ListNotations.

(** a pin from p to c *)
Definition edge (g : graph) (p c : obj) : Prop := In c (children g p).

(** The two tables describe the same pins, each table having distinct keys. *)
Definition consistent (g : graph) : Prop :=
  (forall p c, In c (children g p) <-> In p (parents g c)) /\
  (forall o, NoDup (parents g o)).

(** No object is linked to itself through any number of pins. *)
Definition acyclic (g : graph) : Prop := forall o, ~ clos_trans obj (edge g) o o.

(** A cycle that stays inside a set of objects. *)
Definition has_cycle_in (g : graph) (os : list obj) : Prop :=
  exists o, clos_trans obj (fun p c => edge g p c /\ In p os /\ In c os) o o.

(** [os] lists every object after all of its parents that are in [os]. *)
Definition ordered (g : graph) (os : list obj) : Prop :=
  forall i j p c, nth_error os i = Some p -> nth_error os j = Some c ->
                  edge g p c -> i < j.

(** What a sequence of requests (object, id) must store: negative ids are replaced by the
    numbers k, k+1, ... *)
Fixpoint assigned (k : Z) (reqs : list (obj * Z)) : list (obj * Z) :=
  match reqs with
  | [] => []
  | (o, i) :: r => if (i <? 0)%Z then (o, k) :: assigned (k + 1) r else (o, i) :: assigned k r
  end.

(** The ids stored in a chain, in chain order (Chain::getID(i), Chain.cpp 128-131). *)
Definition ids (l : list entry) : list Z := map snd l.
