(** Model of the blocks' ports and pins: src/core/BaseManipulation.{hpp,cpp},
    src/core/InOut.{hpp,cpp}, src/core/MimmoNamespace.cpp (namespace pin).

    Blocks and port names are natural numbers (pointer identity / PortID string identity).
    The state is a world: block -> its tables.  An unordered_map is an association list in
    its iteration order.  Pointers are never null (the nullptr tests of the modelled functions
    are on arguments which the callers dereference before, or on ports created by createPort). *)
From Coq Require Import List Arith Bool ZArith.
From Verif Require Import Chain.
Import ListNotations.
Open Scope nat_scope.

Notation pid := nat (only parsing).

(** DataType, InOut.cpp 35-65: container tag and data tag (strings). *)
Record dtype := { con : nat; dat : nat }.
(** DataType::operator==, InOut.cpp 60-65. *)
Definition dtype_eqb (a b : dtype) : bool := Nat.eqb (con a) (con b) && Nat.eqb (dat a) (dat b).

(** PortOut: m_objLink and m_portLink (pushed and erased together) as one list; buffers are in
    Stream.v. *)
Record port_out := { po_links : list (obj * pid); po_type : dtype }.
(** PortIn: m_objLink, m_datatype, m_mandatory, m_familym. *)
Record port_in := { pi_links : list obj; pi_type : dtype; pi_mand : bool; pi_fam : Z }.

(** BaseManipulation::ConnectionType, BaseManipulation.hpp. *)
Inductive ctype := BACKWARD | FORWARD | BOTH.

Record block := {
  b_outs : list (pid * port_out);          (* m_portOut *)
  b_ins : list (pid * port_in);            (* m_portIn *)
  b_par : list (obj * nat);                (* m_parent: multiplicities *)
  b_chi : list (obj * nat);                (* m_child *)
  b_ct : ctype;                            (* m_portsType *)
  b_built : bool;                          (* m_arePortsBuilt *)
  b_proto : option (list (pid * port_out) * list (pid * port_in))
     (* what the virtual buildPorts() creates; None if it leaves m_arePortsBuilt false *)
}.

Definition world := obj -> block.

Definition upd (w : world) (o : obj) (f : block -> block) : world :=
  fun x => if Nat.eqb x o then f (w o) else w x.

(** ** Tables *)
Fixpoint lookup {A} (k : nat) (l : list (nat * A)) : option A :=
  match l with
  | [] => None
  | (k', v) :: r => if Nat.eqb k' k then Some v else lookup k r
  end.

Fixpoint update {A} (k : nat) (f : A -> A) (l : list (nat * A)) : list (nat * A) :=
  match l with
  | [] => []
  | (k', v) :: r => if Nat.eqb k' k then (k', f v) :: r else (k', v) :: update k f r
  end.

Fixpoint erase {A} (k : nat) (l : list (nat * A)) : list (nat * A) :=
  match l with
  | [] => []
  | (k', v) :: r => if Nat.eqb k' k then r else (k', v) :: erase k r
  end.

Definition set_outs (b : block) x := {| b_outs := x; b_ins := b_ins b; b_par := b_par b;
  b_chi := b_chi b; b_ct := b_ct b; b_built := b_built b; b_proto := b_proto b |}.
Definition set_ins (b : block) x := {| b_outs := b_outs b; b_ins := x; b_par := b_par b;
  b_chi := b_chi b; b_ct := b_ct b; b_built := b_built b; b_proto := b_proto b |}.
Definition set_par (b : block) x := {| b_outs := b_outs b; b_ins := b_ins b; b_par := x;
  b_chi := b_chi b; b_ct := b_ct b; b_built := b_built b; b_proto := b_proto b |}.
Definition set_chi (b : block) x := {| b_outs := b_outs b; b_ins := b_ins b; b_par := b_par b;
  b_chi := x; b_ct := b_ct b; b_built := b_built b; b_proto := b_proto b |}.

(** Multiplicity tables: addParent/addChild, BaseManipulation.cpp 734-755. *)
Definition incr (k : obj) (l : list (obj * nat)) : list (obj * nat) :=
  match lookup k l with
  | None => l ++ [(k, 1)]
  | Some _ => update k S l
  end.

(** unsetParent/unsetChild, BaseManipulation.cpp 763-786. *)
Definition decr (k : obj) (l : list (obj * nat)) : list (obj * nat) :=
  match lookup k l with
  | None => l
  | Some n => if n - 1 <? 1 then erase k l else update k (fun n => n - 1) l
  end.

Definition add_child (w : world) (a b : obj) : world :=
  upd w a (fun B => set_chi B (incr b (b_chi B))).
Definition add_parent (w : world) (b a : obj) : world :=
  upd w b (fun B => set_par B (incr a (b_par B))).
Definition unset_child (w : world) (a b : obj) : world :=
  upd w a (fun B => set_chi B (decr b (b_chi B))).
Definition unset_parent (w : world) (b a : obj) : world :=
  upd w b (fun B => set_par B (decr a (b_par B))).

(** PortOut::getLink/getPortLink and PortIn::getLink of a named port (empty if absent). *)
Definition out_links (w : world) (a : obj) (s : pid) : list (obj * pid) :=
  match lookup s (b_outs (w a)) with Some p => po_links p | None => [] end.
Definition in_links (w : world) (b : obj) (r : pid) : list obj :=
  match lookup r (b_ins (w b)) with Some p => pi_links p | None => [] end.
Definition out_ports (w : world) (a : obj) : list pid := map fst (b_outs (w a)).
Definition in_ports (w : world) (b : obj) : list pid := map fst (b_ins (w b)).

Definition set_out_links (w : world) (a : obj) (s : pid) (f : list (obj * pid) -> list (obj * pid)) : world :=
  upd w a (fun B => set_outs B (update s (fun p => {| po_links := f (po_links p); po_type := po_type p |}) (b_outs B))).
Definition set_in_links (w : world) (b : obj) (r : pid) (f : list obj -> list obj) : world :=
  upd w b (fun B => set_ins B (update r (fun p => {| pi_links := f (pi_links p); pi_type := pi_type p;
                                                      pi_mand := pi_mand p; pi_fam := pi_fam p |}) (b_ins B))).

Definition has_key {A} (k : nat) (l : list (nat * A)) : bool :=
  match lookup k l with Some _ => true | None => false end.

(** BaseManipulation::addPinIn, BaseManipulation.cpp 820-825. *)
Definition add_pin_in (w : world) (b : obj) (a : obj) (r : pid) : world :=
  if has_key r (b_ins (w b)) then set_in_links w b r (fun l => l ++ [a]) else w.

(** BaseManipulation::addPinOut, BaseManipulation.cpp 832-840. *)
Definition add_pin_out (w : world) (a : obj) (b : obj) (s r : pid) : world :=
  if has_key s (b_outs (w a)) then
    if has_key r (b_ins (w b)) then set_out_links w a s (fun l => l ++ [(b, r)]) else w
  else w.

(** buildPorts() through the virtual call, MimmoNamespace.cpp 71-84. *)
Definition build_ports (w : world) (o : obj) : option world :=
  if b_built (w o) then Some w else
  match b_proto (w o) with
  | None => None                                  (* throw: cannot build ports *)
  | Some (os, is) => Some (upd w o (fun B =>
      {| b_outs := os; b_ins := is; b_par := b_par B; b_chi := b_chi B; b_ct := b_ct B;
         b_built := true; b_proto := b_proto B |}))
  end.

(** checkCompatibility, MimmoNamespace.cpp 164-173; both ports exist at the call. *)
Definition check_compatibility (w : world) (a b : obj) (s r : pid) : bool :=
  match lookup s (b_outs (w a)), lookup r (b_ins (w b)) with
  | Some po, Some pi => dtype_eqb (po_type po) (pi_type pi)
  | _, _ => false
  end.

Definition is_backward (c : ctype) : bool := match c with BACKWARD => true | _ => false end.
Definition is_forward (c : ctype) : bool := match c with FORWARD => true | _ => false end.

Inductive pin_result := PinThrow | PinDone (w : world) (done : bool).

(** addPin once the ports are built, MimmoNamespace.cpp 85-99. *)
Definition add_pin_built (w : world) (a b : obj) (s r : pid) (forced : bool) : world * bool :=
  if negb (is_backward (b_ct (w a))) && negb (is_forward (b_ct (w b))) then
    if has_key s (b_outs (w a)) && has_key r (b_ins (w b)) then
      if forced || check_compatibility w a b s r then
        let w1 := add_pin_out w a b s r in
        let w2 := add_pin_in w1 b a r in
        let w3 := add_child w2 a b in
        let w4 := add_parent w3 b a in
        (w4, true)
      else (w, false)
    else (w, false)
  else (w, false).

(** pin::addPin, MimmoNamespace.cpp 67-100. *)
Definition add_pin (w : world) (a b : obj) (s r : pid) (forced : bool) : pin_result :=
  match build_ports w a with
  | None => PinThrow
  | Some w1 => match build_ports w1 b with
               | None => PinThrow
               | Some w2 => let (w3, d) := add_pin_built w2 a b s r forced in PinDone w3 d
               end
  end.

(** PortOut::clear(j) / PortIn::clear(j), InOut.cpp 154-160, 268-273 (and the same bounds test in
    removePinOut(port,j), removePinIn(port,j), BaseManipulation.cpp 880-901). *)
Fixpoint remove_nth {A} (j : nat) (l : list A) : list A :=
  match l with
  | [] => []
  | x :: r => match j with 0 => r | S j' => x :: remove_nth j' r end
  end.

(** The loop of removePinIn(obj,port) / removePinOut(obj,port), BaseManipulation.cpp 846-872:
    [snapshot] is the copy returned by getLink() before the loop, [cur] the live vector. *)
Fixpoint drift {A} (m : A -> bool) (snapshot : list A) (i : nat) (cur : list A) : list A :=
  match snapshot with
  | [] => cur
  | x :: r => drift m r (S i) (if m x then remove_nth i cur else cur)
  end.

Definition to_obj (b : obj) (l : obj * pid) : bool := Nat.eqb (fst l) b.

Definition remove_pin_out (w : world) (a b : obj) (s : pid) : world :=
  if has_key s (b_outs (w a)) then set_out_links w a s (fun l => drift (to_obj b) l 0 l) else w.
Definition remove_pin_in (w : world) (b a : obj) (r : pid) : world :=
  if has_key r (b_ins (w b)) then set_in_links w b r (fun l => drift (fun x => Nat.eqb x a) l 0 l) else w.

(** removePinOut(port,j), BaseManipulation.cpp 894-901; removePinIn(port,j), 880-887. *)
Definition remove_pin_out_at (w : world) (a : obj) (s : pid) (j : nat) : world :=
  if has_key s (b_outs (w a)) then set_out_links w a s (remove_nth j) else w.
Definition remove_pin_in_at (w : world) (b : obj) (r : pid) (j : nat) : world :=
  if has_key r (b_ins (w b)) then set_in_links w b r (remove_nth j) else w.

(** Inner loops of removeAllPins, MimmoNamespace.cpp 114-119 and 127-132; [linked] is the copy. *)
Fixpoint out_loop (w : world) (a b : obj) (s : pid) (linked : list (obj * pid)) (j : nat) : world :=
  match linked with
  | [] => w
  | x :: r => out_loop (if to_obj b x then unset_child (remove_pin_out_at w a s j) a b else w) a b s r (S j)
  end.
Fixpoint in_loop (w : world) (a b : obj) (p : pid) (linked : list obj) (j : nat) : world :=
  match linked with
  | [] => w
  | x :: r => in_loop (if Nat.eqb x a then unset_parent (remove_pin_in_at w b p j) b a else w) a b p r (S j)
  end.

(** pin::removeAllPins, MimmoNamespace.cpp 107-136. *)
Definition remove_all_out (w : world) (a b : obj) : world :=
  fold_left (fun w s => out_loop w a b s (out_links w a s) 0) (out_ports w a) w.
Definition remove_all_in (w : world) (a b : obj) : world :=
  fold_left (fun w p => in_loop w a b p (in_links w b p) 0) (in_ports w b) w.
Definition remove_all_pins (w : world) (a b : obj) : world :=
  remove_all_in (remove_all_out w a b) a b.

(** pin::removePin, MimmoNamespace.cpp 146-154. *)
Definition remove_pin (w : world) (a b : obj) (s r : pid) : world :=
  let w1 := remove_pin_out w a b s in
  let w2 := remove_pin_in w1 b a r in
  let w3 := unset_child w2 a b in
  unset_parent w3 b a.

(** removePinsIn/removePinsOut/removePins, BaseManipulation.cpp 504-534; [None] when the
    while loop needs more iterations than the fuel. *)
Fixpoint remove_pins_in (fuel : nat) (w : world) (o : obj) : option world :=
  match b_par (w o) with
  | [] => Some w
  | (p, _) :: _ => match fuel with
                   | 0 => None
                   | S f => remove_pins_in f (remove_all_pins w p o) o
                   end
  end.
Fixpoint remove_pins_out (fuel : nat) (w : world) (o : obj) : option world :=
  match b_chi (w o) with
  | [] => Some w
  | (c, _) :: _ => match fuel with
                   | 0 => None
                   | S f => remove_pins_out f (remove_all_pins w o c) o
                   end
  end.
Definition remove_pins (fuel : nat) (w : world) (o : obj) : option world :=
  match remove_pins_in fuel w o with
  | None => None
  | Some w' => remove_pins_out fuel w' o
  end.

(** Histories of pin operations; [None] if one of them throws. *)
Inductive pin_op :=
| AddPin (a b : obj) (s r : pid) (forced : bool)
| RemoveAllPins (a b : obj)
| RemovePin (a b : obj) (s r : pid).

Definition pin_step (w : world) (op : pin_op) : option world :=
  match op with
  | AddPin a b s r f => match add_pin w a b s r f with PinThrow => None | PinDone w' _ => Some w' end
  | RemoveAllPins a b => Some (remove_all_pins w a b)
  | RemovePin a b s r => Some (remove_pin w a b s r)
  end.

Fixpoint pin_run (w : world) (ops : list pin_op) : option world :=
  match ops with
  | [] => Some w
  | op :: r => match pin_step w op with Some w' => pin_run w' r | None => None end
  end.
