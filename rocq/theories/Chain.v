(** Model of mimmo::Chain (src/core/Chain.cpp, src/core/Chain.hpp).

    A block (pointer to BaseManipulation) is a natural number.  The parent and child tables of a
    block are given by a [graph]: [parents g o] / [children g o] are the keys of
    o->m_parent / o->m_child in their iteration order (BaseManipulation.cpp 253-304:
    getNParent, getParent(i), getNChild, getChild(i) enumerate these keys).
    No key is nullptr (addPin never registers one), so the nullptr test of
    Chain.cpp 195 is always true and is left out. *)
From Coq Require Import List ZArith Bool.
Import ListNotations.
Open Scope nat_scope.

Notation obj := nat (only parsing).

Record graph := { parents : obj -> list obj; children : obj -> list obj }.

(** m_objects and m_idObjects (Chain.hpp 53-54) are two vectors of the same length that
    are always modified together; here they are one list of pairs. *)
Definition entry := (obj * Z)%type.

Definition en (o : obj) (i : Z) : entry := (o, i).

Record chain := { entries : list entry;   (* m_objects, m_idObjects *)
                  counter : Z }.          (* m_objcounter, Chain.hpp 55; wrap-around at 2^32 not modelled *)

Definition empty_chain : chain := {| entries := []; counter := 0 |}.   (* Chain.cpp 34-43 *)

Definition objs (l : list entry) : list obj := map fst l.

(** std::distance(begin, std::find(begin, end, o)): the length if absent. *)
Fixpoint index_of (o : obj) (l : list entry) : nat :=
  match l with
  | [] => 0
  | e :: r => if Nat.eqb (fst e) o then 0 else S (index_of o r)
  end.

Definition present (o : obj) (l : list entry) : bool := index_of o l <? length l.

(** Chain.cpp 183-192: idxchild, the least position of a child present in the chain, or
    the size of the chain. *)
Definition idx_child (g : graph) (o : obj) (l : list entry) : nat :=
  fold_left (fun m c => if present c l then Nat.min m (index_of c l) else m)
            (children g o) (length l).

(** Chain.cpp 184, 193-202: idxparent[i], -1 if absent. *)
Definition idx_parent (p : obj) (l : list entry) : Z :=
  if present p l then Z.of_nat (index_of p l) else (-1)%Z.

(** Insertion before position n (vector::insert, Chain.cpp 235-236). *)
Definition insert_at {A} (n : nat) (x : A) (l : list A) : list A :=
  firstn n l ++ x :: skipn n l.

(** Chain.cpp 218-223: find the parent, remember its id, erase it from both vectors.
    [None] is the undefined behaviour of erasing end(). *)
Fixpoint take_out (p : obj) (l : list entry) : option (Z * list entry) :=
  match l with
  | [] => None
  | e :: r => if Nat.eqb (fst e) p then Some (snd e, r)
              else match take_out p r with
                   | Some (i, r') => Some (i, e :: r')
                   | None => None
                   end
  end.

(** Chain.cpp 216-225: the erase loop, returning the removed (parent, id) in loop order. *)
Fixpoint take_out_all (ps : list obj) (l : list entry) : option (list entry * list entry) :=
  match ps with
  | [] => Some ([], l)
  | p :: r => match take_out p l with
              | None => None
              | Some (i, l') => match take_out_all r l' with
                                | None => None
                                | Some (out, l'') => Some ((p, i) :: out, l'')
                                end
              end
  end.

Inductive add_result :=
| Done (l : list entry) (ret : Z)   (* normal return: new content, returned int *)
| UB                                (* undefined behaviour *)
| OutOfFuel.                        (* recursion deeper than the fuel *)

(** The second loop, Chain.cpp 227-232: re-insert the removed parents one by one with the
    recursive call [f]; its returned int is ignored. *)
Fixpoint readd (f : list entry -> obj -> Z -> add_result) (moved : list entry) (l : list entry)
  : add_result :=
  match moved with
  | [] => Done l 0
  | (p, i) :: r => match f l p i with
                   | Done l' _ => readd f r l'
                   | other => other
                   end
  end.

(** Chain::addObject for a given non-negative id, Chain.cpp 176-239.  [fuel] bounds the
    recursion depth.  Recursive calls always pass a non-negative id, so the counter update of
    lines 172-175 happens only in [add_object] below. *)
Fixpoint add (fuel : nat) (g : graph) (l : list entry) (o : obj) (id : Z) : add_result :=
  match fuel with
  | 0 => OutOfFuel
  | S f =>
    match l with
    | [] => Done [(o, id)] 0                                        (* 176-180 *)
    | _ :: _ =>
      let ic := idx_child g o l in
      if existsb (fun p => Z.eqb (idx_parent p l) (Z.of_nat ic)) (parents g o)
      then Done l (-1)                                              (* 203-205 *)
      else
        let moved := filter (fun p => Z.ltb (Z.of_nat ic) (idx_parent p l)) (parents g o) in
        match moved with
        | [] => Done (insert_at ic (o, id) l) (Z.of_nat ic)         (* 234-237 *)
        | _ :: _ =>
          match take_out_all moved l with                           (* 214-225 *)
          | None => UB
          | Some (out, l1) =>
            match add f g l1 o id with                              (* 226 *)
            | Done l2 idx =>
              match readd (add f g) out l2 with                     (* 227-232 *)
              | Done l3 _ => Done l3 (idx + 1)                      (* 233 *)
              | other => other
              end
            | other => other
            end
          end
        end
    end
  end.

(** Chain::addObject, Chain.cpp 169-240. *)
Inductive chain_result := CDone (c : chain) (ret : Z) | CUB | COutOfFuel.

Definition add_object (fuel : nat) (g : graph) (c : chain) (o : obj) (id_ : Z) : chain_result :=
  let id := if Z.ltb id_ 0 then counter c else id_ in
  let cnt := if Z.ltb id_ 0 then (counter c + 1)%Z else counter c in
  match add fuel g (entries c) o id with
  | Done l r => CDone {| entries := l; counter := cnt |} r
  | UB => CUB
  | OutOfFuel => COutOfFuel
  end.

(** A sequence of addObject calls on (object, requested id), with fixed pins. *)
Fixpoint add_objects (fuel : nat) (g : graph) (c : chain) (reqs : list (obj * Z)) : chain_result :=
  match reqs with
  | [] => CDone c 0
  | (o, i) :: r => match add_object fuel g c o i with
                   | CDone c' _ => add_objects fuel g c' r
                   | other => other
                   end
  end.

(** Chain::deleteObject, Chain.cpp 147-158: erase the first entry with the id; the returned
    flag tells whether the erased object has a parent or a child. *)
Fixpoint delete_entry (g : graph) (id : Z) (l : list entry) : list entry * bool :=
  match l with
  | [] => ([], false)
  | e :: r =>
    if Z.eqb (snd e) id
    then (r, negb (match parents g (fst e) with [] => true | _ => false end)
             || negb (match children g (fst e) with [] => true | _ => false end))
    else let (r', b) := delete_entry g id r in (e :: r', b)
  end.

Definition delete_object (g : graph) (c : chain) (id : Z) : chain * bool :=
  let (l, b) := delete_entry g id (entries c) in
  ({| entries := l; counter := counter c |}, b).

(** Chain::clone, Chain.cpp 71-83: a new chain (counter 0) to which the objects are added
    with their ids; plot options not modelled. *)
Definition clone (fuel : nat) (g : graph) (c : chain) : chain_result :=
  add_objects fuel g empty_chain (entries c).

(** Chain::checkLoops, Chain.cpp 336-352: [true] if it returns, [false] if it throws. *)
Fixpoint check_loops_from (g : graph) (all : list entry) (pos : nat) (l : list entry) : bool :=
  match l with
  | [] => true
  | e :: r => forallb (fun c => pos <? index_of c all) (children g (fst e))
              && check_loops_from g all (S pos) r
  end.

Definition check_loops (g : graph) (l : list entry) : bool := check_loops_from g l 0 l.

(** Chain::exec(bool), Chain.cpp 283-320: the objects whose exec() is called, in order, or
    [None] for the loop error.  A throw of an object's own exec() is modelled in Exec.v, not
    here; logging and plot flags are not modelled. *)
Definition exec (g : graph) (l : list entry) : option (list obj) :=
  if check_loops g l then Some (objs l) else None.

(** Chain::exec(int), Chain.cpp 326-330. *)
Fixpoint exec_one (l : list entry) (id : Z) : list obj :=
  match l with
  | [] => []
  | e :: r => if Z.eqb (snd e) id then [fst e] else exec_one r id
  end.

(** Histories of addObject (automatic id) and deleteObject calls. *)
Inductive chain_op := OpAdd (o : obj) | OpDel (id : Z).

(** A history of calls; pins may change between calls, so each call has its own graph. *)
Fixpoint run_ops (fuel : nat) (c : chain) (ops : list (graph * chain_op)) : chain_result :=
  match ops with
  | [] => CDone c 0
  | (g, OpAdd o) :: r => match add_object fuel g c o (-1) with
                         | CDone c' _ => run_ops fuel c' r
                         | other => other
                         end
  | (g, OpDel id) :: r => run_ops fuel (fst (delete_object g c id)) r
  end.
