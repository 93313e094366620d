(** Model of IOConnections_MIMMO (src/core/IOConnections.cpp): the connections of a set of
    named blocks written to and read from a configuration (XML) tree.

    Block names and port names are natural numbers (string identity); the trimming of spaces
    (lines 95-98) is the identity on such names.  A missing option of a section is [None];
    no block has the empty name. *)
From Coq Require Import List Arith Bool.
From Verif Require Import Chain Pins.
Import ListNotations.

(** One section with its options sender, senderPort, receiver, receiverPort. *)
Record conn := { c_snd : option nat; c_sp : option nat; c_rcv : option nat; c_rp : option nat }.

(** m_mapConn: name -> block.  m_invMapConn (lines 41-45): a block keeps the last of its names. *)
Definition name_of (names : list (nat * obj)) (o : obj) : option nat :=
  fold_left (fun acc x => if Nat.eqb (snd x) o then Some (fst x) else acc) names None.

(** flushConnections, lines 158-198: the sections in order of creation. *)
Definition flush (names : list (nat * obj)) (w : world) : list conn :=
  flat_map (fun x =>
    flat_map (fun sp =>
      map (fun l => {| c_snd := name_of names (snd x); c_sp := Some (fst sp);
                       c_rcv := name_of names (fst l); c_rp := Some (snd l) |})
          (po_links (snd sp)))
      (b_outs (w (snd x))))
    names.

(** The titles "conn" + to_string(i), line 180: section i is titled by the decimal digits of i.
    bitpit::Config keeps the sections of a slot in a std::multimap ordered by title, so they are
    visited in the lexicographic order of the digits. *)
Fixpoint digits_from (fuel n : nat) (acc : list nat) : list nat :=
  match fuel with
  | 0 => acc
  | S f => let acc := (n mod 10) :: acc in
           if n / 10 =? 0 then acc else digits_from f (n / 10) acc
  end.
Definition digits (n : nat) : list nat := digits_from (S n) n [].

Fixpoint lex_leb (a b : list nat) : bool :=
  match a, b with
  | [], _ => true
  | _ :: _, [] => false
  | x :: a, y :: b => if x =? y then lex_leb a b else x <? y
  end.

Fixpoint insert_title {A} (x : list nat * A) (l : list (list nat * A)) : list (list nat * A) :=
  match l with
  | [] => [x]
  | y :: r => if lex_leb (fst y) (fst x) then y :: insert_title x r else x :: y :: r
  end.

(** The sections in the order in which getSections() visits them. *)
Definition visit_order {A} (l : list A) : list A :=
  map snd (fold_left (fun acc x => insert_title x acc)
                     (combine (map digits (seq 0 (length l))) l) []).

(** absorbConnections, lines 72-146.  [registered]: PortManager::containsPort.
    [AbsThrow]: addPin itself throws (ports that cannot be built).
    [AbsDone w ok]: the world after the loop; with ok = false the function throws at the end,
    after having added the other pins. *)
Inductive abs_result := AbsThrow | AbsDone (w : world) (ok : bool).

Definition find_block (names : list (nat * obj)) (n : option nat) : option obj :=
  match n with Some n => lookup n names | None => None end.
Definition find_port (registered : nat -> bool) (p : option nat) : option nat :=
  match p with Some p => if registered p then Some p else None | None => None end.

Fixpoint absorb (names : list (nat * obj)) (registered : nat -> bool) (w : world) (ok : bool)
  (l : list conn) : abs_result :=
  match l with
  | [] => AbsDone w ok
  | c :: l =>
      match find_block names (c_snd c), find_block names (c_rcv c),
            find_port registered (c_sp c), find_port registered (c_rp c) with
      | Some a, Some b, Some s, Some r =>
          match add_pin w a b s r false with
          | PinThrow => AbsThrow
          | PinDone w' done => absorb names registered w' (ok && done) l
          end
      | _, _, _, _ => absorb names registered w ok l
      end
  end.
