(** Model of MimmoSharedPointer (src/core/MimmoSharedPointer.tpp 26-320).

    A program handles any number of pointer variables (handles), numbered; the heap holds
    objects and counters.  Addresses returned by the two allocators are chosen by the history,
    among those not in use: an address may be used again after it has been freed.
    Not modelled: pointers held by the pointed objects themselves (the destructor of an object
    is taken to release nothing else); threads. *)
From Coq Require Import List Arith Bool.
Import ListNotations.

(** m_object, m_counter; None: nullptr. *)
Record hval := { h_obj : option nat; h_cnt : option nat }.
Definition empty : hval := {| h_obj := None; h_cnt := None |}.

(** Finite maps, as lists of bindings. *)
Fixpoint find {A} (k : nat) (l : list (nat * A)) : option A :=
  match l with
  | [] => None
  | (k', v) :: r => if Nat.eqb k' k then Some v else find k r
  end.
Fixpoint set {A} (k : nat) (v : A) (l : list (nat * A)) : list (nat * A) :=
  match l with
  | [] => [(k, v)]
  | (k', v') :: r => if Nat.eqb k' k then (k, v) :: r else (k', v') :: set k v r
  end.
Definition del {A} (k : nat) (l : list (nat * A)) : list (nat * A) :=
  filter (fun e => negb (Nat.eqb (fst e) k)) l.

(** handles: the constructed variables; counters: the allocated counters and their values;
    objects: the allocated objects; msgs: the last content streamed to each buffer. *)
Record heap := { handles : list (nat * hval); counters : list (nat * nat); objects : list nat;
                 msgs : list (nat * hval) }.

Definition with_handles (f : list (nat * hval) -> list (nat * hval)) (s : heap) : heap :=
  {| handles := f (handles s); counters := counters s; objects := objects s; msgs := msgs s |}.

(** UB: access to a freed counter, or deletion of a freed object or counter.
    NoExec: not an execution of a C++ program (a variable used outside its lifetime, an
    allocator returning an address in use). *)
Inductive result (A : Type) := Ok (a : A) | UB | NoExec.
Arguments Ok {A}. Arguments UB {A}. Arguments NoExec {A}.
Definition bind {A B} (x : result A) (f : A -> result B) : result B :=
  match x with Ok a => f a | UB => UB | NoExec => NoExec end.
Notation "'let!' x := e 'in' f" := (bind e (fun x => f)) (at level 200, x name, right associativity).

Definition get_handle (h : nat) (s : heap) : result hval :=
  match find h (handles s) with Some v => Ok v | None => NoExec end.
Definition set_handle (h : nat) (v : hval) (s : heap) : heap := with_handles (set h v) s.

(** "delete m_object": nothing for nullptr, undefined for an object already deleted. *)
Definition delete_object (o : option nat) (s : heap) : result heap :=
  match o with
  | None => Ok s
  | Some o => if existsb (Nat.eqb o) (objects s)
              then Ok {| handles := handles s; counters := counters s;
                         objects := remove Nat.eq_dec o (objects s); msgs := msgs s |}
              else UB
  end.

(** ++ on a counter *)
Definition incr (c : nat) (s : heap) : result heap :=
  match find c (counters s) with
  | None => UB
  | Some n => Ok {| handles := handles s; counters := set c (S n) (counters s);
                    objects := objects s; msgs := msgs s |}
  end.

(** The release of _decrement(), lines 309-316.  A counter at 0 is never decremented (it would
    wrap around); that case is counted as UB. *)
Definition release (v : hval) (s : heap) : result heap :=
  match h_cnt v with
  | None => Ok s
  | Some c =>
      match find c (counters s) with
      | None | Some 0 => UB
      | Some (S n) =>
          if Nat.eqb n 0
          then let! s := delete_object (h_obj v) s in
               Ok {| handles := handles s; counters := del c (counters s); objects := objects s; msgs := msgs s |}
          else Ok {| handles := handles s; counters := set c n (counters s); objects := objects s; msgs := msgs s |}
      end
  end.

(** _decrement(), lines 309-319 *)
Definition decrement (h : nat) (s : heap) : result heap :=
  let! v := get_handle h s in
  let! s := release v s in
  Ok (set_handle h empty s).

(** _init(object, counter), lines 277-289; [fresh] is the address given by new std::size_t(0). *)
Definition init (h : nat) (o c : option nat) (fresh : nat) (s : heap) : result heap :=
  match o with
  | None => Ok (set_handle h empty s)
  | Some o =>
      match c with
      | None => match find fresh (counters s) with
                | Some _ => NoExec
                | None => Ok {| handles := set h {| h_obj := Some o; h_cnt := Some fresh |} (handles s);
                                counters := (fresh, 1) :: counters s; objects := objects s; msgs := msgs s |}
                end
      | Some c => let! s := incr c s in Ok (set_handle h {| h_obj := Some o; h_cnt := Some c |} s)
      end
  end.

(** _reset(object, counter), lines 298-302 *)
Definition reset_to (h : nat) (o c : option nat) (fresh : nat) (s : heap) : result heap :=
  let! s := decrement h s in init h o c fresh s.

(** The operations of a program on its pointers. *)
Inductive op :=
| NewObject (o : nat)                                  (* a raw pointer: new O *)
| Construct (h : nat) (o : option nat) (fresh : nat)   (* default and raw constructors, 63, 76 *)
| CopyConstruct (h k : nat)                            (* 97 *)
| MoveConstruct (h k : nat)                            (* 113 *)
| Assign (h k : nat)                                   (* h = k, 132 *)
| MoveAssign (h k : nat)                               (* h = std::move(k), 161 *)
| Swap (h k : nat)                                     (* h.swap(k), 187 *)
| Reset (h : nat) (o : option nat) (fresh : nat)       (* h.reset(o), 226 *)
| Destroy (h : nat)                                    (* 87 *)
| StreamOut (k m : nat)                                (* buffer m << k, 48-54 *)
| StreamIn (h m : nat) (fresh : nat).                  (* buffer m >> h, 32-40 *)

Definition not_yet (h : nat) (s : heap) : bool := match find h (handles s) with None => true | _ => false end.

Definition step (s : heap) (x : op) : result heap :=
  match x with
  | NewObject o =>
      if existsb (Nat.eqb o) (objects s) then NoExec
      else Ok {| handles := handles s; counters := counters s; objects := o :: objects s; msgs := msgs s |}
  | Construct h o fresh => if not_yet h s then init h o None fresh s else NoExec
  | CopyConstruct h k =>
      if not_yet h s then
        let! v := get_handle k s in
        let! s := match h_cnt v with Some c => incr c s | None => Ok s end in
        Ok (set_handle h v s)
      else NoExec
  | MoveConstruct h k =>
      if not_yet h s then
        let! v := get_handle k s in
        Ok (set_handle k empty (set_handle h v s))
      else NoExec
  | Assign h k =>
      let! _ := get_handle h s in
      let! v := get_handle k s in
      if Nat.eqb h k then Ok s
      else let! s := decrement h s in
           let! v := get_handle k s in
           let! s := match h_cnt v with Some c => incr c s | None => Ok s end in
           Ok (set_handle h v s)
  | MoveAssign h k =>
      let! _ := get_handle h s in
      let! v := get_handle k s in
      if Nat.eqb h k then Ok s
      else let! s := decrement h s in
           let! v := get_handle k s in
           Ok (set_handle k empty (set_handle h v s))
  | Swap h k =>
      let! v := get_handle h s in
      let! v' := get_handle k s in
      Ok (set_handle k v (set_handle h v' s))
  | Reset h o fresh => let! _ := get_handle h s in reset_to h o None fresh s
  | Destroy h =>
      let! v := get_handle h s in
      let! s := release v s in
      Ok (with_handles (del h) s)
  | StreamOut k m =>
      let! v := get_handle k s in
      Ok {| handles := handles s; counters := counters s; objects := objects s; msgs := set m v (msgs s) |}
  | StreamIn h m fresh =>
      let! _ := get_handle h s in
      match find m (msgs s) with
      | None => NoExec
      | Some v => reset_to h (h_obj v) (h_cnt v) fresh s
      end
  end.

Fixpoint run (s : heap) (l : list op) : result heap :=
  match l with
  | [] => Ok s
  | x :: l => let! s := step s x in run s l
  end.

Definition start : heap := {| handles := []; counters := []; objects := []; msgs := [] |}.

(** get(), 198; getCounter(), 209-213 (UB: the counter has been freed). *)
Definition get (h : nat) (s : heap) : result (option nat) := let! v := get_handle h s in Ok (h_obj v).
Definition get_counter (h : nat) (s : heap) : result nat :=
  let! v := get_handle h s in
  match h_cnt v with
  | None => Ok 0
  | Some c => match find c (counters s) with Some n => Ok n | None => UB end
  end.
