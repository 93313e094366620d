(** Model of the port registry (src/common/portManager.hpp 44-193) and of the factory
    (src/common/factory.hpp 46-157).  Names are natural numbers (string identity);
    std::unordered_map is a list of bindings in order of insertion. *)
From Coq Require Import List Arith Bool.
From Verif Require Import SharedPtr.
Import ListNotations.

(** * PortManager *)

(** InfoPort, 44-59 *)
Record info := { p_id : nat; p_con : nat; p_dat : nat; p_file : nat }.
(** InfoPort(), 51-56; the empty string is 0 here. *)
Definition no_info : info := {| p_id := 0; p_con := 0; p_dat := 0; p_file := 0 |}.

Record registry := { ports : list (nat * info); containers : list (nat * nat); datatypes : list (nat * nat) }.
Definition new_registry : registry := {| ports := []; containers := []; datatypes := [] |}.

(** A call addPort(name, container, datatype, file). *)
Record call := { c_name : nat; c_con : nat; c_dat : nat; c_file : nat }.

Definition add_id (k : nat) (l : list (nat * nat)) : list (nat * nat) :=
  match find k l with Some _ => l | None => l ++ [(k, length l)] end.

(** addPort, 99-134.  None: the assertion of line 111 stops the program (debug build). *)
Definition add_port (debug : bool) (r : registry) (c : call) : option (registry * nat) :=
  match find (c_name c) (ports r) with
  | Some i =>
      if debug && negb (Nat.eqb (p_con i) (c_con c) && Nat.eqb (p_dat i) (c_dat c)) then None
      else Some (r, p_id i)
  | None =>
      let id := length (ports r) in
      Some ({| ports := ports r ++ [(c_name c, {| p_id := id; p_con := c_con c; p_dat := c_dat c; p_file := c_file c |})];
               containers := add_id (c_con c) (containers r);
               datatypes := add_id (c_dat c) (datatypes r) |}, id)
  end.

(** A sequence of calls, with the values returned. *)
Fixpoint register (debug : bool) (r : registry) (h : list call) : option (registry * list nat) :=
  match h with
  | [] => Some (r, [])
  | c :: h => match add_port debug r c with
              | None => None
              | Some (r1, i) => match register debug r1 h with
                                | None => None
                                | Some (r2, l) => Some (r2, i :: l)
                                end
              end
  end.

(** containsPort 140, containsContainer 148, containsDatatype 156 *)
Definition contains {A} (k : nat) (l : list (nat * A)) : bool := match find k l with Some _ => true | None => false end.

(** getPortData, 183-186: ports[name] on an unknown name inserts a default InfoPort. *)
Definition get_port_data (debug : bool) (r : registry) (name : nat) : option (registry * info) :=
  match find name (ports r) with
  | Some i => Some (r, i)
  | None => if debug then None
            else Some ({| ports := ports r ++ [(name, no_info)]; containers := containers r; datatypes := datatypes r |}, no_info)
  end.

(** * Factory *)

(** Creators are addresses; [deleted] lists the creators deleted so far. *)
Record factory := { creators : list (nat * nat); deleted : list nat }.
Definition new_factory : factory := {| creators := []; deleted := [] |}.

Inductive fop := AddCreator (name creator : nat) | RemoveCreator (name : nat) | Create (name : nat).

(** "delete p"; None: p had been deleted before. *)
Definition delete (c : nat) (f : factory) : option factory :=
  if existsb (Nat.eqb c) (deleted f) then None
  else Some {| creators := creators f; deleted := c :: deleted f |}.

(** removeCreator, 96-102 *)
Definition remove_creator (name : nat) (f : factory) : option factory :=
  match find name (creators f) with
  | None => Some f
  | Some c => match delete c f with
              | None => None
              | Some f => Some {| creators := del name (creators f); deleted := deleted f |}
              end
  end.

(** addCreator, 109-113, with its result *)
Definition add_creator (name c : nat) (f : factory) : option (factory * nat) :=
  match remove_creator name f with
  | None => None
  | Some f => let l := set name c (creators f) in
              Some ({| creators := l; deleted := deleted f |}, length l + 1)
  end.

(** create, 87-91: the creator that is called; None: a deleted creator is called.
    defaultCreator (127-130) is stored and never used: it is left out. *)
Definition create (name : nat) (f : factory) : option (option nat) :=
  match find name (creators f) with
  | None => Some None
  | Some c => if existsb (Nat.eqb c) (deleted f) then None else Some (Some c)
  end.

Definition fstep (f : factory) (x : fop) : option factory :=
  match x with
  | AddCreator n c => option_map fst (add_creator n c f)
  | RemoveCreator n => remove_creator n f
  | Create n => match create n f with None => None | Some _ => Some f end
  end.
Fixpoint frun (f : factory) (h : list fop) : option factory :=
  match h with
  | [] => Some f
  | x :: h => match fstep f x with None => None | Some f => frun f h end
  end.

(** mapRegisteredBlocks, 134-142 *)
Definition registered_blocks (f : factory) : list nat := map fst (creators f).

(** ~Factory, deleteCreators, 151-156 *)
Fixpoint delete_all (l : list nat) (f : factory) : option factory :=
  match l with
  | [] => Some f
  | c :: l => match delete c f with None => None | Some f => delete_all l f end
  end.
Definition destroy_factory (f : factory) : option factory := delete_all (map snd (creators f)) f.
