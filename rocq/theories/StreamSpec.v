(** Notions used to state C14-C16. *)
From Coq Require Import List NArith Bool.
From Verif Require Import Stream.
Import ListNotations.

(** Values that exist in memory: numbers fit their width, sizes fit size_t, arrays have their
    length, the keys of a map and the ids of a pierced vector are distinct. *)
Definition fits (w : nat) (n : N) : Prop := (n < 256 ^ N.of_nat w)%N.
Definition size_ok {A} (l : list A) : Prop := fits 8 (N.of_nat (length l)).
Definition chars_ok (s : list N) : Prop := Forall (fits 1) s /\ size_ok s.

Fixpoint valid (t : ty) : den t -> Prop :=
  match t return den t -> Prop with
  | TNum w => fits w
  | TStr => chars_ok
  | TVec t => fun l => Forall (valid t) l /\ size_ok l
  | TArr n t => fun l => Forall (valid t) l /\ length l = n
  | TPair a b => fun p => valid a (fst p) /\ valid b (snd p)
  | TMap k v => fun l => Forall (fun e => valid k (fst e) /\ valid v (snd e)) l /\ size_ok l /\
                         NoDup (map fst l)
  | TFile => fun f => fits 4 (ftype f) /\ chars_ok (fdir f) /\ chars_ok (fname f)
  | TPtr => fun p => fits 8 (fst p) /\ fits 8 (snd p)
  | TField t => fun f => (fits 8 (fst (f_geo f)) /\ fits 8 (snd (f_geo f))) /\ chars_ok (f_name f) /\
                         fits 4 (f_loc f) /\
                         Forall (fun e => fits 8 (fst e) /\ valid t (snd e)) (f_data f) /\
                         size_ok (f_data f) /\ NoDup (map fst (f_data f))
  end.

(** Types a variable of which is wholly replaced by a read. *)
Fixpoint no_map_outside_pairs (t : ty) : bool :=
  match t with
  | TNum _ | TStr | TFile | TPtr | TPair _ _ | TField _ => true
  | TVec t | TArr _ t => no_map_outside_pairs t
  | TMap _ _ => false
  end.

(** Types where no map is the value (or key) type of a map or of a pierced vector, directly or
    through vectors and arrays. *)
Fixpoint no_map_in_map (t : ty) : bool :=
  match t with
  | TNum _ | TStr | TFile | TPtr => true
  | TVec t | TArr _ t => no_map_in_map t
  | TPair a b => no_map_in_map a && no_map_in_map b
  | TMap k v => no_map_in_map k && no_map_in_map v &&
                no_map_outside_pairs k && no_map_outside_pairs v
  | TField t => no_map_in_map t && no_map_outside_pairs t
  end.

(** Content of a map. *)
Fixpoint value_of {K V} (dec : forall x y : K, {x = y} + {x <> y}) (k : K) (l : list (K * V)) :
  option V :=
  match l with
  | [] => None
  | (k', v) :: r => if dec k' k then Some v else value_of dec k r
  end.

(** What a port is meant to send. *)
Definition value_sent {A} (s : source A) : option A :=
  match getv s with Some v => Some v | None => var s end.

(** The receivers of an execution: the non-null links, in order. *)
Definition receivers (l : list (option nat * nat)) : list (nat * nat) :=
  flat_map (fun x => match fst x with Some o => [(o, snd x)] | None => [] end) l.
