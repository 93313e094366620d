(** The block computing the magnitude of a vector field.

    Models Module::setField (src/core/Module.cpp 113-117), execute (132-144),
    plotOptionalResults (150-155), and of the fields
    MimmoPiercedVector::clear (src/core/MimmoPiercedVector.tpp).

    Simplifications: double is R, norm2 is the square root of the sum of the
    squares; a field is the list of its identifiers and values in the order
    of storage; inserting an identifier already there, or reading one not
    there, is an error ([None]), as in bitpit. *)

From Coq Require Import Reals.
From Coq Require Import ZArith String List.
From Verif Require Import Vec.
Import ListNotations.
Open Scope list_scope.
Local Open Scope Z_scope.

(** src/core/MimmoPiercedVector.hpp: location, name, geometry, data *)
Record field (A : Type) : Type := Field {
  f_loc : Z;
  f_name : string;
  f_geo : option Z;
  f_data : list (Z * A) }.
Arguments Field {A}. Arguments f_loc {A}. Arguments f_name {A}.
Arguments f_geo {A}. Arguments f_data {A}.

(** MimmoPiercedVector::clear; the location UNDEFINED is 0 *)
Definition f_clear {A : Type} (f : field A) : field A :=
  Field 0 "data" None [].

Fixpoint f_at {A : Type} (l : list (Z * A)) (i : Z) : option A :=
  match l with
  | [] => None
  | (k, a) :: r => if k =? i then Some a else f_at r i
  end.

(** PiercedVector::insert *)
Definition f_insert {A : Type} (f : field A) (i : Z) (a : A)
  : option (field A) :=
  match f_at (f_data f) i with
  | Some _ => None
  | None => Some (Field (f_loc f) (f_name f) (f_geo f) (f_data f ++ [(i, a)]))
  end.

(** src/core/Module.hpp: the members *)
Record modblk : Type := Mod { m_field : field vec; m_result : field R }.

(** src/core/Module.cpp 113-117; [None] is the null pointer *)
Definition setField (f : option (field vec)) (m : modblk) : modblk :=
  match f with
  | None => m
  | Some g => Mod g (m_result m)
  end.

(** src/core/Module.cpp 140-143 *)
Fixpoint mod_loop (ids : list Z) (f : field vec) (r : field R)
  : option (field R) :=
  match ids with
  | [] => Some r
  | id :: rest =>
    match f_at (f_data f) id with
    | None => None
    | Some v =>
      match f_insert r id (norm v) with
      | None => None
      | Some r' => mod_loop rest f r'
      end
    end
  end.

(** src/core/Module.cpp 132-144 *)
Definition execute (m : modblk) : option modblk :=
  let loc := f_loc (m_field m) in
  let r := f_clear (m_result m) in
  let r := Field loc (f_name r) (f_geo r) (f_data r) in
  let r := Field (f_loc r) (f_name r) (f_geo (m_field m)) (f_data r) in
  match mod_loop (map fst (f_data (m_field m))) (m_field m) r with
  | None => None
  | Some r' => Some (Mod (m_field m) r')
  end.

(** src/core/Module.cpp 150-155: what is written, on which geometry *)
Definition plotted (m : modblk) : field R :=
  Field (f_loc (m_result m)) "magnitude" (f_geo (m_result m))
        (f_data (m_result m)).
