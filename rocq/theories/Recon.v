(** Model of the reconstruction of a field from fields on sub-patches, ReconstructScalar and
    ReconstructVector (src/geohandlers/ReconstructScalar.cpp, ReconstructVector.cpp: the two files
    have the same lines but for the type of the values and the comparison of 342-384).

    The geometries are at addresses, [kind] and [mesh] being what the heap holds there; the fields
    are those of Field.v with the address in place of the geometry.  [None] is undefined behaviour
    (a null pointer followed, the last element of an empty vector) or an exception of bitpit (an id
    not in the container).  Plots and XML are not here. *)
From Coq Require Import List Arith Bool Reals.
From Verif Require Import SharedPtr Field Vec.
Import ListNotations.
Open Scope nat_scope.

Inductive overlap := OMax | OMin | OAvg | OSum.

Record patch (A : Type) := { p_geo : option nat; p_loc : location; p_data : list (nat * A) }.
Arguments p_geo {A}. Arguments p_loc {A}. Arguments p_data {A}.

(** The constructor, 34-36: the locations supported *)
Definition recon_loc (l : location) : location := match l with LUndef | LIface => LPoint | _ => l end.
(** setOverlapCriterium, 168-171 *)
Definition set_overlap (n : nat) (o : overlap) : overlap := match n with 1 => OMax | 2 => OMin | 3 => OAvg | 4 => OSum | _ => o end.

Section Recon.
  Context {A : Type}.
  Variables (kind : nat -> nat) (mesh : nat -> geom).
  Variable merge : A -> A -> A.      (* overlapFields: the value there, the value of the other field *)
  Variable div : A -> nat -> A.      (* the division by the counter *)
  Variable zero : A.

  (** addData, 180-189: the test of 182 has && *)
  Definition addData (loc : location) (field : option (patch A)) (l : list (patch A)) : option (list (patch A)) :=
    match field with
    | None => Some l
    | Some p =>
        if (match p_geo p with None => true | Some _ => false end) && negb (loc_eqb (p_loc p) loc) then Some l
        else match p_geo p with
             | None => None
             | Some g => if Nat.eqb (kind g) 3 && loc_eqb loc LCell then Some l else Some (l ++ [p])
             end
    end.

  Definition is_patch (a : option nat) (p : patch A) : bool :=
    match p_geo p, a with None, None => true | Some x, Some y => Nat.eqb x y | _, _ => false end.
  (** while(back is patch) pop_back, on the reversed vector *)
  Fixpoint trim (a : option nat) (r : list (patch A)) : option (list (patch A)) :=
    match r with [] => None | p :: r' => if is_patch a p then trim a r' else Some r end.
  Definition pop_while (a : option nat) (l : list (patch A)) : option (list (patch A)) :=
    match trim a (rev l) with None => None | Some r => Some (rev r) end.
  (** the loop of 205-217, [i] being where the iterator is *)
  Fixpoint sweep (fuel : nat) (a : option nat) (i : nat) (l : list (patch A)) : option (list (patch A)) :=
    match fuel with
    | O => if Nat.eqb i (length l) then Some l else None
    | S k =>
        match nth_error l i with
        | None => if Nat.eqb i (length l) then Some l else None
        | Some p =>
            if is_patch a p then
              match rev l with
              | [] => None
              | y :: _ =>
                  match pop_while a (removelast (firstn i l ++ y :: skipn (S i) l)) with
                  | None => None
                  | Some l => sweep k a (S i) l
                  end
              end
            else sweep k a (S i) l
        end
    end.
  (** removeData, 195-218 *)
  Definition removeData (a : option nat) (l : list (patch A)) : option (list (patch A)) :=
    match pop_while a l with None => None | Some l => sweep (length l) a 0 l end.

  (** idsGeoDataLocation, 473-478: the pointer is followed *)
  Definition ids_of (loc : location) (a : option nat) : option (list nat) :=
    match a with None => None | Some g => Some (match loc with LPoint | LCell => loc_ids (mesh g) loc | _ => [] end) end.

  Definition upd {B : Type} (id : nat) (f : B -> B) (l : list (nat * B)) : list (nat * B) :=
    map (fun e => if Nat.eqb (fst e) id then (fst e, f (snd e)) else e) l.
  (** the loop on the ids of a sub-patch, 295-306 *)
  Fixpoint over_ids (target : list nat) (data : list (nat * A)) (ids : list nat) (st : list (nat * A) * list (nat * nat)) : option (list (nat * A) * list (nat * nat)) :=
    match ids with
    | [] => Some st
    | id :: r =>
        if negb (existsb (Nat.eqb id) target) then over_ids target data r st
        else match find id data with
             | None => None
             | Some v =>
                 let '(res, cnt) := st in
                 if negb (exists_id id res) then
                   match insert id v res, insert id 1 cnt with
                   | Some res, Some cnt => over_ids target data r (res, cnt)
                   | _, _ => None
                   end
                 else over_ids target data r (upd id (fun x => merge x v) res, upd id S cnt)
             end
    end.
  (** the loop on the sub-patches, 292-308 *)
  Fixpoint over_patches (loc : location) (target : list nat) (l : list (patch A)) (st : list (nat * A) * list (nat * nat)) : option (list (nat * A) * list (nat * nat)) :=
    match l with
    | [] => Some st
    | p :: r =>
        match ids_of loc (p_geo p) with
        | None => None
        | Some ids => match over_ids target (p_data p) ids st with None => None | Some st => over_patches loc target r st end
        end
    end.
  (** 310-317: the counter has the ids of the result *)
  Definition average (o : overlap) (res : list (nat * A)) (cnt : list (nat * nat)) : list (nat * A) :=
    match o with
    | OAvg => map (fun e => (fst e, div (snd e) (match find (fst e) cnt with Some n => n | None => 0 end))) res
    | _ => res
    end.
  (** the loop of 331-335 *)
  Fixpoint sub_ids (target : list nat) (res : list (nat * A)) (ids : list nat) (acc : list (nat * A)) : option (list (nat * A)) :=
    match ids with
    | [] => Some acc
    | id :: r =>
        if existsb (Nat.eqb id) target then
          match find id res with
          | None => None
          | Some v => match insert id v acc with None => None | Some acc => sub_ids target res r acc end
          end
        else sub_ids target res r acc
    end.
  (** the loop of 326-336 *)
  Fixpoint sub_results (loc : location) (target : list nat) (res : list (nat * A)) (l : list (patch A)) : option (list (patch A)) :=
    match l with
    | [] => Some []
    | p :: r =>
        match ids_of loc (p_geo p) with
        | None => None
        | Some ids =>
            match sub_ids target res ids [], sub_results loc target res r with
            | Some d, Some s => Some ({| p_geo := p_geo p; p_loc := loc; p_data := d |} :: s)
            | _, _ => None
            end
        end
    end.
  (** execute, 270-338: the field on the target and the fields on the sub-patches *)
  Definition execute (o : overlap) (loc : location) (target : option nat) (l : list (patch A)) : option (list (nat * A) * list (patch A)) :=
    match target with
    | None => None
    | Some g =>
        let ids := match ids_of loc target with Some ids => ids | None => [] end in
        match over_patches loc ids l ([], []) with
        | None => None
        | Some (res, cnt) =>
            match complete_missing zero {| f_geo := Some (mesh g); f_loc := loc; f_name := data_name; f_data := average o res cnt |} with
            | None => None
            | Some (f, _) =>
                match sub_results loc ids (f_data f) l with
                | None => None
                | Some s => Some (f_data f, s)
                end
            end
        end
    end.
End Recon.

(** overlapFields of ReconstructScalar, 354-384 *)
Definition merge_scalar (o : overlap) (actual v : R) : R :=
  match o with
  | OMax => if Rlt_dec actual v then v else actual
  | OMin => if Rlt_dec v actual then v else actual
  | OAvg => (actual + v)%R
  | OSum => (actual + v)%R
  end.
(** overlapFields of ReconstructVector, 354-391: the norms are compared *)
Definition merge_vector (o : overlap) (actual v : vec) : vec :=
  match o with
  | OMax => if Rlt_dec (norm actual) (norm v) then v else actual
  | OMin => if Rlt_dec (norm v) (norm actual) then v else actual
  | OAvg => vadd actual v
  | OSum => vadd actual v
  end.
Definition reconstructScalar (mesh : nat -> geom) (o : overlap) := execute mesh (merge_scalar o) (fun x n => x / INR n)%R 0%R o.
Definition reconstructVector (mesh : nat -> geom) (o : overlap) := execute mesh (merge_vector o) (fun x n => V3 (vx x / INR n) (vy x / INR n) (vz x / INR n))%R (V3 0 0 0) o.
