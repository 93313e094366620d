(** Model of MimmoPiercedVector (src/core/MimmoPiercedVector.tpp 90-923), the fields attached to
    a geometry; the averages of 645-827 are in FieldAvg.v, the streams in Stream.v.

    The pierced vector of bitpit is a list of (id, value) pairs in iteration order, ids being
    distinct; [insert] throws on an id already present (bitpit: "Duplicate id") and otherwise
    puts the pair at the end (bitpit may put it into a hole left by an erasure: the order of a
    container that had erasures is not modelled).  Ids are natural numbers. *)
From Coq Require Import List Arith Bool.
From Verif Require Import SharedPtr.
Import ListNotations.

(** What the functions use of a geometry: ids of the vertices, cells (with their vertices) and
    interfaces (border or not, with their vertices), in iteration order; interior cells. *)
Record geom := { g_verts : list nat; g_cells : list (nat * list nat);
                 g_ifaces : list (nat * (bool * list nat)); g_interior : nat -> bool }.

Inductive location := LUndef | LPoint | LCell | LIface.
Definition loc_eqb (a b : location) : bool :=
  match a, b with LUndef, LUndef | LPoint, LPoint | LCell, LCell | LIface, LIface => true | _, _ => false end.

Record mpv (A : Type) := { f_geo : option geom; f_loc : location; f_name : nat; f_data : list (nat * A) }.
Arguments Build_mpv {A}. Arguments f_geo {A}. Arguments f_loc {A}. Arguments f_name {A}. Arguments f_data {A}.

Definition data_name : nat := 0.   (* "data" *)

Section Fields.
  Context {A : Type}.

  Definition exists_id (id : nat) (l : list (nat * A)) : bool := match find id l with Some _ => true | None => false end.

  (** bitpit insert; None: it throws. *)
  Definition insert (id : nat) (v : A) (l : list (nat * A)) : option (list (nat * A)) :=
    if exists_id id l then None else Some (l ++ [(id, v)]).

  Definition with_data (l : list (nat * A)) (f : mpv A) : mpv A :=
    {| f_geo := f_geo f; f_loc := f_loc f; f_name := f_name f; f_data := l |}.

  (** MimmoPiercedVector(geo, loc), 90-96: the name is "data". *)
  Definition new_mpv (g : option geom) (l : location) : mpv A :=
    {| f_geo := g; f_loc := l; f_name := data_name; f_data := [] |}.

  (** clear, 157-162 *)
  Definition clear (f : mpv A) : mpv A := new_mpv None LUndef.

  (** setDataLocation(int), 335-339; the integer is negative or natural. *)
  Definition int_location (neg : bool) (n : nat) : location :=
    if neg then LUndef else match n with 1 => LPoint | 2 => LCell | 3 => LIface | _ => LUndef end.

  (** intIsValidLocation, 518-520: !(value<0 && value>3) *)
  Definition int_is_valid (neg : bool) (n : nat) : bool := negb (neg && (negb neg && (3 <? n))).

  (** setData, 348-356 *)
  Definition set_data (data : list A) (f : mpv A) : mpv A := with_data (combine (seq 0 (length data)) data) f.

  (** The ids of a location (no interfaces, cells or vertices for UNDEFINED). *)
  Definition loc_ids (g : geom) (l : location) : list nat :=
    match l with
    | LPoint => g_verts g
    | LCell => map fst (g_cells g)
    | LIface => map fst (g_ifaces g)
    | LUndef => []
    end.

  (** checkDataSizeCoherence, 378-400 *)
  Definition check_size (f : mpv A) : bool :=
    match f_geo f with
    | None => false
    | Some g => match f_loc f with
                | LUndef => false
                | l => Nat.eqb (length (f_data f)) (length (loc_ids g l))
                end
    end.

  (** checkDataIdsCoherence, 412-448 *)
  Definition check_ids (f : mpv A) : bool :=
    match f_geo f with
    | None => false
    | Some g => match f_data f with
                | [] => true
                | d => match f_loc f with
                       | LUndef => false
                       | l => forallb (fun id => existsb (Nat.eqb id) (loc_ids g l)) (map fst d)
                       end
                end
    end.

  (** resizeToCoherentDataIds, 458-509 *)
  Definition resize_coherent (f : mpv A) : mpv A :=
    match f_geo f with
    | None => new_mpv None (f_loc f)
    | Some g => {| f_geo := Some g; f_loc := f_loc f; f_name := data_name;
                   f_data := match f_loc f with
                             | LUndef => []
                             | l => filter (fun e => existsb (Nat.eqb (fst e)) (loc_ids g l)) (f_data f)
                             end |}
    end.

  (** getIds(true): ascending order. *)
  Fixpoint ins (n : nat) (l : list nat) : list nat :=
    match l with [] => [n] | m :: r => if n <=? m then n :: l else m :: ins n r end.
  Definition sort (l : list nat) : list nat := fold_right ins [] l.
  Definition get_ids (ordered : bool) (l : list nat) : list nat := if ordered then sort l else l.

  (** getGeometryIds, 530-546 *)
  Definition geometry_ids (f : mpv A) (ordered : bool) : list nat :=
    match f_geo f with None => [] | Some g => get_ids ordered (loc_ids g (f_loc f)) end.

  (** completeMissingData, 567-579 *)
  Fixpoint fill (ids : list nat) (v : A) (l : list (nat * A)) : option (list (nat * A)) :=
    match ids with
    | [] => Some l
    | id :: r => if exists_id id l then fill r v l
                 else match insert id v l with None => None | Some l => fill r v l end
    end.
  Definition complete_missing (v : A) (f : mpv A) : option (mpv A * bool) :=
    if negb (check_ids f) then Some (f, false)
    else if check_size f then Some (f, true)
    else match fill (geometry_ids f false) v (f_data f) with
         | None => None
         | Some l => Some (with_data l f, true)
         end.

  (** initialize, 593-636.  InitNull: null pointer dereference. *)
  Inductive init_result := InitNull | InitThrow | InitDone (f : mpv A).
  Fixpoint insert_all (ids : list nat) (v : A) (l : list (nat * A)) : option (list (nat * A)) :=
    match ids with
    | [] => Some l
    | id :: r => match insert id v l with None => None | Some l => insert_all r v l end
    end.
  Definition initialize (g : option geom) (l : location) (v : A) (f : mpv A) : init_result :=
    match l with
    | LUndef => InitDone f
    | _ => match g with
           | None => InitNull
           | Some g0 => match insert_all (loc_ids g0 l) v [] with
                        | None => InitThrow
                        | Some d => InitDone {| f_geo := g; f_loc := l; f_name := data_name; f_data := d |}
                        end
           end
    end.

  (** getDataAsVector, 214-226 *)
  Definition data_as_vector (f : mpv A) (ordered : bool) : list A :=
    flat_map (fun id => match find id (f_data f) with Some v => [v] | None => [] end) (geometry_ids f ordered).

  (** getInternalDataAsVector, 238-285 *)
  Definition internal_data (f : mpv A) (ordered : bool) : list A :=
    match f_geo f with
    | None => []
    | Some g =>
        let keep := match f_loc f with
                    | LCell => fun id => g_interior g id
                    | LPoint => fun id => existsb (fun c => g_interior g (fst c) && existsb (Nat.eqb id) (snd c)) (g_cells g)
                    | _ => fun _ => true
                    end in
        flat_map (fun id => match find id (f_data f) with Some v => if keep id then [v] else [] | None => [] end)
                 (geometry_ids f ordered)
    end.

  (** getRawDataAsVector, 297-306 *)
  Definition raw_data (f : mpv A) (ordered : bool) : list A :=
    flat_map (fun id => match find id (f_data f) with Some v => [v] | None => [] end)
             (get_ids ordered (map fst (f_data f))).

  (** getDataFrom, 840-854, with its result *)
  Fixpoint get_from (other : list (nat * A)) (strict : bool) (l : list (nat * A)) (n : nat) :
    option (list (nat * A) * nat) :=
    match other with
    | [] => Some (l, n)
    | (id, v) :: r =>
        if exists_id id l then get_from r strict (set id v l) (S n)
        else if strict then get_from r strict l n
        else match insert id v l with None => None | Some l => get_from r strict l (S n) end
    end.
  Definition get_data_from (f other : mpv A) (strict : bool) : option (mpv A * nat) :=
    match get_from (f_data other) strict (f_data f) 0 with
    | None => None
    | Some (l, n) => Some (with_data l f, n)
    end.

  (** squeezeOutExcept, 864-889 (vector) and 899-923 (set, given in iteration order). *)
  Fixpoint pick (ids : list nat) (d : list (nat * A)) (acc : list (nat * A)) : option (list (nat * A)) :=
    match ids with
    | [] => Some acc
    | id :: r => match find id d with
                 | None => pick r d acc
                 | Some v => match insert id v acc with None => None | Some acc => pick r d acc end
                 end
    end.
  Fixpoint copy_kept (ids : list nat) (d : list (nat * A)) (acc : list (nat * A)) : option (list (nat * A)) :=
    match d with
    | [] => Some acc
    | (id, v) :: r => if existsb (Nat.eqb id) ids
                      then match insert id v acc with None => None | Some acc => copy_kept ids r acc end
                      else copy_kept ids r acc
    end.
  Definition squeeze_out_except (ids : list nat) (keep_order : bool) (f : mpv A) : option (mpv A) :=
    match (if keep_order then copy_kept ids (f_data f) [] else pick ids (f_data f) []) with
    | None => None
    | Some l => Some (with_data l f)
    end.
End Fields.
