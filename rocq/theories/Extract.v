(** Model of the extraction of a field on a portion of its geometry, and of the choice of a field in
    a list (src/geohandlers/ExtractFields.cpp, ExtractScalarField.cpp and its copies for vectors,
    longs and strings; SelectField.cpp, SelectScalarField.cpp and its copies).

    Geometries are at addresses; [mesh], [kind], [pid] and [pid_list] are what the heap holds there
    (vertices, cells and interfaces, type, part identifier of the cells, list of the identifiers).
    [None] is an exception of bitpit: an id inserted twice.  Plots are not here. *)
From Coq Require Import List Arith Bool Reals.
From Verif Require Import SharedPtr Field Vec.
Import ListNotations.
Open Scope nat_scope.

Inductive extract_mode := ById | ByPid | ByMap.
Inductive select_mode := SGeometry | SName | SMapping.
Record fieldv (A : Type) := { v_geo : option nat; v_loc : location; v_name : nat; v_data : list (nat * A) }.
Arguments v_geo {A}. Arguments v_loc {A}. Arguments v_name {A}. Arguments v_data {A}.
(** the state of a field after clear() *)
Definition empty_field {A : Type} : fieldv A := {| v_geo := None; v_loc := LUndef; v_name := data_name; v_data := [] |}.

(** setMode(int), ExtractFields.cpp 98-101, and its value from XML, 153-162: the value read is put in a
    local variable and never used *)
Definition set_extract_mode (n : nat) (m : extract_mode) : extract_mode := match n with 1 => ById | 2 => ByPid | 3 => ByMap | _ => m end.
Definition extract_mode_int (m : extract_mode) : nat := match m with ById => 1 | ByPid => 2 | ByMap => 3 end.
Definition absorb_extract_mode (text : option nat) (m : extract_mode) : extract_mode := m.
(** SelectType in XML, SelectField.cpp 181-190: the text is read in a bool (a number over one gives true)
    and the bool is the mode *)
Definition select_mode_int (m : select_mode) : nat := match m with SGeometry => 0 | SName => 1 | SMapping => 2 end.
Definition absorb_select_mode (text : option nat) (m : select_mode) : select_mode :=
  match text with None => m | Some 0 => SGeometry | Some _ => SName end.

Section Extract.
  Context {A : Type}.
  Variables (kind : nat -> nat) (mesh : nat -> geom) (pid : nat -> nat -> nat) (pid_list : nat -> list nat).
  Variable iface_of : nat -> list nat -> list nat.       (* getInterfaceFromCellList *)
  Variable near : nat -> nat -> list nat.                (* selectByPatch: cells of the second near the first *)

  (** checkDataIdsCoherence of the field *)
  Definition coherent_field (f : fieldv A) : bool :=
    check_ids {| f_geo := match v_geo f with None => None | Some g => Some (mesh g) end; f_loc := v_loc f; f_name := v_name f; f_data := v_data f |}.

  (** getVertexFromCellList, src/core/MimmoObject.cpp 2557-2576 *)
  Definition verts_of (g : nat) (cells : list nat) : list nat :=
    if Nat.eqb (kind g) 3 then []
    else nodup Nat.eq_dec (flat_map (fun c => match find c (g_cells (mesh g)) with Some vs => vs | None => [] end) cells).
  (** extractPIDCells: the cells with one of the identifiers *)
  Definition pid_cells (g : nat) (pids : list nat) : list nat :=
    filter (fun c => existsb (Nat.eqb (pid g c)) pids) (map fst (g_cells (mesh g))).
  Definition elements_of_cells (g : nat) (loc : location) (cells : list nat) : list nat :=
    match loc with LPoint => verts_of g cells | LCell => cells | LIface => iface_of g cells | LUndef => [] end.

  (** extractID, 205-235: the ids of the target, in their order *)
  Definition extractID (loc : location) (g : nat) (f : fieldv A) : option (list (nat * A)) :=
    pick (loc_ids (mesh g) loc) (v_data f) [].
  (** extractPID, 242-289 *)
  Definition common_pids (g gf : nat) : list nat :=
    filter (fun p => existsb (Nat.eqb p) (pid_list gf) && existsb (Nat.eqb p) (pid_list g)) (pid_list g ++ pid_list gf).
  Definition extractPID (loc : location) (g gf : nat) (f : fieldv A) : option (list (nat * A)) :=
    pick (elements_of_cells gf loc (pid_cells gf (common_pids g gf))) (v_data f) [].
  (** extractMapping, 296-338: the cells found are of the target *)
  Definition extractMapping (loc : location) (g gf : nat) (f : fieldv A) : option (list (nat * A)) :=
    pick (elements_of_cells g loc (near gf g)) (v_data f) [].

  (** extract, 161-198: the boolean and the new m_result *)
  Definition extract (mode : extract_mode) (target : option nat) (f result : fieldv A) : option (bool * fieldv A) :=
    match target, v_geo f with
    | Some g, Some gf =>
        if negb (coherent_field f) then Some (false, result)
        else
          let loc := match v_loc f with LUndef => LPoint | l => l end in
          match (match mode with ById => extractID loc g f | ByPid => extractPID loc g gf f | ByMap => extractMapping loc g gf f end) with
          | None => None
          | Some d => Some (true, {| v_geo := Some (match mode with ByPid => gf | _ => g end); v_loc := loc; v_name := data_name; v_data := d |})
          end
    | _, _ => Some (false, result)
    end.

  (** addField, SelectScalarField.cpp 144-150, and setFields, 127-137 *)
  Definition addField (loc : location) (f : option (fieldv A)) (l : list (fieldv A)) : list (fieldv A) :=
    match f with
    | None => l
    | Some f => if loc_eqb (v_loc f) loc && (match v_geo f with None => false | Some _ => true end) then l ++ [f] else l
    end.
  Definition setFields (loc : location) (fs : list (option (fieldv A))) : list (fieldv A) := fold_left (fun l f => addField loc f l) fs [].

  Variable add : A -> A -> A.
  Variable div : A -> nat -> A.
  Definition upd_at {B : Type} (id : nat) (f : B -> B) (l : list (nat * B)) : list (nat * B) :=
    map (fun e => if Nat.eqb (fst e) id then (fst e, f (snd e)) else e) l.
  (** the loop of 240-253 on an extracted field: result and idRepetition *)
  Fixpoint pour (d : list (nat * A)) (st : list (nat * A) * list (nat * nat)) : option (list (nat * A) * list (nat * nat)) :=
    match d with
    | [] => Some st
    | (id, v) :: r =>
        let '(res, rep) := st in
        if negb (exists_id id res) then
          match insert id v res with None => None | Some res => pour r (res, rep) end
        else pour r (upd_at id (fun x => add x v) res, if exists_id id rep then upd_at id S rep else rep ++ [(id, 2)])
    end.
  (** the loop of longs and strings: the first value found *)
  Fixpoint pour_first (d : list (nat * A)) (st : list (nat * A) * list (nat * nat)) : option (list (nat * A) * list (nat * nat)) :=
    match d with
    | [] => Some st
    | (id, v) :: r =>
        if negb (exists_id id (fst st)) then
          match insert id v (fst st) with None => None | Some res => pour_first r (res, snd st) end
        else pour_first r st
    end.
  (** 234-255 *)
  Fixpoint over_fields (pour : list (nat * A) -> list (nat * A) * list (nat * nat) -> option (list (nat * A) * list (nat * nat)))
      (target : option nat) (fs : list (fieldv A)) (st : list (nat * A) * list (nat * nat)) : option (list (nat * A) * list (nat * nat)) :=
    match fs with
    | [] => Some st
    | f :: r =>
        match extract ByMap target f empty_field with
        | None => None
        | Some (false, _) => over_fields pour target r st
        | Some (true, e) => match pour (v_data e) st with None => None | Some st => over_fields pour target r st end
        end
    end.
  (** 257-261 *)
  Definition resolve (res : list (nat * A)) (rep : list (nat * nat)) : list (nat * A) :=
    fold_left (fun r e => upd_at (fst e) (fun x => div x (snd e)) r) rep res.

  Definition same_geometry (a b : option nat) : bool :=
    match a, b with None, None => true | Some x, Some y => Nat.eqb x y | _, _ => false end.
  (** mSelect, 179-271; [first] for longs and strings *)
  Definition mSelect (first : bool) (mode : select_mode) (loc : location) (target : option nat) (name : nat) (fs : list (fieldv A)) : option (bool * fieldv A) :=
    match mode with
    | SGeometry =>
        match target with
        | None => Some (false, empty_field)
        | Some _ => match List.find (fun f => same_geometry (v_geo f) target) fs with
                    | Some f => Some (true, f)
                    | None => Some (false, empty_field)
                    end
        end
    | SName => match List.find (fun f => Nat.eqb (v_name f) name) fs with Some f => Some (true, f) | None => Some (false, empty_field) end
    | SMapping =>
        match target with
        | None => Some (false, empty_field)
        | Some g =>
            if Nat.eqb (kind g) 3 then Some (false, empty_field)
            else match over_fields (if first then pour_first else pour) target fs ([], []) with
                 | None => None
                 | Some (res, rep) => Some (true, {| v_geo := target; v_loc := loc; v_name := data_name; v_data := if first then res else resolve res rep |})
                 end
        end
    end.
End Extract.
