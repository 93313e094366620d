(** Model of the vertices where a selected part is cut from its geometry (constrainedBoundary,
    src/geohandlers/GenericSelection.cpp 166-216) and of the selection by box that carries a field
    (src/geohandlers/SelectionByBoxWithScalar.cpp 150-171).

    The maps of border faces are those of Topo.v.  Geometries of fields are at addresses, as in
    Extract.v; the box has selected the geometry at [patch].  [None] is an exception.  Serial. *)
From Coq Require Import List Arith Bool.
From Verif Require Import SharedPtr Field Obj Topo Extract.
Import ListNotations.
Open Scope nat_scope.

(** 180-194: the border faces of the part that are not border faces of the geometry *)
Definition survivors (daughter mother : list (nat * list nat)) : list (nat * list nat) :=
  map (fun e => match SharedPtr.find (fst e) mother with
                | Some l => (fst e, filter (fun i => negb (existsb (Nat.eqb i) l)) (snd e))
                | None => e
                end) daughter.
(** 198-215 *)
Definition constrainedBoundary (face : nat -> nat -> list nat) (daughter mother : list (nat * list nat)) : list nat :=
  extractBoundaryVertexID face (survivors daughter mother).

(** execute of SelectionByBoxWithScalar: the new m_field.  When the extraction fails,
    ExtractField::execute only writes a message (src/geohandlers/ExtractFields.cpp 142-150) and its result
    stays empty *)
Section BoxScalar.
  Context {A : Type}.
  Variables (kind : nat -> nat) (mesh : nat -> geom) (pid : nat -> nat -> nat) (pid_list : nat -> list nat).
  Variables (iface_of : nat -> list nat -> list nat) (near : nat -> nat -> list nat).
  Definition box_field (target : option nat) (patch : nat) (f : fieldv A) : option (fieldv A) :=
    match target with
    | None => None
    | Some g =>
        if same_geometry (v_geo f) (Some g) then
          if Nat.eqb (kind patch) 3 && negb (loc_eqb (v_loc f) LPoint) then Some f
          else match extract kind mesh pid pid_list iface_of near ById (Some patch) f empty_field with
               | Some (_, r) => Some r
               | None => None
               end
        else None
    end.
End BoxScalar.
