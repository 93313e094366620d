(** Model of the union of surfaces used for the damping, the narrow band and the slip conditions of the
    propagators (src/propagators/PropagateField.tpp, initializeUniqueSurface 684-722, with
    MimmoObject::addVertex, src/core/MimmoObject.cpp 2156-2161, and addCell 2311-2317 and 2329-2340).

    A container is the list of its elements in the order of their insertion.  What update() does of
    adjacencies and exchanges is not modelled. *)
From Coq Require Import Reals.
From Coq Require Import List ZArith Bool.
From Verif Require Import Vec.
Import ListNotations.
Local Open Scope Z_scope.

(** a vertex: identifier and place *)
Definition vert : Type := Z * vec.
(** a cell: identifier, pid, identifiers of the vertices, process *)
Record ucell := UCell { u_id : Z; u_pid : Z; u_conn : list Z; u_rank : Z }.
Record surf := Surf { s_verts : list vert; s_cells : list ucell }.
(** MimmoObject::addVertex: nothing is done when the identifier is in use *)
Definition addVertex (l : list vert) (v : vert) : list vert := if existsb (fun w => Z.eqb (fst w) (fst v)) l then l else l ++ [v].
(** MimmoObject::addCell: nothing is done when the identifier is in use *)
Definition addCell (l : list ucell) (c : ucell) : list ucell := if existsb (fun d => Z.eqb (u_id d) (u_id c)) l then l else l ++ [c].
(** 695-716, a patch; the process of a cell is kept *)
Definition add_patch (s p : surf) : surf := Surf (fold_left addVertex (s_verts p) (s_verts s)) (fold_left addCell (s_cells p) (s_cells s)).
(** 684-722: [None] is the null pointer; the patches come in the order of their unordered set *)
Definition initializeUniqueSurface (patches : list surf) : option surf :=
  match patches with [] => None | _ => Some (fold_left add_patch patches (Surf [] [])) end.
