(** Model of the selections on a mesh and its boundary (src/geohandlers/FVGenericSelection.cpp and the
    blocks by box, cylinder and sphere) on the content of geometries of Obj.v.

    The selections that do the work are shared: [engines] gives, for each of them, the cells it extracts
    from a geometry (extractSelection).  They are of the kinds that accept every type of mesh (shapes,
    PIDs).  [clean] is the deletion of coincident vertices that ends a selection, as in Select.v; [border]
    is extractBoundaryMesh (Topo.v).  The warnings, the synchronization and the plots are left out.  [None]
    is an exception.  Serial. *)
From Coq Require Import String List Arith Bool ZArith Reals.
From Verif Require Import Vec SharedPtr Obj Select Topo.
Import ListNotations.
Open Scope list_scope.
Open Scope nat_scope.

Definition engines := nat -> obj -> list nat.
(** m_topo, m_geometry, m_bndgeometry, m_dual, m_selectEngine *)
Record fv := Fv { fv_topo : Z; fv_geo : option obj; fv_bnd : option obj; fv_dual : bool; fv_engine : option nat }.
(** constructor, 38-43 *)
Definition new_fv (topo : Z) : fv := Fv (Z.min 2 (Z.max 1 topo)) None None false None.
(** copy constructor, 53-58 *)
Definition fv_copy (b : fv) : fv := Fv (fv_topo b) (fv_geo b) (fv_bnd b) (fv_dual b) (fv_engine b).
(** setGeometry, 106-113 *)
Definition fv_setGeometry (g : option obj) (b : fv) : fv :=
  match g with
  | None => b
  | Some o => if (Z.eqb (fv_topo b) 1 && negb (Nat.eqb (o_type o) 2)) || (Z.eqb (fv_topo b) 2 && negb (Nat.eqb (o_type o) 1)) then b
              else Fv (fv_topo b) (Some o) (fv_bnd b) (fv_dual b) (fv_engine b)
  end.
(** setBoundaryGeometry, 119-126 *)
Definition fv_setBoundary (g : option obj) (b : fv) : fv :=
  match g with
  | None => b
  | Some o => if (Z.eqb (fv_topo b) 1 && negb (Nat.eqb (o_type o) 1)) || (Z.eqb (fv_topo b) 2 && negb (Nat.eqb (o_type o) 4)) then b
              else Fv (fv_topo b) (fv_geo b) (Some o) (fv_dual b) (fv_engine b)
  end.
(** setDual, 136-139 *)
Definition fv_setDual (d : bool) (b : fv) : fv := Fv (fv_topo b) (fv_geo b) (fv_bnd b) d (fv_engine b).
(** setSelection, 145-149 *)
Definition fv_setSelection (e : option nat) (b : fv) : fv :=
  match e with None => b | Some _ => Fv (fv_topo b) (fv_geo b) (fv_bnd b) (fv_dual b) e end.
(** the setters of the shape, as setOrigin of FVSelectionByBox.cpp: they change the selection linked *)
Definition fv_setShape (pick : obj -> list nat) (b : fv) (w : engines) : engines :=
  match fv_engine b with None => w | Some e => fun k => if Nat.eqb k e then pick else w k end.

(** deleteCells and deleteOrphanVertices of bitpit: the PIDs registered by the geometry do not change *)
Definition delete_cells (ids : list nat) (g : obj) : obj :=
  let cs := filter (fun e => negb (nin (fst e) ids)) (o_cells g) in
  Ob (o_type g) (o_tol g) (filter (fun e => nin (fst e) (flat_map (fun c => cell_verts (snd c)) cs)) (o_verts g)) cs (o_pids g) (o_names g).
(** cleanUpBoundaryPatch, 262-309 *)
Definition clean_up (vol bp : obj) : obj :=
  let vs := filter (fun v => nin v (map fst (o_verts vol))) (map fst (o_verts bp)) in
  let kept := getCellFromVertexList vs true bp in
  match filter (fun i => negb (nin i kept)) (map fst (o_cells bp)) with
  | [] => bp
  | del => delete_cells del bp
  end.
(** createInternalBoundaryPatch, 316-351 *)
Definition internal_patch (border : obj -> option obj) (vol bp : obj) : option obj :=
  match border vol with
  | None => None
  | Some r => Some (delete_cells (getCellFromVertexList (map fst (o_verts bp)) true r) r)
  end.
(** execute, 222-255: the volume patch, the boundary patch and the internal boundary patch *)
Definition fv_execute (clean : obj -> obj) (border : obj -> option obj) (w : engines) (b : fv) : option (obj * obj * obj) :=
  match fv_geo b, fv_bnd b, fv_engine b with
  | Some g, Some d, Some e =>
      match selection_patch clean (w e g) g, selection_patch clean (w e d) d with
      | Some vol, Some bp =>
          let bp := clean_up vol bp in
          match internal_patch border vol bp with
          | None => None
          | Some ip => Some (vol, bp, ip)
          end
      | _, _ => None
      end
  | _, _, _ => None
  end.
