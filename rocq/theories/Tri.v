(** Model of the triangulation of a surface and of the treatment of degenerate elements
    (src/core/MimmoObject.cpp 4776-5005), and of the block SurfaceTriangulator
    (src/geohandlers/SurfaceTriangulator.cpp), on the content of geometries of Obj.v.

    The centroid of a cell (evalCellCentroid of bitpit) is an arbitrary function of the vertices of
    the patch and of the cell; the equality of two vertices (operator== of bitpit::Vertex) an
    arbitrary function of their coordinates.  [None] is an exception.  Serial; the synchronisation
    states are in Sync.v. *)
From Coq Require Import String List Arith Bool ZArith Reals.
From Verif Require Import Vec SharedPtr Obj Select.
Import ListNotations.
Open Scope list_scope.
Open Scope nat_scope.

(** * triangulate, 4776-4885 *)

(** the loops on the triangles of a cell: addConnectedCell(connTriangle, eletri, pid, newID), ++newID *)
Fixpoint tri_cells (ts : list (list nat)) (pid : Z) (nid : nat) (g : obj) : nat * obj :=
  match ts with
  | [] => (nid, g)
  | t :: r => tri_cells r pid (S nid) (snd (addConnectedCell (@length nat) t ETriangle pid (Some nid) g))
  end.
(** 4820-4829 *)
Definition quad_tris (conn : list nat) : list (list nat) := map (fun i => [nth 0 conn 0; nth (i + 1) conn 0; nth (i + 2) conn 0]) (seq 0 2).
(** 4834-4850; [conn] starts with the number of vertices *)
Definition fan_tris (v : nat) (conn : list nat) : list (list nat) :=
  let n := length conn - 1 in
  map (fun i => [v; nth (1 + i mod n) conn 0; nth (1 + (i + 1) mod n) conn 0]) (seq 0 n).
Fixpoint tri_loop (centroid : list (nat * vec) -> cell -> vec) (ids : list nat) (nid nvid : nat) (g : obj) : option obj :=
  match ids with
  | [] => Some g
  | id :: l =>
      match find id (o_cells g) with
      | None => None
      | Some c =>
          match c_type c with
          | EQuad | EPixel =>
              let '(nid, g) := tri_cells (quad_tris (c_conn c)) (c_pid c) nid (deleteCell id g) in
              tri_loop centroid l nid nvid g
          | EPolygon =>
              let g := snd (addVertex (@length nat) (centroid (o_verts g) c) (Some nvid) g) in
              let '(nid, g) := tri_cells (fan_tris nvid (c_conn c)) (c_pid c) nid (deleteCell id g) in
              tri_loop centroid l nid (S nvid) g
          | ETriangle => tri_loop centroid l nid nvid g
          | _ => None
          end
      end
  end.
(** getIds(true): in increasing order; the last one is the largest *)
Definition largest (l : list nat) : nat := last (sort l) 0.
Definition triangulate (centroid : list (nat * vec) -> cell -> vec) (g : obj) : option obj :=
  if Nat.eqb (o_type g) 1 then
    if Nat.eqb (length (o_verts g)) 0 || Nat.eqb (length (o_cells g)) 0 then Some g
    else tri_loop centroid (sort (map fst (o_cells g))) (largest (map fst (o_cells g)) + 1) (largest (map fst (o_verts g)) + 1) g
  else None.

(** SurfaceTriangulator::execute and getGeometry: the target after the execution, and the geometry returned *)
Definition surface_triangulator (centroid : list (nat * vec) -> cell -> vec) (work_on_target : bool) (g : obj) : option (obj * obj) :=
  if work_on_target then match triangulate centroid g with None => None | Some r => Some (r, r) end
  else match triangulate centroid (clone g) with None => None | Some r => Some (g, r) end.

(** * degradeDegenerateElements, 4899-5005 *)

(** the loop 4937-4953 on the vertices of a cell: ids kept, with their coordinates, and the map of
    the collapsed ones ([vm]: std::unordered_map::insert keeps the first value) *)
Definition map_insert (k v : nat) (m : list (nat * nat)) : list (nat * nat) := if has k m then m else m ++ [(k, v)].
Fixpoint first_equal (eqv : vec -> vec -> bool) (x : vec) (kept : list (nat * vec)) : option nat :=
  match kept with [] => None | (w, y) :: r => if eqv y x then Some w else first_equal eqv x r end.
Fixpoint unique_verts (eqv : vec -> vec -> bool) (vs : list (nat * vec)) (l : list nat) (kept : list (nat * vec)) (vm : list (nat * nat)) : list (nat * vec) * list (nat * nat) :=
  match l with
  | [] => (kept, vm)
  | v :: r => match find v vs with
              | None => unique_verts eqv vs r kept vm
              | Some x => match first_equal eqv x kept with
                          | None => unique_verts eqv vs r (kept ++ [(v, x)]) vm
                          | Some w => unique_verts eqv vs r kept (map_insert v w vm)
                          end
              end
  end.
(** the loop on the cells, 4926-4976: cells to delete, cells to insert *)
Fixpoint degrade_loop (eqv : vec -> vec -> bool) (g : obj) (cs : list (nat * cell)) (vm : list (nat * nat)) : list nat * list (nat * cell) * list (nat * nat) :=
  match cs with
  | [] => ([], [], vm)
  | (id, c) :: r =>
      let '(kept, vm) := unique_verts eqv (o_verts g) (cell_verts c) [] vm in
      let conn := map fst kept in
      let t := desumeElement (o_type g) conn in
      let '(del, ins, vm) := degrade_loop eqv g r vm in
      if elem_eqb t (c_type c) then (del, ins, vm)
      else (id :: del, if elem_eqb t EUndefined then ins else (id, Cl t conn (c_pid c)) :: ins, vm)
  end.
(** renumberVertices of bitpit: ids not in the map are unchanged *)
Definition renumber (vm : list (nat * nat)) (v : nat) : nat := match find v vm with Some w => w | None => v end.
Fixpoint renumber_faces (vm : list (nat * nat)) (k : nat) (s : list nat) : list nat :=
  match k with
  | O => s
  | S k => match s with [] => [] | n :: r => n :: map (renumber vm) (firstn n r) ++ renumber_faces vm k (skipn n r) end
  end.
Definition renumber_conn (vm : list (nat * nat)) (t : elem) (l : list nat) : list nat :=
  match t with
  | EPolygon => match l with [] => [] | n :: r => n :: map (renumber vm) r end
  | EPolyhedron => match l with [] => [] | n :: r => n :: renumber_faces vm n r end
  | _ => map (renumber vm) l
  end.
Definition degrade (eqv : vec -> vec -> bool) (g : obj) : obj :=
  let '(del, ins, vm) := degrade_loop eqv g (o_cells g) [] in
  let g := fold_left (fun g id => deleteCell id g) del g in
  let g := fold_left (fun g e => snd (addCell (@length nat) (snd e) (Some (fst e)) g)) ins g in
  match vm with
  | [] => g
  | _ => with_cells g (map (fun e => (fst e, Cl (c_type (snd e)) (renumber_conn vm (c_type (snd e)) (c_conn (snd e))) (c_pid (snd e)))) (o_cells g))
  end.
