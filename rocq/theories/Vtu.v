(** Unstructured meshes of VTK files, *.vtu: src/core/VTUGridWriterASCII.cpp (mimmo::VTUGridWriterASCII, mimmo::VTUFlushStreamerASCII)
    and src/core/VTUGridReader.cpp (mimmo::VTUGridReader, mimmo::VTUGridStreamer), used by mimmo::MimmoGeometry for SURFVTU, VOLVTU, CURVEVTU
    and PCVTU.  Simplified: the arrays of the file are lists of values (bitpit::VTKUnstructuredGrid writes and reads the XML around them); a
    coordinate read back is a function of the one written, as bitpit writes a fixed number of digits; ids are naturals; the ranks of cells
    and vertices are left out, and so is the choice of the process that reads. *)
From Coq Require Import List Arith Bool ZArith Lia.
Import ListNotations.
Open Scope list_scope.
Open Scope nat_scope.

Inductive etype := VERTEX | LINE | TRIANGLE | POLYGON | PIXEL | QUAD | TETRA | VOXEL | HEXAHEDRON | WEDGE | PYRAMID | POLYHEDRON | UNDEFINED.
Definition etype_eqb (a b : etype) : bool :=
  match a, b with
  | VERTEX, VERTEX | LINE, LINE | TRIANGLE, TRIANGLE | POLYGON, POLYGON | PIXEL, PIXEL | QUAD, QUAD | TETRA, TETRA | VOXEL, VOXEL
  | HEXAHEDRON, HEXAHEDRON | WEDGE, WEDGE | PYRAMID, PYRAMID | POLYHEDRON, POLYHEDRON | UNDEFINED, UNDEFINED => true
  | _, _ => false
  end.
(** VTUGridReader.cpp 97-149 *)
Definition type_of_code (z : Z) : etype :=
  if Z.eqb z 1 then VERTEX else if Z.eqb z 3 then LINE else if Z.eqb z 5 then TRIANGLE else if Z.eqb z 7 then POLYGON else
  if Z.eqb z 8 then PIXEL else if Z.eqb z 9 then QUAD else if Z.eqb z 10 then TETRA else if Z.eqb z 11 then VOXEL else
  if Z.eqb z 12 then HEXAHEDRON else if Z.eqb z 13 then WEDGE else if Z.eqb z 14 then PYRAMID else if Z.eqb z 42 then POLYHEDRON else UNDEFINED.
(** VTUGridWriterASCII.cpp 82-141; the values of bitpit::VTKElementType are those of VTK *)
Definition code_of_type (t : etype) : Z :=
  match t with
  | VERTEX => 1 | LINE => 3 | TRIANGLE => 5 | POLYGON => 7 | PIXEL => 8 | QUAD => 9 | TETRA => 10 | VOXEL => 11
  | HEXAHEDRON => 12 | WEDGE => 13 | PYRAMID => 14 | POLYHEDRON => 42 | UNDEFINED => -1
  end%Z.

(** the arrays: Points, offsets, types, connectivity, faces, faceoffsets, cellIndex, PID, vertexIndex; one that is not in the file is empty *)
Record arrays (V : Type) := Arrays { a_points : list V; a_offsets : list nat; a_types : list Z; a_conn : list nat; a_faces : list nat;
                                     a_foffsets : list Z; a_cid : list nat; a_pid : list Z; a_vid : list nat }.
Arguments Arrays {V}. Arguments a_points {V}. Arguments a_offsets {V}. Arguments a_types {V}. Arguments a_conn {V}. Arguments a_faces {V}.
Arguments a_foffsets {V}. Arguments a_cid {V}. Arguments a_pid {V}. Arguments a_vid {V}.
(** a cell of bitpit: id, type, connectivity (a polygon has first how many its vertices are, a polyhedron how many its faces are and before
    each face how many its vertices are) and PID *)
Definition cell : Type := nat * etype * list nat * Z.
Record mesh (V : Type) := Mesh { m_verts : list (nat * V); m_cells : list cell }.
Arguments Mesh {V}. Arguments m_verts {V}. Arguments m_cells {V}.
(** what happens: a result, an exception, or memory out of bounds *)
Inductive outcome (A : Type) := Done (a : A) | Throws | Undefined.
Arguments Done {A}. Arguments Throws {A}. Arguments Undefined {A}.

(** ** Reading *)

(** VTUGridReader.cpp 240-244, 260-261: the set of the ids has as many elements as the vertices, or the cells *)
Definition usable (ids : list nat) (n : nat) : bool := Nat.eqb (length (nodup Nat.eq_dec ids)) n.
(** 246-255: the ids of the vertices: those of the file, or the next ones of an empty patch *)
Definition vert_ids (vid : list nat) (n : nat) : list nat := if usable vid n then firstn n vid else seq 0 n.
(** mapVert[i]: zero, if there is no such key *)
Definition map_vert (ids : list nat) (i : nat) : nat := nth i ids 0.
(** the elements from a position to another one; None beyond the end *)
Definition slice (l : list nat) (from to : nat) : option (list nat) :=
  if Nat.ltb (length l) to then None else Some (firstn (to - from) (skipn from l)).
(** 300-307: the faces after the first value; [k] bounds the number of faces *)
Fixpoint remap (ids : list nat) (k : nat) (l : list nat) : option (list nat) :=
  match k, l with
  | _, [] => Some []
  | O, _ => None
  | S k, n :: r => if Nat.ltb (length r) n then None
                   else match remap ids k (skipn n r) with Some q => Some (n :: map (map_vert ids) (firstn n r) ++ q) | None => None end
  end.
Definition remap_stream (ids : list nat) (l : list nat) : option (list nat) :=
  match l with [] => Some [] | n :: r => option_map (cons n) (remap ids (length r) r) end.
(** 286-325: the connectivity of a cell *)
Definition conn_of {V : Type} (f : arrays V) (ids : list nat) (check : bool) (t : etype) (j off posc posf : nat) : outcome (list nat) :=
  match t with
  | POLYHEDRON =>
    if negb check then Throws
    else match nth_error (a_foffsets f) j with
         | None => Undefined
         | Some fo => if Z.ltb fo (Z.of_nat posf) then Throws
                      else match slice (a_faces f) posf (Z.to_nat fo) with
                           | None => Undefined
                           | Some l => match remap_stream ids l with Some c => Done c | None => Undefined end
                           end
         end
  | _ =>
    if Nat.ltb off posc then Throws
    else match slice (a_conn f) posc off with
         | None => Undefined
         | Some l => Done (match t with POLYGON => length l :: map (map_vert ids) l | _ => map (map_vert ids) l end)
         end
  end.
(** 259-341: the cells.  [used]: the ids of the file are used *)
Fixpoint decode_cells {V : Type} (f : arrays V) (ids : list nat) (check used pids : bool) (j : nat) (offs : list nat) (posc posf : nat)
                      : outcome (list cell) :=
  match offs with
  | [] => Done []
  | off :: r =>
    match nth_error (a_types f) j with
    | None => Undefined
    | Some z =>
      match conn_of f ids check (type_of_code z) j off posc posf with
      | Throws => Throws
      | Undefined => Undefined
      | Done c =>
        let fo := nth j (a_foffsets f) 0%Z in
        match decode_cells f ids check used pids (S j) r off (if check && Z.ltb 0 fo then Z.to_nat fo else posf) with
        | Throws => Throws
        | Undefined => Undefined
        | Done cs => Done ((if used then nth j (a_cid f) 0 else j, type_of_code z, c, if pids then nth j (a_pid f) 0%Z else 0%Z) :: cs)
        end
      end
    end
  end.
(** decodeRawData, 208-342 *)
Definition decode {V : Type} (f : arrays V) : outcome (mesh V) :=
  let nc := length (a_offsets f) in
  if Nat.ltb (length (a_conn f)) nc then Throws
  else if existsb (fun z => etype_eqb (type_of_code z) UNDEFINED) (a_types f) then Throws
  else
    let ids := vert_ids (a_vid f) (length (a_points f)) in
    let check := Nat.eqb (length (a_foffsets f)) nc && Nat.leb nc (length (a_faces f)) in
    match decode_cells f ids check (usable (a_cid f) nc) (Nat.eqb (length (a_pid f)) nc) 0 (a_offsets f) 0 0 with
    | Throws => Throws
    | Undefined => Undefined
    | Done cs => Done (Mesh (combine ids (a_points f)) cs)
    end.

(** ** Writing *)

(** the faces after the first value *)
Fixpoint faces_of (k : nat) (l : list nat) : list (list nat) :=
  match k, l with
  | S k, n :: r => firstn n r :: faces_of k (skipn n r)
  | _, _ => []
  end.
(** getVertexIds of bitpit::Cell: for a polyhedron, its vertices once; the order is not that of bitpit *)
Definition cell_verts (c : cell) : list nat :=
  let '(_, t, conn, _) := c in
  match t with
  | POLYHEDRON => nodup Nat.eq_dec (concat (faces_of (length conn) (tl conn)))
  | POLYGON => tl conn
  | _ => conn
  end.
Definition is_poly (c : cell) : bool := etype_eqb (snd (fst (fst c))) POLYHEDRON.
(** getFaceStream and renumberFaceStream of bitpit *)
Definition face_stream (place : nat -> nat) (c : cell) : list nat :=
  let conn := snd (fst c) in hd 0 conn :: flat_map (fun vs => length vs :: map place vs) (faces_of (length conn) (tl conn)).
(** VTUGridWriterASCII.cpp 254-274, 285-295: the vertices of the cells written, in the order of the mesh, and their places *)
Definition used_verts {V : Type} (m : mesh V) (cs : list cell) : list (nat * V) :=
  filter (fun e => existsb (Nat.eqb (fst e)) (flat_map cell_verts cs)) (m_verts m).
Fixpoint place_of (l : list nat) (v : nat) : nat := match l with [] => 0 | x :: r => if Nat.eqb x v then 0 else S (place_of r v) end.
(** running sums *)
Fixpoint sums (acc : nat) (l : list nat) : list nat := match l with [] => [] | n :: r => (acc + n) :: sums (acc + n) r end.
(** the constructor, 226-307, and flushData, 60-215.  [target]: the cells written, all or the internal ones; [always]: the arrays of faces
    are in the file also when no cell needs them; [rt]: a coordinate as it is read back *)
Definition write {V : Type} (target : cell -> bool) (always : bool) (rt : V -> V) (m : mesh V) : arrays V :=
  let cs := filter target (m_cells m) in
  let vs := used_verts m cs in
  let place := place_of (map fst vs) in
  let streams := map (fun c => if is_poly c then face_stream place c else [0]) cs in
  let needed := always || existsb is_poly (m_cells m) in
  Arrays (map (fun e => rt (snd e)) vs) (sums 0 (map (fun c => length (cell_verts c)) cs))
         (map (fun c => code_of_type (snd (fst (fst c)))) cs) (flat_map (fun c => map place (cell_verts c)) cs)
         (if needed then concat streams else []) (if needed then map Z.of_nat (sums 0 (map (@length nat) streams)) else [])
         (map (fun c => fst (fst (fst c))) cs) (map snd cs) (map fst vs).
