(** Model of the content of a geometry: vertices, cells, connectivity and part identifiers of
    MimmoObject (src/core/MimmoObject.cpp; the synchronisation of its search structures is in
    Sync.v).

    The patch of bitpit, which is outside /repo, is modelled by what it stores: vertices and cells
    in iteration order, with distinct ids; ids and the entries of a connectivity are natural
    numbers.  A part identifier is stored in a cell as an int, and listed by the class as a long.
    std::unordered_set and std::unordered_map are lists without repetition, whose order nothing
    below depends on.  The model is serial: no ghosts.  The ids chosen by bitpit for new elements
    are given by an arbitrary function [fr] of the ids in use.  Names are strings. *)
From Coq Require Import String List Arith Bool ZArith Reals.
From Verif Require Import Vec SharedPtr.
Import ListNotations.
Open Scope list_scope.
Open Scope nat_scope.

(** bitpit::ElementType *)
Inductive elem := EVertex | ELine | ETriangle | EPixel | EQuad | EPolygon | ETetra | EVoxel | EHexahedron
  | EWedge | EPyramid | EPolyhedron | EUndefined.
Definition elem_eqb (a b : elem) : bool :=
  match a, b with
  | EVertex, EVertex | ELine, ELine | ETriangle, ETriangle | EPixel, EPixel | EQuad, EQuad | EPolygon, EPolygon
  | ETetra, ETetra | EVoxel, EVoxel | EHexahedron, EHexahedron | EWedge, EWedge | EPyramid, EPyramid
  | EPolyhedron, EPolyhedron | EUndefined, EUndefined => true
  | _, _ => false
  end.

Record cell := Cl { c_type : elem; c_conn : list nat; c_pid : Z }.
(** m_type, m_tolerance, the patch, m_pidsType, m_pidsTypeWNames *)
Record obj := Ob { o_type : nat; o_tol : R; o_verts : list (nat * vec); o_cells : list (nat * cell);
                   o_pids : list Z; o_names : list (Z * string) }.

(** MimmoObject(type): an empty geometry; the default tolerance is 1e-6, 298 and 452 *)
Definition new_obj (t : nat) : obj := Ob t (/ 1000000) [] [] [] [].

(** sets and maps of long *)
Definition zin (p : Z) (l : list Z) : bool := existsb (Z.eqb p) l.
Definition zadd (p : Z) (l : list Z) : list Z := if zin p l then l else l ++ [p].
Fixpoint nfind (p : Z) (l : list (Z * string)) : option string :=
  match l with [] => None | (q, s) :: r => if Z.eqb q p then Some s else nfind p r end.
(** std::unordered_map::insert keeps the old value; operator[] = overwrites *)
Definition nadd (p : Z) (s : string) (l : list (Z * string)) : list (Z * string) :=
  match nfind p l with Some _ => l | None => l ++ [(p, s)] end.
Fixpoint nput (p : Z) (s : string) (l : list (Z * string)) : list (Z * string) :=
  match l with [] => [(p, s)] | (q, t) :: r => if Z.eqb q p then (p, s) :: r else (q, t) :: nput p s r end.

(** conversion from long to int, modulo 2^32 *)
Definition to_int (z : Z) : Z := ((z + 2 ^ 31) mod 2 ^ 32 - 2 ^ 31)%Z.

Definition has {A} (id : nat) (l : list (nat * A)) : bool := match find id l with Some _ => true | None => false end.
Definition with_cells (g : obj) (c : list (nat * cell)) : obj := Ob (o_type g) (o_tol g) (o_verts g) c (o_pids g) (o_names g).
Definition with_verts (g : obj) (v : list (nat * vec)) : obj := Ob (o_type g) (o_tol g) v (o_cells g) (o_pids g) (o_names g).
Definition with_pids (g : obj) (p : list Z) (n : list (Z * string)) : obj := Ob (o_type g) (o_tol g) (o_verts g) (o_cells g) p n.

(** setTolerance, 2096-2100 *)
Definition setTolerance (t : R) (g : obj) : obj :=
  Ob (o_type g) (Rmax (/ 10 ^ 15) t) (o_verts g) (o_cells g) (o_pids g) (o_names g).

(** * Part identifiers *)

(** the loop 2371-2373 and 2396-2398: names of a cleared map *)
Definition blank_names (pids : list Z) : list (Z * string) := fold_left (fun n p => nadd p EmptyString n) pids [].
Definition put_pid (p : Z) (c : cell) : cell := Cl (c_type c) (c_conn c) (to_int p).
(** setPID of a list, 2358-2374 *)
Definition setPID (pids : list Z) (g : obj) : obj :=
  if Nat.eqb (length pids) (length (o_cells g)) then
    let ps := fold_left (fun l p => zadd p l) pids [] in
    with_pids (with_cells g (map (fun e => (fst (fst e), put_pid (snd e) (snd (fst e)))) (combine (o_cells g) pids)))
              ps (blank_names ps)
  else g.
(** setPID of a map, 2382-2400 *)
Definition put_cell_pid (id : nat) (p : Z) (cs : list (nat * cell)) : list (nat * cell) :=
  map (fun e => if Nat.eqb (fst e) id then (id, put_pid p (snd e)) else e) cs.
Definition setPID_map (m : list (nat * Z)) (g : obj) : obj :=
  match o_cells g with
  | [] => g
  | _ =>
      let here := filter (fun e => has (fst e) (o_cells g)) m in
      let ps := fold_left (fun l e => zadd (snd e) l) here [] in
      with_pids (with_cells g (fold_left (fun cs e => put_cell_pid (fst e) (snd e) cs) here (o_cells g))) ps (blank_names ps)
  end.
(** setPIDCell, 2407-2415 *)
Definition setPIDCell (id : nat) (p : Z) (g : obj) : obj :=
  if has id (o_cells g) then
    with_pids (with_cells g (put_cell_pid id p (o_cells g))) (zadd p (o_pids g)) (nadd p EmptyString (o_names g))
  else g.
(** setPIDName, 2424-2429 *)
Definition setPIDName (p : Z) (s : string) (g : obj) : bool * obj :=
  match nfind p (o_names g) with
  | None => (false, g)
  | Some _ => (true, with_pids g (o_pids g) (nput p s (o_names g)))
  end.
(** resyncPID, 2436-2453 *)
Definition resyncPID (g : obj) : obj :=
  let ps := fold_left (fun l e => zadd (c_pid (snd e)) l) (o_cells g) [] in
  let name := fun p => match nfind p (o_names g) with Some s => s | None => EmptyString end in
  with_pids g ps (fold_left (fun n p => nadd p (name p) n) ps []).
(** getCompactPID, 1551-1561; getPID, 1568-1576 *)
Definition getCompactPID (g : obj) : list Z :=
  match o_pids g with [] => [] | _ => map (fun e => c_pid (snd e)) (o_cells g) end.
Definition getPID (g : obj) : list (nat * Z) :=
  match o_pids g with [] => [] | _ => map (fun e => (fst e, c_pid (snd e))) (o_cells g) end.
(** extractPIDCells of a PID, 3122-3138, and of a list, 3146-3156 *)
Definition extractPIDCells (p : Z) (g : obj) : list nat :=
  if zin p (o_pids g) then map fst (filter (fun e => Z.eqb (c_pid (snd e)) p) (o_cells g)) else [].
Definition extractPIDCells_list (ps : list Z) (g : obj) : list nat := flat_map (fun p => extractPIDCells p g) ps.
(** extractPIDSubdivision, 3162-3183; the entries of the std::map are in order of insertion here *)
Fixpoint push (p : Z) (id : nat) (m : list (Z * list nat)) : list (Z * list nat) :=
  match m with [] => [(p, [id])] | (q, l) :: r => if Z.eqb q p then (q, l ++ [id]) :: r else (q, l) :: push p id r end.
Definition extractPIDSubdivision (g : obj) : list (Z * list nat) :=
  match o_pids g with
  | [] => []
  | ps => fold_left (fun m e => push (c_pid (snd e)) (fst e) m) (o_cells g) (map (fun p => (p, [])) ps)
  end.

(** * Cells *)

(** the walk on the faces of a polyhedron, 3232-3240: position reached and faces not met *)
Fixpoint walk (nF pos : nat) (l : list nat) : nat * nat :=
  match nF with
  | O => (pos, O)
  | S n => if pos <? length l then walk n (pos + nth pos l 0 + 1) l else (pos, nF)
  end.
Definition is_polyhedron (l : list nat) : bool :=
  let (pos, left) := walk (hd 0 l) 1 l in Nat.eqb pos (length l) && Nat.eqb left 0.
(** checkCellConnCoherence, 3193-3248 *)
Definition checkCellConnCoherence (t : elem) (l : list nat) : bool :=
  match t with
  | EVertex => Nat.eqb (length l) 1
  | ELine => Nat.eqb (length l) 2
  | ETriangle => Nat.eqb (length l) 3
  | EPixel | EQuad | ETetra => Nat.eqb (length l) 4
  | EPolygon => if length l <? 3 then false else Nat.eqb (length l) (hd 0 l + 1)
  | EVoxel | EHexahedron => Nat.eqb (length l) 8
  | EWedge => Nat.eqb (length l) 6
  | EPyramid => Nat.eqb (length l) 5
  | EPolyhedron => if length l <? 9 then false else is_polyhedron l
  | EUndefined => false
  end.
(** desumeElement, 3677-3719 *)
Definition desumeElement (t : nat) (l : list nat) : elem :=
  match t with
  | 1 => if (4 <? length l) && Nat.eqb (length l) (hd 0 l + 1) then EPolygon
         else match length l with 3 => ETriangle | 4 => EQuad | _ => EUndefined end
  | 2 => if (8 <? length l) && is_polyhedron l then EPolyhedron
         else match length l with 4 => ETetra | 8 => EHexahedron | 5 => EPyramid | 6 => EWedge | _ => EUndefined end
  | 3 => match length l with 1 => EVertex | _ => EUndefined end
  | 4 => match length l with 2 => ELine | _ => EUndefined end
  | _ => EUndefined
  end.

Definition pick_id (fr : list nat -> nat) (id : option nat) (used : list nat) : nat :=
  match id with Some i => i | None => fr used end.
(** addVertex, 2116-2142: the id is returned, None is NULL_ID *)
Definition addVertex (fr : list nat -> nat) (x : vec) (id : option nat) (g : obj) : option nat * obj :=
  match id with
  | Some i => if has i (o_verts g) then (None, g) else (Some i, with_verts g (o_verts g ++ [(i, x)]))
  | None => let i := fr (map fst (o_verts g)) in (Some i, with_verts g (o_verts g ++ [(i, x)]))
  end.
(** the part common to addConnectedCell and addCell: addCell of bitpit, then setPIDCell *)
Definition add_cell (i : nat) (t : elem) (l : list nat) (p : Z) (g : obj) : obj :=
  setPIDCell i p (with_cells g (o_cells g ++ [(i, Cl t l 0%Z)])).
(** addConnectedCell, 2249-2286 *)
Definition addConnectedCell (fr : list nat -> nat) (l : list nat) (t : elem) (p : Z) (id : option nat) (g : obj) : option nat * obj :=
  match l with
  | [] => (None, g)
  | _ =>
      if (match id with Some i => has i (o_cells g) | None => false end) then (None, g)
      else if checkCellConnCoherence t l then
        let i := pick_id fr id (map fst (o_cells g)) in (Some i, add_cell i t l p g)
      else (None, g)
  end.
(** addCell, 2314-2350 *)
Definition addCell (fr : list nat -> nat) (c : cell) (id : option nat) (g : obj) : option nat * obj :=
  if (match id with Some i => has i (o_cells g) | None => false end) then (None, g)
  else let i := pick_id fr id (map fst (o_cells g)) in (Some i, add_cell i (c_type c) (c_conn c) (c_pid c) g).
(** deleteCell of the patch: the class is not told *)
Definition deleteCell (id : nat) (g : obj) : obj := with_cells g (filter (fun e => negb (Nat.eqb (fst e) id)) (o_cells g)).

(** MimmoObject(type, vertices, connectivity), 352-456: the new elements are numbered from 0.
    [None]: the null pointer given for no connectivity (the default argument) is dereferenced, 427.
    An unknown type throws, 402-404. *)
Definition addConn (t : nat) (g : obj) (l : list nat) : obj :=
  match desumeElement t l with
  | EUndefined => g
  | e => snd (addConnectedCell (@length nat) l e 0%Z None g)
  end.
Definition construct (t : nat) (vs : list vec) (conn : option (list (list nat))) : option obj :=
  let t := max t 1 in
  if 4 <? t then None
  else match conn with
       | None => None
       | Some conn =>
           let g := fold_left (addConn t) conn (with_verts (new_obj t) (combine (seq 0 (length vs)) vs)) in
           Some (with_pids g (zadd 0%Z (o_pids g)) (nadd 0%Z EmptyString (o_names g)))
       end.

(** clone, 2463-2495: the constructor of a patch, resyncPID, and the names.  The tolerance is not
    copied: it is the default one.  [cloned] is getPatch()->clone(). *)
Definition clone (g : obj) : obj :=
  fold_left (fun r e => snd (setPIDName (fst e) (snd e) r)) (o_names g)
    (resyncPID (Ob (o_type g) (/ 1000000) (o_verts g) (o_cells g) [] [])).

(** * Connectivity *)

(** getMapDataInv (serial), 1436-1465: the position of each vertex; std::unordered_map::operator[]
    gives 0 for a missing key *)
Fixpoint position (id : nat) (vs : list (nat * vec)) : nat :=
  match vs with [] => O | (i, _) :: r => if Nat.eqb i id then O else S (position id r) end.
Definition mapDataInv (g : obj) (id : nat) : nat := if has id (o_verts g) then position id (o_verts g) else 0.
(** getVerticesCoords, 1145-1167 *)
Definition getVerticesCoords (g : obj) : list vec := map snd (o_verts g).
(** The loop on the faces of a polyhedron, 1206-1215 and StitchGeometry.cpp 274-285, written on the
    stream of the faces (the position of a face in the stream is where the previous one ends):
    [k] faces are translated, what is left keeps the zeros of the resize. *)
Fixpoint conv_faces (k : nat) (m : nat -> nat) (s : list nat) : list nat :=
  match k with
  | O => map (fun _ => 0) s
  | S k => match s with
           | [] => []
           | n :: r => n :: map m (firstn n r) ++ conv_faces k m (skipn n r)
           end
  end.
Definition conv_conn (m : nat -> nat) (t : elem) (l : list nat) : list nat :=
  match t with
  | EPolygon => match l with [] => [] | n :: r => n :: map m r end
  | EPolyhedron => match l with [] => [] | n :: r => n :: conv_faces (n - 1) m r end
  | _ => map m l
  end.
(** getCompactConnectivity, 1190-1227; getConnectivity, 1235-1251; getCellConnectivity, 1259-1272 *)
Definition getCompactConnectivity (m : nat -> nat) (g : obj) : list (list nat) :=
  map (fun e => conv_conn m (c_type (snd e)) (c_conn (snd e))) (o_cells g).
Definition getConnectivity (g : obj) : list (list nat) := map (fun e => c_conn (snd e)) (o_cells g).
Definition getCellConnectivity (i : nat) (g : obj) : list nat := match find i (o_cells g) with None => [] | Some c => c_conn c end.

(** the vertices of a cell: getVertexIds of bitpit; those of a polyhedron without repetition *)
Fixpoint face_verts (k : nat) (s : list nat) : list nat :=
  match k with
  | O => []
  | S k => match s with [] => [] | n :: r => firstn n r ++ face_verts k (skipn n r) end
  end.
Definition cell_verts (c : cell) : list nat :=
  match c_type c with
  | EPolygon => tl (c_conn c)
  | EPolyhedron => nodup Nat.eq_dec (face_verts (hd 0 (c_conn c)) (tl (c_conn c)))
  | _ => c_conn c
  end.
(** getVertexFromCellList, 2557-2577 *)
Definition getVertexFromCellList (l : list nat) (g : obj) : list nat :=
  if Nat.eqb (o_type g) 3 then []
  else nodup Nat.eq_dec (flat_map (fun id => match find id (o_cells g) with None => [] | Some c => cell_verts c end) l).
(** the loop 2645-2655 on the vertices of a cell *)
Fixpoint check_verts (strict : bool) (l vs : list nat) (check : bool) : bool :=
  match vs with
  | [] => check
  | v :: r => let check := existsb (Nat.eqb v) l in
              if (negb check && strict) || (check && negb strict) then check else check_verts strict l r check
  end.
(** getCellFromVertexList, 2634-2661 *)
Definition getCellFromVertexList (l : list nat) (strict : bool) (g : obj) : list nat :=
  if Nat.eqb (o_type g) 3 then []
  else map fst (filter (fun e => check_verts strict l (cell_verts (snd e)) false) (o_cells g)).
