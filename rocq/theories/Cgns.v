(** Volume meshes with boundary patches in CGNS files: reading and writing. The numbers that name element types are those of cgnslib.h, which is not in /repo; the CGNS library itself
    is the file as a list of zones. Simplified: ids of surface cells and the order of unordered maps (lists keep one order), the types and names of the base, several bases. *)
From Coq Require Import String List ZArith Bool Reals.
From Verif Require Import Text.
From Verif Require Nastran.
Import ListNotations.
Open Scope list_scope.
Open Scope Z_scope.

(** what a computation ends with: a value, an exception, or reading outside an array *)
Inductive res (A : Type) : Type := Ok (a : A) | Throws | UB.
Arguments Ok {A} a.
Arguments Throws {A}.
Arguments UB {A}.
Definition bind {A B} (x : res A) (f : A -> res B) : res B := match x with Ok a => f a | Throws => Throws | UB => UB end.

(** bitpit::ElementType, as far as it is used *)
Inductive etype := Tetra | Pyramid | Wedge | Hexa | Triangle | Quad | Another.
Definition etype_eqb (a b : etype) : bool :=
  match a, b with Tetra, Tetra | Pyramid, Pyramid | Wedge, Wedge | Hexa, Hexa | Triangle, Triangle | Quad, Quad | Another, Another => true | _, _ => false end.
Record cell := Cell { c_id : Z; c_type : etype; c_conn : list Z; c_pid : Z }.
Definition point : Type := (R * R * R)%type.
Definition vertex : Type := (Z * point)%type.

(** a file: zones with points, sections of elements (type and data, from one), boundary conditions *)
Record bc := Bc { b_name : list N; b_kind : Z; b_elements : bool; b_list : list Z }.
Record zone := Zone { z_name : list N; z_points : list point; z_ncells : nat; z_sections : list (Z * list Z); z_bcs : list bc }.

(** ** Reading *)
(** the cases of the switches, IOCGNS.cpp 832-968 and 1720-1873 *)
Inductive kind := Volume (t : etype) (n : nat) | Surface (n : nat) | Line (n : nat) | Mixed | Unknown.
Definition mem (x : Z) (l : list Z) : bool := existsb (Z.eqb x) l.
Definition kind_of (tag : Z) : kind :=
  if mem tag [10; 11; 29; 30; 45; 46; 47] then Volume Tetra 4
  else if mem tag [12; 13; 21; 31; 32; 33; 49; 50] then Volume Pyramid 5
  else if mem tag [14; 15; 16; 34; 35; 36; 51; 52; 53] then Volume Wedge 6
  else if mem tag [17; 18; 19; 37; 38; 39; 54; 55; 56] then Volume Hexa 8
  else if mem tag [5; 6; 25; 26; 41; 42] then Surface 3
  else if mem tag [7; 8; 9; 27; 28; 44] then Surface 4
  else if mem tag [2] then Line 1 else if mem tag [3] then Line 2 else if mem tag [4] then Line 3 else if mem tag [24] then Line 4 else if mem tag [40] then Line 5
  else if mem tag [20] then Mixed else Unknown.
(** 893-895, 1768-1769 and 1609-1612: the vertices of wedges *)
Definition turn (t : etype) (l : list Z) : list Z := match t, l with Wedge, [a; b; c; d; e; f] => [a; c; b; d; f; e] | _, _ => l end.

(** what is filled while a zone is read: cells of the volume, surface elements (flaggedBCConns) by number, the next number *)
Record st := St { s_cells : list cell; s_surf : list (Z * list Z); s_next : Z }.
(** 838-845 and the like *)
Definition add_volume (vo co pid : Z) (t : etype) (conn : list Z) (s : st) : st :=
  St (s_cells s ++ [Cell (s_next s + co) t (turn t (map (fun v => vo + v) conn)) pid]) (s_surf s) (s_next s + 1).
(** 927-933, 946-952 *)
Definition add_surface (vo : Z) (conn : list Z) (s : st) : st := St (s_cells s) (s_surf s ++ [(s_next s, map (fun v => vo + v) conn)]) (s_next s + 1).
(** the loops with step n, 836-845 and the like: data past the end are read all the same *)
Fixpoint elements (fuel : nat) (f : list Z -> st -> st) (n : nat) (l : list Z) (s : st) : res st :=
  match l, fuel with
  | [], _ => Ok s
  | _, O => UB
  | _, S k => if Nat.leb n (length l) then elements k f n (skipn n l) (f (firstn n l) s) else UB
  end.
(** unpackMixedConns, 1702-1880: surface elements go in a copy of the map, so that only their number is left *)
Fixpoint unpack (fuel : nat) (vo co pid : Z) (l : list Z) (s : st) : res st :=
  match l, fuel with
  | [], _ => Ok s
  | _, O => UB
  | tag :: r, S k =>
    let go n s := if Nat.leb n (length r) then unpack k vo co pid (skipn n r) s else UB in
    match kind_of tag with
    | Volume t n => go n (add_volume vo co pid t (firstn n r) s)
    | Surface n => go n (St (s_cells s) (s_surf s) (s_next s + 1))
    | Line n => go n (St (s_cells s) (s_surf s) (s_next s + 1))
    | Mixed => Throws
    | Unknown => Throws
    end
  end.
(** 679-684: everything less one; 819-968 *)
Definition read_section (vo co pid : Z) (s : st) (sec : Z * list Z) : res st :=
  let d := map (fun v => v - 1) (snd sec) in
  match kind_of (fst sec) with
  | Volume t n => elements (length d) (add_volume vo co pid t) n d s
  | Surface n => elements (length d) (add_surface vo) n d s
  | Mixed => unpack (length d) vo co pid d s
  | Line _ => Ok s
  | Unknown => Ok s
  end.
Fixpoint read_sections (vo co pid : Z) (l : list (Z * list Z)) (s : st) : res st :=
  match l with [] => Ok s | sec :: r => bind (read_section vo co pid s sec) (read_sections vo co pid r) end.

(** the faces at the border of a volume mesh (extractBoundaryFaceCellID), each with its cell, its place in it and its vertices: any function *)
Definition face : Type := (Z * nat * list Z)%type.
(** BCCGNS as filled by read, 790-794, 986: PID, type, name, whether of elements *)
Record info := Info { i_pid : Z; i_kind : Z; i_name : option (list N); i_elements : bool }.
(** what is gathered over zones *)
Record acc := Acc { a_verts : list vertex; a_cells : list cell; a_elems : list (Z * (Z * list Z)); a_faces : list (face * Z); a_info : list info; a_pid : Z; a_zone : Z; a_zones : list (Z * list N) }.
Fixpoint look {A} (i : Z) (l : list (Z * A)) : option A := match l with [] => None | (j, x) :: r => if Z.eqb i j then Some x else look i r end.
(** 1024-1026: flaggedBCConns.at throws; insert does nothing when the number is there *)
Fixpoint of_elements (surf : list (Z * list Z)) (l : list Z) (got : list (Z * list Z)) : res (list (Z * list Z)) :=
  match l with
  | [] => Ok got
  | i :: r => match look i surf with
              | None => Throws
              | Some conn => of_elements surf r (match look i got with Some _ => got | None => got ++ [(i, conn)] end)
              end
  end.
(** belongToPool, 1540-1548 *)
Definition belongToPool (conn pool : list Z) : bool := match conn with [] => false | _ => forallb (fun v => mem v pool) conn end.
(** 1001-1019: the first condition that takes a face keeps it *)
Definition face_eqb (f g : face) : bool := Z.eqb (fst (fst f)) (fst (fst g)) && Nat.eqb (snd (fst f)) (snd (fst g)).
Definition of_points (pid : Z) (pool : list Z) (border : list face) (got : list (face * Z)) : list (face * Z) :=
  fold_left (fun got f => if belongToPool (snd f) pool && negb (existsb (fun g => face_eqb f (fst g)) got) then got ++ [(f, pid)] else got) border got.
(** 983-1029 *)
Fixpoint read_bcs (vo : Z) (border : list face) (surf : list (Z * list Z)) (l : list bc) (pid : Z) (a : acc) : res acc :=
  match l with
  | [] => Ok (Acc (a_verts a) (a_cells a) (a_elems a) (a_faces a) (a_info a) pid (a_zone a) (a_zones a))
  | b :: r =>
    let inf := a_info a ++ [Info pid (b_kind b) (Some (b_name b)) (b_elements b)] in
    let lst := map (fun v => v - 1) (b_list b) in
    if b_elements b then
      bind (of_elements surf lst []) (fun got =>
      read_bcs vo border surf r (pid + 1) (Acc (a_verts a) (a_cells a) (a_elems a ++ map (fun g => (pid, g)) got) (a_faces a) inf (a_pid a) (a_zone a) (a_zones a)))
    else read_bcs vo border surf r (pid + 1) (Acc (a_verts a) (a_cells a) (a_elems a) (of_points pid (map (fun v => v + vo) lst) border (a_faces a)) inf (a_pid a) (a_zone a) (a_zones a))
  end.
(** addCell of MimmoObject.cpp 2311-2350: nothing if the id is there *)
Definition add_cells (cells new : list cell) : list cell := fold_left (fun l c => if mem (c_id c) (map c_id l) then l else l ++ [c]) new cells.
Definition number {A} (from : Z) (l : list A) : list (Z * A) := combine (map (fun k => from + Z.of_nat k) (seq 0 (length l))) l.
(** one turn of the loop on zones, 786-1062: offsets are the numbers of vertices and cells there are *)
Definition read_zone (border : list cell -> list face) (a : acc) (z : zone) : res acc :=
  let vo := Z.of_nat (length (a_verts a)) in
  let co := Z.of_nat (length (a_cells a)) in
  bind (read_sections vo co (a_zone a) (z_sections z) (St [] [] 0)) (fun s =>
  bind (read_bcs vo (border (s_cells s)) (s_surf s) (z_bcs z) (a_pid a) a) (fun a' =>
  Ok (Acc (a_verts a' ++ number vo (z_points z)) (add_cells (a_cells a') (s_cells s)) (a_elems a') (a_faces a') (a_info a') (a_pid a') (a_zone a' + 1) (a_zones a' ++ [(a_zone a', z_name z)])))).
Fixpoint read_zones (border : list cell -> list face) (l : list zone) (a : acc) : res acc :=
  match l with [] => Ok a | z :: r => bind (read_zone border a z) (read_zones border r) end.

(** deleteCoincidentVertices of bitpit, 1065: the first of the vertices at a place stands for them *)
Definition rep (same : point -> point -> bool) (vs : list vertex) (i : Z) : Z :=
  match look i vs with
  | None => i
  | Some p => match find (fun w => same (snd w) p) vs with Some w => fst w | None => i end
  end.
(** the meshes in the end: volume, boundary as cells with PID and vertices (those of the volume), information *)
Record meshes := Meshes { g_verts : list vertex; g_cells : list cell; g_surf : list (Z * list Z); g_info : list info; g_zones : list (Z * list N) }.
(** 1064-1135: the vertices of faces are those of the cell now; those of elements are looked for as they were read (std::out_of_range when deleted) *)
Definition finish (same : point -> point -> bool) (a : acc) : res meshes :=
  let vs := a_verts a in
  let kept := filter (fun v => Z.eqb (rep same vs (fst v)) (fst v)) vs in
  let cells := map (fun c => Cell (c_id c) (c_type c) (map (rep same vs) (c_conn c)) (c_pid c)) (a_cells a) in
  let faces := map (fun f => (snd f, map (rep same vs) (snd (fst f)))) (a_faces a) in
  if forallb (fun e => forallb (fun v => mem v (map fst kept)) (snd (snd e))) (a_elems a)
  then Ok (Meshes kept cells (faces ++ map (fun e => (fst e, snd (snd e))) (a_elems a)) (a_info a) (a_zones a))
  else Throws.
(** IOCGNS::read, 532-1155, on a fresh block *)
Definition read (border : list cell -> list face) (same : point -> point -> bool) (file : list zone) : res meshes :=
  bind (read_zones border file (Acc [] [] [] [] [] 1 0 [])) (finish same).

(** ** Writing *)
(** globToLoc, 1229-1233: places from one *)
Fixpoint place_from (k : Z) (ids : list Z) (v : Z) : option Z := match ids with [] => None | i :: r => if Z.eqb v i then Some k else place_from (k + 1) r v end.
Definition place (ids : list Z) (v : Z) : option Z := place_from 1 ids v.
(** mapToLocVert.at, 1604-1607, 1676-1679 *)
Fixpoint places (ids : list Z) (conn : list Z) : res (list Z) :=
  match conn with [] => Ok [] | v :: r => match place ids v with None => Throws | Some k => bind (places ids r) (fun l => Ok (k :: l)) end end.
(** 1577-1594, 1653-1664 *)
Definition tag_of (t : etype) : Z := match t with Tetra => 10 | Pyramid => 12 | Wedge => 14 | Hexa => 17 | Triangle => 5 | Quad => 7 | Another => 0 end.
Definition is_volume (t : etype) : bool := match t with Tetra | Pyramid | Wedge | Hexa => true | _ => false end.
Definition is_surface (t : etype) : bool := match t with Triangle | Quad => true | _ => false end.
(** the loops of getZoneConn, 1574-1619, and getBCElementsConn, 1650-1684: unsupported is never false again *)
Fixpoint conns (good : etype -> bool) (ids : list Z) (cells : list cell) (unsupported : bool) : res (list (cell * list Z)) :=
  match cells with
  | [] => Ok []
  | c :: r =>
    let u := unsupported || negb (good (c_type c)) in
    if u then conns good ids r u
    else bind (places ids (c_conn c)) (fun l => bind (conns good ids r u) (fun rest => Ok ((c, turn (c_type c) l) :: rest)))
  end.
(** std::map by type: the types in order, each with what was put in *)
Definition of_type (t : etype) (l : list (cell * list Z)) : list (cell * list Z) := filter (fun e => etype_eqb (c_type (fst e)) t) l.
Definition section (l : list (cell * list Z)) (t : etype) : list (Z * list Z) := match of_type t l with [] => [] | e => [(tag_of t, concat (map snd e))] end.
Definition volume_types : list etype := [Tetra; Pyramid; Wedge; Hexa].
Definition surface_types : list etype := [Triangle; Quad].
(** surfCellGlobToLoc, 1686-1693, with the zero of operator[] where a cell is not there *)
Definition surf_place (l : list (cell * list Z)) (i : Z) : Z := match place_from 0 (map (fun e => c_id (fst e)) (flat_map (fun t => of_type t l) surface_types)) i with Some k => k | None => 0 end.
Definition of_pid (p : Z) (bnd : list cell) : list cell := filter (fun c => Z.eqb (c_pid c) p) bnd.
(** 1235-1261, 1384-1414: the lists of a condition; globToLoc[id] is zero where a vertex is not there *)
Definition bc_points (ids : list Z) (cells : list cell) : list Z := map (fun v => match place ids v with Some k => k | None => 0 end) (nodup Z.eq_dec (flat_map c_conn cells)).
Definition undefined (p : Z) : list N := Nastran.chars "Undefined_BC_" ++ show_int p.
Definition bc_of (ids : list Z) (start : Z) (surf : list (cell * list Z)) (bnd : list cell) (i : info) : bc :=
  Bc (match i_name i with Some n => n | None => undefined (i_pid i) end) (i_kind i) (i_elements i)
     (if i_elements i then map (fun c => surf_place surf (c_id c) + start) (of_pid (i_pid i) bnd) else bc_points ids (of_pid (i_pid i) bnd)).
(** IOCGNS::write, 1163-1430, for a volume and a boundary: one zone *)
Definition write (name : list N) (verts : list vertex) (cells bnd : list cell) (infos : list info) : res (list zone) :=
  let ids := map fst verts in
  bind (conns is_volume ids cells false) (fun vol =>
  bind (conns is_surface ids (flat_map (fun i => if i_elements i then of_pid (i_pid i) bnd else []) infos) false) (fun surf =>
  let start := 1 + Z.of_nat (length vol) in
  Ok [Zone name (map snd verts) (length cells) (flat_map (section vol) volume_types ++ flat_map (section surf) surface_types) (map (bc_of ids start surf bnd) infos)])).
