(** Model of the selection of the part of a geometry near to other ones
    (src/geohandlers/SelectionByMapping.cpp).

    A geometry is its type, its search tree (SkdSel.v) and its cells.  [read] stands for the reading of a
    file, given its directory, its name and its type: [None] when the file holds a cloud of points.  Files
    and mapped geometries are lists for the unordered maps and sets: their order is used in no theorem.
    A text is the list of the codes of its characters.  An XML option is [None] when it is missing,
    [Some None] when its text is not a number.  Serial; the plots are left out. *)
From Coq Require Import List Arith NArith ZArith Bool Reals.
From Verif Require Import Vec Select SkdSel.
Import ListNotations.
Open Scope list_scope.

Definition text := list N.
(** a geometry: getType, the search tree, the ids of the cells *)
Record geom := Gm { gm_type : Z; gm_tree : tree; gm_cells : list nat }.
(** m_topo, m_geometry, m_tolerance, m_geolist, m_mimmolist (by handle), m_dual *)
Record mapsel := Ms { ms_topo : Z; ms_geo : option geom; ms_tol : R; ms_files : list (text * Z); ms_maps : list (nat * geom); ms_dual : bool }.
(** 1.E-08 *)
Definition tol0 : R := (/ 10 ^ 8)%R.

(** m_allowedType, m_allowedTopology, 44-64: STL 0, SURFVTU 1, VOLVTU 2, NAS 3, CURVEVTU 5, MIMMO 99 *)
Definition allowed_type (topo t : Z) : bool :=
  if Z.eqb topo 1 then existsb (Z.eqb t) [0; 1; 3; 99; 5]%Z
  else if Z.eqb topo 2 then existsb (Z.eqb t) [2; 99]%Z
  else if Z.eqb topo 4 then existsb (Z.eqb t) [5; 99]%Z else false.
Definition allowed_topology (topo t : Z) : bool :=
  if Z.eqb topo 1 then existsb (Z.eqb t) [1; 4]%Z
  else if Z.eqb topo 2 then Z.eqb t 2 else if Z.eqb topo 4 then Z.eqb t 4 else false.
(** 40-42, 89-91 *)
Definition good_topo (topo : Z) : Z :=
  let topo := Z.max 1 topo in if Z.ltb 4 topo || Z.eqb topo 3 then 1%Z else topo.
(** constructor, 35-66 *)
Definition new_mapsel (topo : Z) : mapsel := Ms (good_topo topo) None tol0 [] [] false.

(** setTolerance, 239-244 *)
Definition ms_setTolerance (t : R) (s : mapsel) : mapsel :=
  Ms (ms_topo s) (ms_geo s) (if Rlt_dec t 0 then tol0 else t) (ms_files s) (ms_maps s) (ms_dual s).
(** setGeometry, 251-271 *)
Definition ms_setGeometry (g : option geom) (s : mapsel) : mapsel :=
  match g with
  | None => s
  | Some o => if Z.eqb (gm_type o) (ms_topo s) then Ms (ms_topo s) (Some o) (ms_tol s) (ms_files s) (ms_maps s) (ms_dual s) else s
  end.
Definition same_text (a b : text) : bool := if list_eq_dec N.eq_dec a b then true else false.
(** addFile, 297-302: insert of unordered_map leaves a file already there as it is *)
Definition ms_addFile (f : text * Z) (s : mapsel) : mapsel :=
  if allowed_type (ms_topo s) (snd f) && negb (existsb (fun e => same_text (fst e) (fst f)) (ms_files s))
  then Ms (ms_topo s) (ms_geo s) (ms_tol s) (ms_files s ++ [f]) (ms_maps s) (ms_dual s) else s.
(** setFiles, 286-290 *)
Definition ms_setFiles (l : list (text * Z)) (s : mapsel) : mapsel := fold_left (fun s f => ms_addFile f s) l s.
(** addMappingGeometry, 309-313: a null pointer is dereferenced *)
Definition ms_addMap (o : option (nat * geom)) (s : mapsel) : option mapsel :=
  match o with
  | None => None
  | Some (k, g) => Some (if allowed_topology (ms_topo s) (gm_type g) && negb (existsb (fun e => Nat.eqb (fst e) k) (ms_maps s))
                         then Ms (ms_topo s) (ms_geo s) (ms_tol s) (ms_files s) (ms_maps s ++ [(k, g)]) (ms_dual s) else s)
  end.
(** removeFile, 319-321; removeFiles, 326-328; removeMappingGeometries *)
Definition ms_removeFile (f : text) (s : mapsel) : mapsel :=
  Ms (ms_topo s) (ms_geo s) (ms_tol s) (filter (fun e => negb (same_text (fst e) f)) (ms_files s)) (ms_maps s) (ms_dual s).
Definition ms_removeFiles (s : mapsel) : mapsel := Ms (ms_topo s) (ms_geo s) (ms_tol s) [] (ms_maps s) (ms_dual s).
Definition ms_removeMaps (s : mapsel) : mapsel := Ms (ms_topo s) (ms_geo s) (ms_tol s) (ms_files s) [] (ms_dual s).
(** setDual, GenericSelection.cpp 142-145 *)
Definition ms_setDual (d : bool) (s : mapsel) : mapsel := Ms (ms_topo s) (ms_geo s) (ms_tol s) (ms_files s) (ms_maps s) d.
(** constructor from a list of files, a target and a tolerance, 127-165; m_topo is 1 at first *)
Definition new_mapsel_for (files : list (text * Z)) (target : option geom) (tol : R) : mapsel :=
  match target with
  | None => Ms 1 None tol0 [] [] false
  | Some o =>
      let topo := Z.min 1 (gm_type o) in
      let topo := if Z.ltb 4 topo || Z.eqb topo 3 then 1%Z else topo in
      let s := ms_setFiles files (ms_setGeometry target (Ms topo None tol0 [] [] false)) in
      Ms (ms_topo s) (ms_geo s) tol (ms_files s) (ms_maps s) (ms_dual s)
  end.

(** extractInfo, 461-483: find_last_of and substr *)
Fixpoint last_of (p : N -> bool) (l : text) (k : nat) (r : option nat) : option nat :=
  match l with [] => r | c :: l => last_of p l (S k) (if p c then Some k else r) end.
Definition before (found : option nat) (l : text) : text := match found with None => l | Some k => firstn k l end.
Definition after (found : option nat) (l : text) : text := match found with None => l | Some k => skipn (S k) l end.
Definition slash (c : N) : bool := N.eqb c 47 || N.eqb c 92.
Definition dot (c : N) : bool := N.eqb c 46.
Definition extractInfo (file : text) : text * text * text :=
  let found := last_of slash file 0 None in
  let root := before found file in
  let temp := after found file in
  let found := last_of dot temp 0 None in
  (root, before found temp, after found temp).

(** getProximity of a file, 401-433; of a geometry, 439-453 *)
Definition proximity_file (read : text -> text -> Z -> option tree) (target : tree) (tol : R) (f : text * Z) : list nat :=
  let info := extractInfo (fst f) in
  match read (fst (fst info)) (snd (fst info)) (snd f) with
  | None => []
  | Some t => selectByPatch t target tol
  end.
(** extractSelection, 353-394; [None] without a target *)
Definition ms_extract (read : text -> text -> Z -> option tree) (s : mapsel) : option (list nat) :=
  match ms_geo s with
  | None => None
  | Some g =>
      let near := flat_map (proximity_file read (gm_tree g) (ms_tol s)) (ms_files s) ++
                  flat_map (fun e => selectByPatch (gm_tree (snd e)) (gm_tree g) (ms_tol s)) (ms_maps s) in
      let list := sort (nodup Nat.eq_dec near) in
      Some (if ms_dual s then
              if Nat.eqb (length (gm_cells g)) (length list) then [] else merge_out (sort (gm_cells g)) list
            else list)
  end.

(** * XML *)

(** Topology, Dual, Tolerance and the subsections of Files with a path and a known type *)
Record mapxml := Mx { mx_topo : option (option Z); mx_dual : option bool; mx_tol : option R; mx_files : list (text * Z) }.
(** flushSectionXML, 563-595; [show] is the number read back from the text of a double *)
Definition ms_flush (show : R -> R) (s : mapsel) : mapxml :=
  Mx (Some (Some (ms_topo s))) (Some (ms_dual s)) (if Req_EM_T (ms_tol s) tol0 then None else Some (show (ms_tol s))) (ms_files s).
(** absorbSectionXML, 490-556; a text that is not a number leaves -1 or 0, never a topology *)
Definition ms_absorb (x : mapxml) (s : mapsel) : option mapsel :=
  if match mx_topo x with None => true | Some None => false | Some (Some t) => Z.eqb (ms_topo s) t end then
    let s := match mx_dual x with None => s | Some d => ms_setDual d s end in
    let s := match mx_tol x with None => s | Some t => ms_setTolerance t s end in
    Some (ms_setFiles (mx_files x) s)
  else None.
(** constructor from a section, 72-120: std::stoi raises an exception on a text that is not a number *)
Definition mapsel_xml (x : mapxml) : option mapsel :=
  match mx_topo x with
  | Some None => None
  | Some (Some t) => ms_absorb x (new_mapsel t)
  | None => ms_absorb x (new_mapsel (-1))
  end.
