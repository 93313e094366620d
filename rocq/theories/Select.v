(** Model of the blocks that extract a part of a geometry or join geometries, on the content of
    geometries of Obj.v: GenericSelection, SelectionByPID, SelectionByElementList, ClipGeometry,
    StitchGeometry (src/geohandlers).

    The deletion of coincident vertices that ends each of them (cleanGeometry,
    src/core/MimmoObject.cpp 2507, a call of bitpit) is an arbitrary function [clean]; the theorems
    say what they ask of it.  The centroid of a cell, evalCellCentroid of bitpit, is an arbitrary
    function.  update (Sync.v) does not change the content.  [None] is an exception or undefined
    behaviour.  Serial, without XML and without the plots. *)
From Coq Require Import String List Arith Bool ZArith Reals.
From Verif Require Import Vec SharedPtr Obj.
Import ListNotations.
Open Scope list_scope.
Open Scope nat_scope.

(** * The part of a geometry (GenericSelection.cpp 219-278, ClipGeometry.cpp 198-233) *)

(** std::unordered_map::operator[] on a copy of the names *)
Definition name_of (names : list (Z * string)) (p : Z) : string := match nfind p names with Some s => s | None => EmptyString end.
(** the loop on the PIDs of the new geometry *)
Definition give_names (names : list (Z * string)) (r : obj) : obj :=
  fold_left (fun r p => snd (setPIDName p (name_of names p) r)) (o_pids r) r.
(** the loops on vertices and cells: getVertexCoords and getCell of an unknown id are undefined *)
Fixpoint copy_verts (ids : list nat) (g r : obj) : option obj :=
  match ids with
  | [] => Some r
  | v :: l => match find v (o_verts g) with
              | None => None
              | Some x => copy_verts l g (snd (addVertex (@length nat) x (Some v) r))
              end
  end.
Fixpoint copy_cells (ids : list nat) (g r : obj) : option obj :=
  match ids with
  | [] => Some r
  | i :: l => match find i (o_cells g) with
              | None => None
              | Some c => copy_cells l g (snd (addCell (@length nat) c (Some i) r))
              end
  end.
Definition copy_part (ids : list nat) (g r : obj) : option obj :=
  match copy_verts (getVertexFromCellList ids g) g r with
  | None => None
  | Some r => copy_cells ids g r
  end.
(** GenericSelection::execute after extractSelection, 229-277 *)
Definition selection_patch (clean : obj -> obj) (ids : list nat) (g : obj) : option obj :=
  let r := setTolerance (o_tol g) (new_obj (o_type g)) in
  match (if Nat.eqb (o_type g) 3 then copy_verts ids g r else copy_part ids g r) with
  | None => None
  | Some r => Some (clean (give_names (o_names g) r))
  end.

(** * SelectionByPID.cpp *)

(** m_geometry != nullptr, m_activePID, m_setPID, m_dual *)
Record pidsel := Ps { ps_linked : bool; ps_active : list (Z * bool); ps_set : list Z; ps_dual : bool }.
Definition new_pidsel : pidsel := Ps false [] [] false.
Definition zkey (p : Z) (l : list (Z * bool)) : bool := existsb (fun e => Z.eqb p (fst e)) l.
(** setGeometry, 147-160 *)
Definition ps_setGeometry (g : obj) (s : pidsel) : pidsel :=
  if Nat.eqb (o_type g) 3 then s
  else Ps true (fold_left (fun l p => if zkey p l then l else l ++ [(p, false)]) (o_pids g) (ps_active s)) (ps_set s) (ps_dual s).
(** setPID, 167-184 *)
Definition ps_setPID (i : Z) (s : pidsel) : pidsel :=
  let l := if zin (-1) (ps_set s) || (negb (Nat.eqb (length (ps_set s)) 0) && Z.eqb i (-1)) then [] else ps_set s in
  Ps (ps_linked s) (ps_active s) (zadd i l) (ps_dual s).
Definition ps_setPID_list (l : list Z) (s : pidsel) : pidsel := fold_left (fun s i => ps_setPID i s) l s.
(** removePID, 192-213 *)
Definition ps_removePID (i : Z) (s : pidsel) : pidsel :=
  Ps (ps_linked s) (ps_active s) (if Z.ltb 0 i then filter (fun p => negb (Z.eqb p i)) (ps_set s) else []) (ps_dual s).
(** setDual, GenericSelection.cpp 142-145 *)
Definition ps_setDual (b : bool) (s : pidsel) : pidsel := Ps (ps_linked s) (ps_active s) (ps_set s) b.
(** syncPIDList, 276-301 *)
Definition ps_sync (s : pidsel) : pidsel :=
  if zin (-1) (ps_set s) then Ps (ps_linked s) (map (fun e => (fst e, true)) (ps_active s)) (map fst (ps_active s)) (ps_dual s)
  else Ps (ps_linked s) (map (fun e => (fst e, snd e || zin (fst e) (ps_set s))) (ps_active s))
          (filter (fun p => zkey p (ps_active s)) (ps_set s)) (ps_dual s).
(** getActivePID, 131-138 *)
Definition getActivePID (active : bool) (s : pidsel) : list Z := map fst (filter (fun e => Bool.eqb (snd e) active) (ps_active s)).
(** std::set<long>, std::sort: increasing order *)
Fixpoint insert (x : nat) (l : list nat) : list nat := match l with [] => [x] | y :: r => if x <=? y then x :: l else y :: insert x r end.
Fixpoint sort (l : list nat) : list nat := match l with [] => [] | x :: r => insert x (sort r) end.
(** the loop 253-263 on two sorted lists *)
Fixpoint merge_out (tot cand : list nat) : list nat :=
  match tot with
  | [] => []
  | v :: r => match cand with
              | [] => v :: merge_out r []
              | c :: l => if Nat.eqb v c then merge_out r l else v :: merge_out r cand
              end
  end.
(** extractSelection, 230-269 *)
Definition ps_extract (s : pidsel) (g : obj) : list nat :=
  let ex := sort (nodup Nat.eq_dec (flat_map (fun p => extractPIDCells p g) (getActivePID true s))) in
  if ps_dual s then
    if Nat.eqb (length (o_cells g)) (length ex) then [] else merge_out (sort (map fst (o_cells g))) ex
  else ex.
(** execute: [None] without geometry *)
Definition ps_execute (clean : obj -> obj) (s : pidsel) (g : obj) : option (pidsel * obj) :=
  if ps_linked s then
    let s := ps_sync s in
    match selection_patch clean (ps_extract s g) g with None => None | Some r => Some (s, r) end
  else None.

(** * SelectionByElementList.cpp: extractSelection, 159-214.  [vs] and [cs] are the ids of all the
    lists of vertices and of cells added. *)
Definition nin (v : nat) (l : list nat) : bool := existsb (Nat.eqb v) l.
Definition el_extract (vs cs : list nat) (g : obj) : list nat :=
  let vl := filter (fun v => nin v vs) (map fst (o_verts g)) in
  if Nat.eqb (o_type g) 3 then vl
  else filter (fun i => nin i (getCellFromVertexList vl true g ++ cs)) (map fst (o_cells g)).
(** execute; [dual] is the flag set by setDual, which nothing reads *)
Definition el_execute (clean : obj -> obj) (dual : bool) (vs cs : list nat) (g : obj) : option obj :=
  selection_patch clean (el_extract vs cs g) g.

(** * ClipGeometry.cpp *)

(** m_plane ([None]: not numbers), m_origin, m_normal, m_insideout, m_implicit *)
Record clip := Cp { cp_plane : option (vec * R); cp_origin : vec; cp_normal : vec; cp_out : bool; cp_implicit : bool }.
Definition new_clip : clip := Cp (Some (vzero, 0%R)) vzero vzero false false.
(** setClipPlane of four coefficients, 127-131 *)
Definition setClipPlane (n : vec) (d : R) (c : clip) : clip := Cp (Some (n, d)) (cp_origin c) (cp_normal c) (cp_out c) true.
(** setClipPlane of a point and a normal, 139-152; a zero normal is divided by its norm *)
Definition unit_plane (o n : vec) : option (vec * R) :=
  if Req_EM_T (norm n) 0 then None else let m := vscale (/ norm n) n in Some (m, (-1 * dot o m)%R).
Definition setClipPlane_point (o n : vec) (c : clip) : clip := Cp (unit_plane o n) (cp_origin c) (cp_normal c) (cp_out c) true.
(** setOrigin, 159-162; setNormal, 169-172; setInsideOut, 180-183 *)
Definition cp_setOrigin (o : vec) (c : clip) : clip := Cp (cp_plane c) o (cp_normal c) (cp_out c) (cp_implicit c).
Definition cp_setNormal (n : vec) (c : clip) : clip := Cp (cp_plane c) (cp_origin c) n (cp_out c) (cp_implicit c).
Definition setInsideOut (b : bool) (c : clip) : clip := Cp (cp_plane c) (cp_origin c) (cp_normal c) b (cp_implicit c).
(** clipPlane, 242-291; comparisons with not a number are false *)
Definition kept_side (c : clip) (n : vec) (d : R) (x : vec) : bool :=
  let sig := if cp_out c then (-1)%R else 1%R in
  if Rlt_dec 0 (sig * (dot (vscale (/ norm n) n) x + d)) then true else false.
Definition clipPlane (centroid : obj -> nat -> vec) (c : clip) (g : obj) : list nat :=
  match cp_plane c with
  | None => []
  | Some (n, d) =>
      if Rlt_dec (norm n) (/ 10 ^ 18) then []
      else if Nat.eqb (o_type g) 3 then map fst (filter (fun e => kept_side c n d (snd e)) (o_verts g))
      else filter (fun i => kept_side c n d (centroid g i)) (map fst (o_cells g))
  end.
(** execute, 188-234 *)
Definition clip_execute (clean : obj -> obj) (centroid : obj -> nat -> vec) (c : clip) (g : obj) : option (clip * obj) :=
  let c := if cp_implicit c then c else setClipPlane_point (cp_origin c) (cp_normal c) c in
  match copy_part (clipPlane centroid c g) g (new_obj (o_type g)) with
  | None => None
  | Some r => Some (c, clean (give_names (o_names g) r))
  end.

(** * StitchGeometry.cpp *)

(** the topology kept by the constructor, 35-41 *)
Definition stitch_topo (topo : Z) : Z := let t := Z.min 1 topo in if Z.ltb 4 t then 1%Z else t.
(** addGeometry, 151-158, as far as the topology goes *)
Definition stitch_accepts (topo : Z) (g : obj) : bool := Z.eqb (Z.of_nat (o_type g)) topo.

(** the largest of a list: *temp.rbegin() after the sort; undefined for an empty list *)
Definition zmax (l : list Z) : option Z := match l with [] => None | p :: r => Some (fold_left Z.max r p) end.
(** the loop 226-236 *)
Fixpoint pid_starts (repid : bool) (pidmax : Z) (gs : list obj) : option (list Z) :=
  match gs with
  | [] => Some []
  | g :: r =>
      if repid then
        match zmax (o_pids g) with
        | None => None
        | Some m => match pid_starts repid (pidmax + (m + 1)) r with None => None | Some l => Some ((pidmax + 1)%Z :: l) end
        end
      else match pid_starts repid pidmax r with None => None | Some l => Some (0%Z :: l) end
  end.
(** one geometry, 247-305: the counters cV and cC, and the geometry being filled *)
Definition stitch_verts (g : obj) (cV : nat) (r : obj) : obj :=
  fold_left (fun r e => snd (addVertex (@length nat) (snd e) (Some (fst e)) r)) (combine (seq cV (length (o_verts g))) (map snd (o_verts g))) r.
Definition stitch_map (g : obj) (cV : nat) (v : nat) : nat := if has v (o_verts g) then cV + position v (o_verts g) else 0.
Definition stitch_cells (g : obj) (start : Z) (cV cC : nat) (r : obj) : obj :=
  fold_left (fun r e => snd (addConnectedCell (@length nat) (conv_conn (stitch_map g cV) (c_type (snd e)) (c_conn (snd e))) (c_type (snd e))
                                              (c_pid (snd e) + start) (Some (fst e)) r))
            (combine (seq cC (length (o_cells g))) (map snd (o_cells g))) r.
(** newOldPid[val], 0 when missing *)
Definition old_pid (g : obj) (start val : Z) : Z := if zin (val - start) (o_pids g) then (val - start)%Z else 0%Z.
Definition stitch_names (g : obj) (start : Z) (r : obj) : obj :=
  fold_left (fun r p => snd (setPIDName p (name_of (o_names g) (old_pid g start p)) r)) (o_pids r) r.
Definition stitch_one (g : obj) (start : Z) (cV cC : nat) (r : obj) : obj :=
  stitch_names g start (resyncPID (stitch_cells g start cV cC (stitch_verts g cV r))).
Fixpoint stitch_all (gs : list (obj * Z)) (cV cC : nat) (r : obj) : obj :=
  match gs with
  | [] => r
  | (g, s) :: l => stitch_all l (cV + length (o_verts g)) (cC + length (o_cells g)) (stitch_one g s cV cC r)
  end.
(** execute, 194-313; [gs] is the content of the geometries in the order of iteration of the
    unordered map, which is arbitrary *)
Definition stitch (clean : obj -> obj) (repid : bool) (topo : nat) (gs : list obj) : option obj :=
  match pid_starts repid (-1) gs with
  | None => None
  | Some starts => Some (clean (stitch_all (combine gs starts) 0 0 (new_obj topo)))
  end.
