(** The structures built on a geometry (search trees, adjacencies, interfaces, numbering of cells,
    bounding box, point connectivity) and their synchronization statuses.  The version without MPI
    unless said otherwise.

    The geometry is the lists of vertices (id and coordinates, of any type [C]) and of cells (id
    and connectivity).  The content of a structure is the data it was last built from: how a tree
    is organized is left to bitpit.  None is an error: an exception or an access through a null or
    dangling pointer. *)
From Coq Require Import List ZArith Bool.
Import ListNotations.
Open Scope Z_scope.

(** src/core/MimmoObject.hpp:123-128. *)
Inductive status := NotSupported | NoneS | Unsync | Synced.
Definition slevel (s : status) : Z :=
  match s with NotSupported => -1 | NoneS => 0 | Unsync => 1 | Synced => 2 end.
(** std::min(a, b): b if b < a, else a. *)
Definition smin (a b : status) : status := if slevel b <? slevel a then b else a.
Definition lower (s : status) : status := smin s Unsync.
(** Statuses lowered by the cleaning methods: only SYNC becomes UNSYNC. *)
Definition cleaned (s : status) : status := match s with Synced => Unsync | _ => s end.

(** m_skdTree: no tree, a tree on the current patch, a tree on a patch which was deleted. *)
Inductive skdptr := SkNull | SkOk | SkDangling.

Section Sync.
Context {C : Type}.

Record geo := { g_verts : list (Z * C); g_cells : list (Z * list Z) }.

Record obj := {
  o_type : Z;
  o_skdp : skdptr;
  o_skd : list (Z * list C);  o_skdS : status;
  o_kd : list (Z * C);        o_kdS : status;
  o_adj : list (Z * list Z);  o_adjS : status;
  o_int : list (Z * list Z);  o_intS : status;
  o_info : list Z;            o_infoS : status;
  o_bb : list C;              o_bbS : status;
  o_pc : list (list Z);       o_pcS : status
}.

Definition set_skd (o : obj) d s := {| o_type := o_type o; o_skdp := o_skdp o; o_skd := d; o_skdS := s; o_kd := o_kd o; o_kdS := o_kdS o;
  o_adj := o_adj o; o_adjS := o_adjS o; o_int := o_int o; o_intS := o_intS o; o_info := o_info o; o_infoS := o_infoS o;
  o_bb := o_bb o; o_bbS := o_bbS o; o_pc := o_pc o; o_pcS := o_pcS o |}.
Definition set_kd (o : obj) d s := {| o_type := o_type o; o_skdp := o_skdp o; o_skd := o_skd o; o_skdS := o_skdS o; o_kd := d; o_kdS := s;
  o_adj := o_adj o; o_adjS := o_adjS o; o_int := o_int o; o_intS := o_intS o; o_info := o_info o; o_infoS := o_infoS o;
  o_bb := o_bb o; o_bbS := o_bbS o; o_pc := o_pc o; o_pcS := o_pcS o |}.
Definition set_adj (o : obj) d s := {| o_type := o_type o; o_skdp := o_skdp o; o_skd := o_skd o; o_skdS := o_skdS o; o_kd := o_kd o; o_kdS := o_kdS o;
  o_adj := d; o_adjS := s; o_int := o_int o; o_intS := o_intS o; o_info := o_info o; o_infoS := o_infoS o;
  o_bb := o_bb o; o_bbS := o_bbS o; o_pc := o_pc o; o_pcS := o_pcS o |}.
Definition set_int (o : obj) d s := {| o_type := o_type o; o_skdp := o_skdp o; o_skd := o_skd o; o_skdS := o_skdS o; o_kd := o_kd o; o_kdS := o_kdS o;
  o_adj := o_adj o; o_adjS := o_adjS o; o_int := d; o_intS := s; o_info := o_info o; o_infoS := o_infoS o;
  o_bb := o_bb o; o_bbS := o_bbS o; o_pc := o_pc o; o_pcS := o_pcS o |}.
Definition set_info (o : obj) d s := {| o_type := o_type o; o_skdp := o_skdp o; o_skd := o_skd o; o_skdS := o_skdS o; o_kd := o_kd o; o_kdS := o_kdS o;
  o_adj := o_adj o; o_adjS := o_adjS o; o_int := o_int o; o_intS := o_intS o; o_info := d; o_infoS := s;
  o_bb := o_bb o; o_bbS := o_bbS o; o_pc := o_pc o; o_pcS := o_pcS o |}.
Definition set_bb (o : obj) d s := {| o_type := o_type o; o_skdp := o_skdp o; o_skd := o_skd o; o_skdS := o_skdS o; o_kd := o_kd o; o_kdS := o_kdS o;
  o_adj := o_adj o; o_adjS := o_adjS o; o_int := o_int o; o_intS := o_intS o; o_info := o_info o; o_infoS := o_infoS o;
  o_bb := d; o_bbS := s; o_pc := o_pc o; o_pcS := o_pcS o |}.
Definition set_pc (o : obj) d s := {| o_type := o_type o; o_skdp := o_skdp o; o_skd := o_skd o; o_skdS := o_skdS o; o_kd := o_kd o; o_kdS := o_kdS o;
  o_adj := o_adj o; o_adjS := o_adjS o; o_int := o_int o; o_intS := o_intS o; o_info := o_info o; o_infoS := o_infoS o;
  o_bb := o_bb o; o_bbS := o_bbS o; o_pc := d; o_pcS := s |}.

(** Change the statuses only; the contents stay. *)
Definition relevel (skd kd adj int info bb pc : status -> status) (o : obj) : obj :=
  {| o_type := o_type o; o_skdp := o_skdp o; o_skd := o_skd o; o_skdS := skd (o_skdS o); o_kd := o_kd o; o_kdS := kd (o_kdS o);
     o_adj := o_adj o; o_adjS := adj (o_adjS o); o_int := o_int o; o_intS := int (o_intS o); o_info := o_info o; o_infoS := info (o_infoS o);
     o_bb := o_bb o; o_bbS := bb (o_bbS o); o_pc := o_pc o; o_pcS := pc (o_pcS o) |}.
Definition keep (s : status) : status := s.

(** * What the structures are built from *)

Fixpoint coord (vs : list (Z * C)) (id : Z) : option C :=
  match vs with
  | [] => None
  | (i, c) :: vs' => if i =? id then Some c else coord vs' id
  end.

Fixpoint coords (vs : list (Z * C)) (ids : list Z) : option (list C) :=
  match ids with
  | [] => Some []
  | id :: ids' => match coord vs id, coords vs ids' with Some c, Some l => Some (c :: l) | _, _ => None end
  end.

(** The boxes of a cell tree come from the vertices of the cells: a vertex which does not exist
    is an exception. *)
Fixpoint cell_boxes (vs : list (Z * C)) (cs : list (Z * list Z)) : option (list (Z * list C)) :=
  match cs with
  | [] => Some []
  | (id, conn) :: cs' => match coords vs conn, cell_boxes vs cs' with Some l, Some r => Some ((id, l) :: r) | _, _ => None end
  end.

(** * Building and cleaning, one object on one geometry *)

(** MimmoObject::MimmoObject(int type, bool), src/core/MimmoObject.cpp:235-316, types 1 to 4. *)
Definition construct (type : Z) : geo * obj :=
  ({| g_verts := []; g_cells := [] |},
   {| o_type := type; o_skdp := if type =? 3 then SkNull else SkOk;
      o_skd := []; o_skdS := if type =? 3 then NotSupported else NoneS;
      o_kd := []; o_kdS := NoneS; o_adj := []; o_adjS := NoneS; o_int := []; o_intS := NoneS;
      o_info := []; o_infoS := Synced; o_bb := []; o_bbS := NoneS; o_pc := []; o_pcS := NoneS |}).

Definition has_vertex (g : geo) (id : Z) : bool := existsb (fun v => fst v =? id) (g_verts g).
Definition has_cell (g : geo) (id : Z) : bool := existsb (fun c => fst c =? id) (g_cells g).

(** MimmoObject::addVertex, src/core/MimmoObject.cpp:2120-2179.  [id] is the id given, or the one
    chosen by the patch, which is not in use. *)
Definition addVertex (id : Z) (c : C) (s : geo * obj) : geo * obj :=
  let '(g, o) := s in
  if has_vertex g id then (g, o)
  else ({| g_verts := g_verts g ++ [(id, c)]; g_cells := g_cells g |},
        relevel keep lower keep keep lower lower lower o).

(** MimmoObject::modifyVertex, src/core/MimmoObject.cpp:2188-2202. *)
Definition modifyVertex (id : Z) (c : C) (s : geo * obj) : geo * obj :=
  let '(g, o) := s in
  if has_vertex g id
  then ({| g_verts := map (fun v => if fst v =? id then (id, c) else v) (g_verts g); g_cells := g_cells g |},
        relevel lower lower keep keep lower lower keep o)
  else (g, o).

(** MimmoObject::addConnectedCell and addCell, src/core/MimmoObject.cpp:2249-2293 and 2311-2350,
    once the connectivity is accepted (see Elem.v).  That the vertices exist is not checked. *)
Definition addCell (id : Z) (conn : list Z) (s : geo * obj) : geo * obj :=
  let '(g, o) := s in
  if has_cell g id then (g, o)
  else ({| g_verts := g_verts g; g_cells := g_cells g ++ [(id, conn)] |},
        relevel lower keep lower lower lower keep lower o).

(** MimmoObject::isSkdTreeSupported, src/core/MimmoObject.cpp:1001-1003. *)
Definition isSkdTreeSupported (o : obj) : bool := match o_skdS o with NotSupported => false | _ => true end.

(** MimmoObject::buildSkdTree, src/core/MimmoObject.cpp:3265-3274. *)
Definition buildSkdTree (s : geo * obj) : option (geo * obj) :=
  let '(g, o) := s in
  if isSkdTreeSupported o then
    match o_skdS o with
    | Synced => Some (g, o)
    | _ => match o_skdp o with
           | SkOk => match cell_boxes (g_verts g) (g_cells g) with
                     | Some t => Some (g, set_skd o t Synced)
                     | None => None
                     end
           | _ => None
           end
    end
  else Some (g, o).

(** MimmoObject::cleanKdTree, src/core/MimmoObject.cpp:3301-3307. *)
Definition cleanKdTree (s : geo * obj) : geo * obj :=
  let '(g, o) := s in (g, set_kd o [] (cleaned (o_kdS o))).

(** MimmoObject::buildKdTree, src/core/MimmoObject.cpp:3280-3296. *)
Definition buildKdTree (s : geo * obj) : geo * obj :=
  let '(g, o) := s in
  match g_verts g with
  | [] => (g, o)
  | _ => match o_kdS o with
         | Synced => (g, o)
         | _ => (g, set_kd o (g_verts g) Synced)
         end
  end.

(** MimmoObject::cleanSkdTree, src/core/MimmoObject.cpp:3312-3319. *)
Definition cleanSkdTree (s : geo * obj) : option (geo * obj) :=
  let '(g, o) := s in
  if isSkdTreeSupported o then
    match o_skdp o with
    | SkOk => Some (g, set_skd o [] (cleaned (o_skdS o)))
    | _ => None
    end
  else Some (g, o).

(** MimmoObject::buildPatchInfo, cleanPatchInfo, src/core/MimmoObject.cpp:3324-3341. *)
Definition buildPatchInfo (s : geo * obj) : geo * obj :=
  let '(g, o) := s in (g, set_info o (map fst (g_cells g)) Synced).
Definition cleanPatchInfo (s : geo * obj) : geo * obj :=
  let '(g, o) := s in (g, set_info o [] (cleaned (o_infoS o))).

(** MimmoObject::cleanBoundingBox, src/core/MimmoObject.cpp:3348-3352. *)
Definition cleanBoundingBox (s : geo * obj) : geo * obj :=
  let '(g, o) := s in (g, set_bb o (o_bb o) (cleaned (o_bbS o))).

(** MimmoObject::updateAdjacencies, src/core/MimmoObject.cpp:3571-3593.  The build is of bitpit. *)
Definition updateAdjacencies (s : geo * obj) : geo * obj :=
  let '(g, o) := s in
  match o_adjS o with
  | NotSupported | Synced => (g, o)
  | NoneS | Unsync => (g, set_adj o (g_cells g) Synced)
  end.

(** MimmoObject::updateInterfaces, src/core/MimmoObject.cpp:3600-3626. *)
Definition updateInterfaces (s : geo * obj) : geo * obj :=
  let '(g, o) := match o_adjS (snd s) with Synced => s | _ => updateAdjacencies s end in
  match o_intS o with
  | NotSupported | Synced => (g, o)
  | NoneS | Unsync => (g, set_int o (g_cells g) Synced)
  end.

(** MimmoObject::destroyAdjacencies, destroyInterfaces, src/core/MimmoObject.cpp:3631-3643. *)
Definition destroyAdjacencies (s : geo * obj) : geo * obj := let '(g, o) := s in (g, set_adj o [] NoneS).
Definition destroyInterfaces (s : geo * obj) : geo * obj := let '(g, o) := s in (g, set_int o [] NoneS).

(** MimmoObject::cleanPointConnectivity, src/core/MimmoObject.cpp:4735-4743. *)
Definition cleanPointConnectivity (s : geo * obj) : geo * obj :=
  let '(g, o) := s in (g, set_pc o [] (cleaned (o_pcS o))).

(** MimmoObject::buildPointConnectivity, src/core/MimmoObject.cpp:4676-4730 (its content is in
    Elem.v). *)
Definition buildPointConnectivity (s : geo * obj) : geo * obj :=
  let '(g, o) := cleanPointConnectivity s in
  if o_type o =? 3 then (g, o)
  else if (o_type o =? 1) || (o_type o =? 2) || (o_type o =? 4) then (g, set_pc o (map snd (g_cells g)) Synced)
  else (g, o).

(** MimmoObject::setUnsyncAll, src/core/MimmoObject.cpp:2539-2550. *)
Definition setUnsyncAll (s : geo * obj) : geo * obj :=
  let '(g, o) := s in
  cleanPointConnectivity (g, relevel lower lower lower lower lower (fun _ => Unsync) keep o).

(** MimmoObject::cleanGeometry without MPI, src/core/MimmoObject.cpp:2507-2528: [g'] is the
    geometry once bitpit has removed the coincident vertices.  The result tells whether something
    was cleaned. *)
Definition cleanGeometry (g' : geo) (s : geo * obj) : (geo * obj) * bool :=
  let checkSync := Nat.eqb (length (g_verts (fst s))) (length (g_verts g')) in
  let s' := (g', snd s) in
  ((if checkSync then s' else setUnsyncAll s'), negb checkSync).

(** The same with MPI: [orphans] are the ghost cells without interior neighbours, deleted by
    deleteOrphanGhostCells, src/core/MimmoObject.cpp:2041-2079, and [unused] tells a vertex of no
    cell.  The adjacencies are built for that, and destroyed if they were not there. *)
Definition cleanGeometry_mpi (g' : geo) (orphans : Z -> bool) (s : geo * obj) : (geo * obj) * bool :=
  let check1 := Nat.eqb (length (g_verts (fst s))) (length (g_verts g')) in
  let s1 := (g', snd s) in
  let reset := match o_adjS (snd s1) with Synced => false | _ => true end in
  let s2 := if reset then updateAdjacencies s1 else s1 in
  let g2 := {| g_verts := g_verts g'; g_cells := filter (fun c => negb (orphans (fst c))) (g_cells g') |} in
  let s3 := if reset then destroyAdjacencies (g2, snd s2) else (g2, snd s2) in
  let used v := existsb (fun c => existsb (Z.eqb v) (snd c)) (g_cells g2) in
  let check2 := forallb (fun v => used (fst v)) (g_verts g2) in
  let g3 := {| g_verts := filter (fun v => used (fst v)) (g_verts g2); g_cells := g_cells g2 |} in
  let s4 := (g3, snd s3) in
  ((if check1 && check2 then s4 else setUnsyncAll s4), negb (check1 && check2)).

(** MimmoObject::update without MPI, src/core/MimmoObject.cpp:3359-3440.  PatchKernel::update does
    not change the lists of vertices and cells. *)
Definition update (s : geo * obj) : option (geo * obj) :=
  let s := match o_adjS (snd s) with Unsync => updateAdjacencies s | _ => s end in
  let s := match o_intS (snd s) with Unsync => updateInterfaces s | _ => s end in
  match (match o_skdS (snd s) with Unsync => buildSkdTree s | _ => Some s end) with
  | None => None
  | Some s =>
      let s := match o_kdS (snd s) with Unsync => buildKdTree s | _ => s end in
      let s := match o_infoS (snd s) with Unsync => buildPatchInfo s | _ => s end in
      let s := match o_bbS (snd s) with
               | Synced => s
               | _ => (fst s, set_bb (snd s) (map snd (g_verts (fst s))) Synced)
               end in
      Some (match o_pcS (snd s) with Unsync => buildPointConnectivity s | _ => s end)
  end.

(** MimmoObject::resetPatch, src/core/MimmoObject.cpp:3648-3666. *)
Definition resetPatch (s : geo * obj) : option (geo * obj) :=
  let g := {| g_verts := []; g_cells := [] |} in
  match cleanSkdTree (g, snd s) with
  | None => None
  | Some (_, o) =>
      Some (g, {| o_type := o_type o; o_skdp := o_skdp o; o_skd := o_skd o; o_skdS := NoneS; o_kd := []; o_kdS := NoneS;
                  o_adj := []; o_adjS := NoneS; o_int := []; o_intS := NoneS; o_info := []; o_infoS := NoneS;
                  o_bb := []; o_bbS := NoneS; o_pc := []; o_pcS := NoneS |})
  end.

(** MimmoObject::reset, src/core/MimmoObject.cpp:3724-3802, types 1 to 4: a new patch, and new
    trees but for point clouds, which keep the old tree of cells. *)
Definition reset (type : Z) (s : geo * obj) : option (geo * obj) :=
  match resetPatch s with
  | None => None
  | Some (g, o) =>
      Some (g, {| o_type := type;
                  o_skdp := if type =? 3 then match o_skdp o with SkNull => SkNull | _ => SkDangling end else SkOk;
                  o_skd := []; o_skdS := if type =? 3 then NotSupported else NoneS;
                  o_kd := []; o_kdS := NoneS; o_adj := []; o_adjS := NoneS; o_int := []; o_intS := NoneS;
                  o_info := []; o_infoS := NoneS; o_bb := []; o_bbS := NoneS; o_pc := o_pc o; o_pcS := NoneS |})
  end.

(** * Histories *)

Inductive op :=
  | AddVertex (id : Z) (c : C) | ModifyVertex (id : Z) (c : C) | AddCell (id : Z) (conn : list Z)
  | BuildSkdTree | CleanSkdTree | BuildKdTree | CleanKdTree | BuildPatchInfo | CleanPatchInfo | CleanBoundingBox
  | UpdateAdjacencies | UpdateInterfaces | DestroyAdjacencies | DestroyInterfaces
  | BuildPointConnectivity | CleanPointConnectivity | SetUnsyncAll | CleanGeometry (g' : geo) | Update
  | ResetPatch | ResetTo (type : Z).

Definition step (a : op) (s : geo * obj) : option (geo * obj) :=
  match a with
  | AddVertex id c => Some (addVertex id c s)
  | ModifyVertex id c => Some (modifyVertex id c s)
  | AddCell id conn => Some (addCell id conn s)
  | BuildSkdTree => buildSkdTree s
  | CleanSkdTree => cleanSkdTree s
  | BuildKdTree => Some (buildKdTree s)
  | CleanKdTree => Some (cleanKdTree s)
  | BuildPatchInfo => Some (buildPatchInfo s)
  | CleanPatchInfo => Some (cleanPatchInfo s)
  | CleanBoundingBox => Some (cleanBoundingBox s)
  | UpdateAdjacencies => Some (updateAdjacencies s)
  | UpdateInterfaces => Some (updateInterfaces s)
  | DestroyAdjacencies => Some (destroyAdjacencies s)
  | DestroyInterfaces => Some (destroyInterfaces s)
  | BuildPointConnectivity => Some (buildPointConnectivity s)
  | CleanPointConnectivity => Some (cleanPointConnectivity s)
  | SetUnsyncAll => Some (setUnsyncAll s)
  | CleanGeometry g' => Some (fst (cleanGeometry g' s))
  | Update => update s
  | ResetPatch => resetPatch s
  | ResetTo type => reset type s
  end.

Fixpoint run (ops : list op) (s : geo * obj) : option (geo * obj) :=
  match ops with
  | [] => Some s
  | a :: ops' => match step a s with Some s' => run ops' s' | None => None end
  end.

(** * Other ways to get an object *)

(** The statuses at the end of MimmoObject(int type, dvecarr3E &, livector2D *, bool),
    src/core/MimmoObject.cpp:351-455, for the geometry [g] it makes. *)
Definition construct_lists (type : Z) (g : geo) : geo * obj :=
  (g, {| o_type := type; o_skdp := if type =? 3 then SkNull else SkOk;
         o_skd := []; o_skdS := if negb (type =? 3) then NotSupported else NoneS;
         o_kd := []; o_kdS := NoneS; o_adj := []; o_adjS := NoneS; o_int := []; o_intS := NoneS;
         o_info := map fst (g_cells g); o_infoS := Synced; o_bb := []; o_bbS := NoneS; o_pc := []; o_pcS := NoneS |}).

(** MimmoObject(const MimmoObject &), src/core/MimmoObject.cpp:781-845: on the same patch, which
    holds adjacencies, interfaces and the box. *)
Definition copied (g : geo) (o : obj) : obj :=
  {| o_type := o_type o; o_skdp := if o_type o =? 3 then SkNull else SkOk;
     o_skd := []; o_skdS := NoneS; o_kd := []; o_kdS := NoneS;
     o_adj := o_adj o; o_adjS := o_adjS o; o_int := o_int o; o_intS := o_intS o;
     o_info := map fst (g_cells g); o_infoS := Synced; o_bb := o_bb o; o_bbS := o_bbS o; o_pc := []; o_pcS := NoneS |}.

(** MimmoObject::swap, src/core/MimmoObject.cpp:863-900: the patches are exchanged, that is the
    geometries; the numbering, and the point connectivity, of the argument are left alone. *)
Definition swap (a x : geo * obj) : (geo * obj) * (geo * obj) :=
  let '(ga, oa) := a in let '(gx, ox) := x in
  ((gx, {| o_type := o_type ox; o_skdp := o_skdp ox; o_skd := o_skd ox; o_skdS := o_skdS ox; o_kd := o_kd ox; o_kdS := o_kdS ox;
           o_adj := o_adj ox; o_adjS := o_adjS ox; o_int := o_int ox; o_intS := o_intS ox;
           o_info := map fst (g_cells gx); o_infoS := Synced; o_bb := o_bb ox; o_bbS := o_bbS ox;
           o_pc := o_pc oa; o_pcS := NoneS |}),
   (ga, {| o_type := o_type oa; o_skdp := o_skdp oa; o_skd := o_skd oa; o_skdS := o_skdS oa; o_kd := o_kd oa; o_kdS := o_kdS oa;
           o_adj := o_adj oa; o_adjS := o_adjS oa; o_int := o_int oa; o_intS := o_intS oa;
           o_info := o_info ox; o_infoS := o_infoS ox; o_bb := o_bb oa; o_bbS := o_bbS oa;
           o_pc := o_pc ox; o_pcS := o_pcS ox |})).

End Sync.
Arguments geo : clear implicits.
Arguments obj : clear implicits.
Arguments op : clear implicits.
