(** RefineGeometry (src/geohandlers/RefineGeometry.cpp): refinement and smoothing of a surface, one process.
    Doubles are real numbers.  A cell is known by its place in the list of cells, so ids of cells are left out;
    new vertices take the ids from [m_next] on, that no vertex has; vertices are never deleted.  Adjacencies and
    interfaces of bitpit are those of meshes with at most two cells on an edge, where an interface is known by the
    two ends of the edge.  Coarse and refined patches and their mapping are left out (execute passes none),
    as are XML and plots. *)
From Coq Require Import Reals List Arith Bool ZArith.
From Verif Require Import Vec.
Import ListNotations.
Open Scope R_scope.

Inductive kind := Triangle | Quad | Pixel | Polygon.
Definition is_triangle (k : kind) : bool := match k with Triangle => true | _ => false end.
Record cell := Cell { c_kind : kind; c_verts : list nat; c_pid : nat }.
Record mesh := Mesh { m_pts : nat -> vec; m_next : nat; m_cells : list cell }.

(** ** Ternary refinement *)
(** evalCellCentroid of bitpit: the mean of the vertices *)
Definition sum_vecs (l : list vec) : vec := fold_left vadd l vzero.
Definition centroid (pts : nat -> vec) (c : cell) : vec := vscale (/ INR (length (c_verts c))) (sum_vecs (map pts (c_verts c))).
(** MimmoObject::addVertex *)
Definition addVertex (m : mesh) (p : vec) : mesh := Mesh (fun i => if Nat.eqb i (m_next m) then p else m_pts m i) (S (m_next m)) (m_cells m).
(** ternaryRefineCell, 412-449: the new vertex with the ends of each edge *)
Definition ternaryCell (new : nat) (c : cell) : list cell :=
  let n := length (c_verts c) in
  map (fun i => Cell Triangle [new; nth (i mod n) (c_verts c) 0%nat; nth ((i + 1) mod n) (c_verts c) 0%nat] (c_pid c)) (seq 0 n).
(** ternaryRefine, 288-398, all cells being active: a cell that generates no cells is kept *)
Fixpoint ternary_loop (todo : list cell) (m : mesh) (done : list cell) : mesh * list cell :=
  match todo with
  | [] => (m, done)
  | c :: r =>
      let m' := addVertex m (centroid (m_pts m) c) in
      let g := ternaryCell (m_next m) c in
      ternary_loop r m' (done ++ match g with [] => [c] | _ => g end)
  end.
Definition ternaryRefine (m : mesh) : mesh := let (m', l) := ternary_loop (m_cells m) m [] in Mesh (m_pts m') (m_next m') l.

(** ** Red-green refinement *)
Definition key := (nat * nat)%type.
Definition key_eqb (a b : key) : bool := Nat.eqb (fst a) (fst b) && Nat.eqb (snd a) (snd b).
(** the edge between two vertices *)
Definition edge (a b : nat) : key := (Nat.min a b, Nat.max a b).
(** Cell::getVertexId(i % 3), and the face i of a triangle of bitpit *)
Definition corner (c : cell) (i : nat) : nat := nth (i mod 3) (c_verts c) 0%nat.
Definition face (c : cell) (i : nat) : key := edge (corner c i) (corner c (i + 1)).
Definition none : cell := Cell Triangle [] 0.
Definition cell_at (cs : list cell) (k : nat) : cell := nth k cs none.
(** the faces of the mesh on an edge: (cell, face) *)
Definition faces_on (cs : list cell) (e : key) : list (nat * nat) :=
  filter (fun kf => key_eqb (face (cell_at cs (fst kf)) (snd kf)) e) (flat_map (fun k => map (pair k) [0; 1; 2]%nat) (seq 0 (length cs))).
(** Cell::getAdjacencies(iface), each with its own face *)
Definition adjacent (cs : list cell) (k i : nat) : list (nat * nat) := filter (fun kf => negb (Nat.eqb (fst kf) k)) (faces_on cs (face (cell_at cs k) i)).
Record state := State { tag : nat -> nat; edges : list key; green : nat -> option nat; queue : list nat }.
Definition upd {A : Type} (f : nat -> A) (k : nat) (x : A) : nat -> A := fun j => if Nat.eqb j k then x else f j.
(** 578-619, a neighbour of a red cell through the edge e *)
Definition touch (e : key) (s : state) (nf : nat * nat) : state :=
  let (n, f) := nf in
  let t := (tag s n + 1)%nat in
  let tags := upd (tag s) n t in
  if Nat.ltb 2 t then State tags (e :: edges s) (green s) (queue s)
  else if Nat.eqb t 2 then State tags (e :: edges s) (upd (green s) n None) (queue s ++ [n])
  else if Nat.eqb t 1 then State tags (e :: edges s) (upd (green s) n (Some f)) (queue s)
  else State tags (e :: edges s) (green s) (queue s).
(** 566-631, a face of a red cell *)
Definition visit_face (cs : list cell) (k : nat) (s : state) (i : nat) : state :=
  let e := face (cell_at cs k) i in
  match adjacent cs k i with [] => State (tag s) (e :: edges s) (green s) (queue s) | ns => fold_left (touch e) ns s end.
Definition visit (cs : list cell) (k : nat) (s : state) : state :=
  if is_triangle (c_kind (cell_at cs k)) then fold_left (visit_face cs k) [0; 1; 2]%nat s else s.
(** 558-637, while there are new reds; None: still going on *)
Fixpoint spread (cs : list cell) (fuel : nat) (s : state) : option state :=
  match queue s with
  | [] => Some s
  | k :: q => match fuel with O => None | S n => spread cs n (visit cs k (State (tag s) (edges s) (green s) q)) end
  end.
(** 478-504 *)
Definition start (active : list nat) : state := State (fun k => if existsb (Nat.eqb k) active then 2%nat else 0%nat) [] (fun _ => None) active.
Definition key_dec : forall a b : key, {a = b} + {a <> b}.
Proof. decide equality; apply Nat.eq_dec. Defined.
(** 707-718: a new vertex for each edge; the set of edges has each once, in the order of the interfaces, that
    here is that of the list *)
Definition split_edges (s : state) : list key := nodup key_dec (edges s).
Fixpoint place (e : key) (l : list key) : option nat := match l with [] => None | x :: r => if key_eqb x e then Some O else option_map S (place e r) end.
Definition new_points (m : mesh) (es : list key) : nat -> vec := fun i =>
  if Nat.ltb i (m_next m) then m_pts m i
  else match nth_error es (i - m_next m) with Some (a, b) => vscale (/ 2) (vadd (vadd vzero (m_pts m a)) (m_pts m b)) | None => m_pts m i end.
(** edgeVertexId.at, None: out of range *)
Definition new_vertex (m : mesh) (es : list key) (e : key) : option nat := option_map (Nat.add (m_next m)) (place e es).
(** redRefineCell, 850-898 *)
Definition redCell (c : cell) (n : nat -> nat) : list cell :=
  if is_triangle (c_kind c) then
    Cell Triangle [n 0%nat; n 1%nat; n 2%nat] (c_pid c) :: map (fun i => Cell Triangle [corner c (i + 1); n ((i + 1) mod 3)%nat; n (i mod 3)%nat] (c_pid c)) (seq 0 3)
  else [].
(** greenRefineCell, 908-949 *)
Definition greenCell (c : cell) (n : nat) (f : nat) : list cell :=
  if is_triangle (c_kind c) then map (fun i => Cell Triangle [n; corner c (f + 1 + i); corner c (f + 2 + i)] (c_pid c)) (seq 0 2) else [].
(** 720-791, on a cell; the cell is deleted if others are generated *)
Definition refine_cell (m : mesh) (s : state) (es : list key) (k : nat) : option (list cell) :=
  let c := cell_at (m_cells m) k in
  let keep (g : list cell) := match g with [] => [c] | _ => g end in
  match Nat.min 2 (tag s k) with
  | 0%nat => Some [c]
  | 1%nat => match green s k with
             | Some f => match new_vertex m es (face c f) with Some n => Some (keep (greenCell c n f)) | None => None end
             | None => None
             end
  | _ => match new_vertex m es (face c 0), new_vertex m es (face c 1), new_vertex m es (face c 2) with
         | Some x, Some y, Some z => Some (keep (redCell c (fun i => nth i [x; y; z] 0%nat)))
         | _, _, _ => None
         end
  end.
Fixpoint all_cells (l : list (option (list cell))) : option (list cell) :=
  match l with [] => Some [] | Some g :: r => option_map (app g) (all_cells r) | None :: _ => None end.
(** redgreenRefine, 461-841; None: an exception, or the loop does not end in a visit for each cell *)
Definition redgreenRefine (m : mesh) (active : list nat) : option mesh :=
  match spread (m_cells m) (length (m_cells m)) (start active) with
  | None => None
  | Some s =>
      let es := split_edges s in
      match all_cells (map (refine_cell m s es) (seq 0 (length (m_cells m)))) with
      | None => None
      | Some l => Some (Mesh (new_points m es) (m_next m + length es) l)
      end
  end.

(** ** Smoothing *)
Section Smoothing.
  (** getPointConnectivity: the vertices linked to a vertex *)
  Variable near : nat -> list nat.
  Definition lambda : R := 6 / 10.
  Definition kappa : R := - (603 / 1000) * lambda.
  (** the displacement of a vertex *)
  Definition shift (w : R) (pts : nat -> vec) (i : nat) : vec :=
    let l := near i in
    let s := sum_vecs (map (fun j => vscale (w * 1) (vsub (pts j) (pts i))) l) in
    if Rlt_dec 0 (INR (length l)) then vscale (/ INR (length l)) s else s.
  (** 1011-1086, first sub-step; 1088-1159, second one; [None]: no set of constrained vertices *)
  Definition positive (fixed : option (list nat)) (pts : nat -> vec) (i : nat) : vec :=
    vadd (match fixed with None => shift lambda pts i | Some l => if existsb (Nat.eqb i) l then vzero else shift lambda pts i end) (pts i).
  Definition negative (fixed : option (list nat)) (pts : nat -> vec) (i : nat) : vec :=
    vadd (match fixed with None => vzero | Some l => if existsb (Nat.eqb i) l then vzero else shift kappa pts i end) (pts i).
  Fixpoint smoothing (fixed : option (list nat)) (steps : nat) (pts : nat -> vec) : nat -> vec :=
    match steps with O => pts | S n => smoothing fixed n (negative fixed (positive fixed pts)) end.
End Smoothing.

(** ** Execution, 177-211 *)
Inductive refine_type := TERNARY | REDGREEN.
(** setRefineType(int), 137-142; None: exception *)
Definition setRefineType (t : Z) : option refine_type := match t with 0%Z => Some TERNARY | 1%Z => Some REDGREEN | _ => None end.
(** setRefineSteps, setSmoothingSteps, 150-162 *)
Definition setSteps (n : Z) : nat := Z.to_nat (Z.max 0 n).
(** checkTriangulation, 1171-1182 *)
Definition checkTriangulation (m : mesh) : bool := forallb (fun c => is_triangle (c_kind c)) (m_cells m).
Fixpoint steps_of (t : refine_type) (n : nat) (m : mesh) : option mesh :=
  match n with
  | O => Some m
  | S k => match (match t with TERNARY => Some (ternaryRefine m) | REDGREEN => redgreenRefine m (seq 0 (length (m_cells m))) end) with
           | Some m' => steps_of t k m'
           | None => None
           end
  end.
Definition execute (near : mesh -> nat -> list nat) (t : refine_type) (refinements steps : nat) (m : mesh) : option mesh :=
  if match t with REDGREEN => negb (checkTriangulation m) | TERNARY => false end then Some m
  else match steps_of t refinements m with
       | None => None
       | Some m' => Some (Mesh (smoothing (near m') None steps (m_pts m')) (m_next m') (m_cells m'))
       end.
