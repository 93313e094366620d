(** MeshChecker (src/utils/MeshChecker.cpp): the quality of a mesh.  Doubles are real numbers; a value that would not be a number
    is None.  Volumes, centroids, normals and areas are those bitpit evaluates (volumes and areas are not negative); not modelled:
    exceptions inside the checks (NOTRUN), logs, plots, the file written. *)
From Coq Require Import Reals List Arith Bool.
From Verif Require Import Vec.
Import ListNotations.
Open Scope R_scope.

(** A cell, with the cells adjacent to it (-1, no cell, is left out), and an interface: a border has no neighbour. *)
Record cell := Cell { c_id : nat; c_interior : bool; c_volume : R; c_centre : vec; c_adjacent : list nat }.
Record interface := Interface { i_id : nat; i_owner : nat; i_neigh : option nat; i_centre : vec; i_normal : vec; i_area : R }.
(** [m_solid]: the type of the geometry is 2 *)
Record mesh := Mesh { m_solid : bool; m_cells : list cell; m_interfaces : list interface }.
(** the tolerances, and the indicators, both kept by the object *)
Record tolerances := Tol { t_minVolume : R; t_maxVolume : R; t_skewness : R; t_boundary : R; t_validity : R; t_change : R }.
Record state := State { s_minVolume : R; s_maxVolume : R; s_skewness : R; s_boundary : R; s_validity : R; s_change : R }.
(** MeshChecker.hpp 95-104 *)
Inductive status := Good | FaceValidity | VolumeChangeRatio | BoundarySkewness | Skewness | MinimumVolume | MaximumVolume.
(** setDefault, 121-142; called by the constructors only *)
Definition fresh : state := State (10 ^ 18) 0 0 0 1 1.
Definition default_tolerances : tolerances := Tol (/ 10 ^ 14) (10 ^ 10) (85 * PI / 180) (85 * PI / 180) (5 / 10) (/ 10 ^ 5).

Definition cell_of (g : mesh) (id : nat) : cell :=
  match find (fun c => Nat.eqb (c_id c) id) (m_cells g) with Some c => c | None => Cell id false 0 vzero [] end.
(** internalCellBegin to internalCellEnd *)
Definition interior (g : mesh) : list cell := filter c_interior (m_cells g).
Definition below (x y : R) : bool := if Rlt_dec x y then true else false.
(** a / b: None when it is not a number, or is infinite *)
Definition quotient (a b : R) : option R := if Req_EM_T b 0 then None else Some (a / b).
(** std::min(x, y) and std::max(x, y) are x when y is not a number *)
Definition least (x : R) (y : option R) : R := match y with Some v => Rmin x v | None => x end.
Definition greatest (x : R) (y : option R) : R := match y with Some v => Rmax x v | None => x end.

(** checkVolume, 390-472: ratio, 415-422.  A volume over zero is infinite or not a number and leaves the ratio as it is. *)
Definition ratio (g : mesh) (c : cell) : R :=
  fold_left (fun r n => least r (quotient (c_volume c) (c_volume (cell_of g n)))) (c_adjacent c) 1.
(** 401-428, one indicator at a time *)
Definition checkVolume (g : mesh) (s : state) : state :=
  State (fold_left (fun m c => Rmin m (c_volume c)) (interior g) (s_minVolume s))
        (fold_left (fun m c => Rmax m (c_volume c)) (interior g) (s_maxVolume s))
        (s_skewness s) (s_boundary s) (s_validity s)
        (fold_left (fun m c => Rmin m (ratio g c)) (interior g) (s_change s)).
(** the cells in m_volume and in m_volumechange, 406-413, 425-427, 430-461 *)
Definition volume_cells (t : tolerances) (g : mesh) : list nat :=
  flat_map (fun c => (if below (c_volume c) (t_minVolume t) then [c_id c] else []) ++ (if below (t_maxVolume t) (c_volume c) then [c_id c] else [])) (interior g).
Definition change_cells (t : tolerances) (g : mesh) : list nat := map c_id (filter (fun c => below (ratio g c) (t_change t)) (interior g)).

(** checkSkewness, 477-557: the angle of an interface, 491-493, 499-501 *)
Definition joining (g : mesh) (i : interface) : vec :=
  match i_neigh i with
  | Some n => vsub (c_centre (cell_of g n)) (c_centre (cell_of g (i_owner i)))
  | None => vsub (i_centre i) (c_centre (cell_of g (i_owner i)))
  end.
Definition angle (g : mesh) (i : interface) : option R :=
  option_map acos (quotient (dot (joining g i) (i_normal i)) (norm (joining g i) * norm (i_normal i))).
Definition is_border (i : interface) : bool := match i_neigh i with None => true | Some _ => false end.
Definition inner (g : mesh) : list interface := filter (fun i => negb (is_border i)) (m_interfaces g).
Definition border (g : mesh) : list interface := filter is_border (m_interfaces g).
(** 480-483, 489-507, one indicator at a time *)
Definition checkSkewness (g : mesh) (s : state) : state :=
  if m_solid g then
    State (s_minVolume s) (s_maxVolume s)
      (fold_left (fun m i => greatest m (angle g i)) (inner g) (s_skewness s))
      (fold_left (fun m i => greatest m (angle g i)) (border g) (s_boundary s))
      (s_validity s) (s_change s)
  else s.
Definition over (x : option R) (t : R) : bool := match x with Some v => below t v | None => false end.
(** the cells in m_skewness, 495-497, 511-548: those on the two sides, once; nothing is done with the borders *)
Definition push (g : mesh) (acc : list nat) (n : nat) : list nat :=
  if c_interior (cell_of g n) && negb (existsb (Nat.eqb n) acc) then acc ++ [n] else acc.
Definition skewness_cells (t : tolerances) (g : mesh) : list nat :=
  if m_solid g then
    fold_left (fun acc i => let a := push g acc (i_owner i) in match i_neigh i with Some n => push g a n | None => a end)
      (filter (fun i => over (angle g i) (t_skewness t)) (inner g)) []
  else [].

(** checkFaceValidity, 562-643: what an interface adds to areaGood and sumArea, 575-601 *)
Definition add_to (f : nat -> R) (k : nat) (x : R) : nat -> R := fun j => if Nat.eqb j k then f j + x else f j.
Definition add_side (g : mesh) (i : interface) (k : nat) (normal : vec) (a : (nat -> R) * (nat -> R)) : (nat -> R) * (nat -> R) :=
  ((if below 0 (dot (vsub (i_centre i) (c_centre (cell_of g k))) normal) then add_to (fst a) k (i_area i) else fst a), add_to (snd a) k (i_area i)).
Definition areas (g : mesh) : (nat -> R) * (nat -> R) :=
  fold_left (fun a i => let b := add_side g i (i_owner i) (i_normal i) a in
    match i_neigh i with Some n => add_side g i n (vscale (-1) (i_normal i)) b | None => b end) (m_interfaces g) (fun _ => 0, fun _ => 0).
(** 608: not a number for a cell without area *)
Definition validity (g : mesh) (c : cell) : option R := quotient (fst (areas g) (c_id c)) (snd (areas g) (c_id c)).
(** 565-568, 606-613 *)
Definition checkFaceValidity (g : mesh) (s : state) : state :=
  if m_solid g then
    State (s_minVolume s) (s_maxVolume s) (s_skewness s) (s_boundary s)
      (fold_left (fun m c => least m (validity g c)) (interior g) (s_validity s)) (s_change s)
  else s.
Definition under (x : option R) (t : R) : bool := match x with Some v => below v t | None => false end.
Definition validity_cells (t : tolerances) (g : mesh) : list nat :=
  if m_solid g then map c_id (filter (fun c => under (validity g c) (t_validity t)) (interior g)) else [].

(** checkMeshQuality, 290-386: each check that fails replaces the status *)
Definition verdict (t : tolerances) (s : state) : status :=
  let v := Good in
  let v := if below (t_maxVolume t) (s_maxVolume s) then MaximumVolume else v in
  let v := if below (s_minVolume s) (t_minVolume t) then MinimumVolume else v in
  let v := if below (t_skewness t) (s_skewness s) then Skewness else v in
  let v := if below (t_boundary t) (s_boundary s) then BoundarySkewness else v in
  let v := if below (s_change s) (t_change t) then VolumeChangeRatio else v in
  if below (s_validity s) (t_validity t) then FaceValidity else v.
Definition measure (g : mesh) (s : state) : state := checkFaceValidity g (checkSkewness g (checkVolume g s)).
(** execute, 146-171: the indicators of the executions before are still there; setGeometry, 187-193, does not touch them either *)
Definition execute (t : tolerances) (g : mesh) (s : state) : status * state := let s' := measure g s in (verdict t s', s').
Definition executions (t : tolerances) (gs : list mesh) (s : state) : state := fold_left (fun s g => snd (execute t g s)) gs s.

(** With several processes (MPI_Allreduce, 465-467, 552-553, 639): each with its part of the mesh, all of one type *)
Definition reduce (f : R -> R -> R) (l : list R) : R := match l with [] => 0 | x :: r => fold_left f r x end.
Definition reduce_state (solid : bool) (l : list state) (s : state) : state :=
  State (reduce Rmin (map s_minVolume l)) (reduce Rmax (map s_maxVolume l))
    (if solid then reduce Rmax (map s_skewness l) else s_skewness s) (if solid then reduce Rmax (map s_boundary l) else s_boundary s)
    (if solid then reduce Rmin (map s_validity l) else s_validity s) (reduce Rmin (map s_change l)).
Definition execute_ranks (t : tolerances) (solid : bool) (parts : list (mesh * state)) : list (status * state) :=
  let l := map (fun p => measure (fst p) (snd p)) parts in
  map (fun s => let s' := reduce_state solid l s in (verdict t s', s')) l.

(** Settings: degrees for the angles, 216-229 *)
Definition setMaximumSkewnessTolerance (x : R) (t : tolerances) : tolerances := Tol (t_minVolume t) (t_maxVolume t) (x / 180 * PI) (t_boundary t) (t_validity t) (t_change t).
Definition setMaximumBoundarySkewnessTolerance (x : R) (t : tolerances) : tolerances := Tol (t_minVolume t) (t_maxVolume t) (t_skewness t) (x / 180 * PI) (t_validity t) (t_change t).
(** flushSectionXML, 812-854: the values written (taken as read back exactly); absorbSectionXML, 722-805: all the options are there *)
Definition flush (t : tolerances) : list R := [t_minVolume t; t_maxVolume t; t_skewness t; t_boundary t; t_validity t; t_change t].
Definition absorb (x : list R) (t : tolerances) : tolerances :=
  match x with
  | [a; b; c; d; e; f] =>
      let u := Tol a b (t_skewness t) (t_boundary t) (t_validity t) (t_change t) in
      let u := setMaximumBoundarySkewnessTolerance d (setMaximumSkewnessTolerance c u) in
      Tol (t_minVolume u) (t_maxVolume u) (t_skewness u) (t_boundary u) e f
  | _ => t
  end.
(** absorbSectionXML with an option there but empty, 752-761: the default goes through the setter *)
Definition absorb_empty_skewness (t : tolerances) : tolerances := setMaximumSkewnessTolerance (85 * PI / 180) t.
