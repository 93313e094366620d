(** ControlDeformMaxDistance (src/utils/ControlDeformMaxDistance.cpp) and ControlDeformExtSurface
    (src/utils/ControlDeformExtSurface.cpp): how much a deformation violates a limit.  Doubles are real
    numbers.  The searches of the nearest cell (skdTreeUtils over bitpit) are functions of the point and of
    the radius, on the whole surface; a process is its vertices and its field.  Files, logs, XML and
    plots are not modelled. *)
From Coq Require Import Reals List Arith Bool.
From Verif Require Import Vec BBox.
Import ListNotations.
Open Scope R_scope.

(** ** The deformation field, src/core/MimmoPiercedVector.tpp *)
Inductive location := Undefined | Point | Cell.
Record mesh := Mesh { m_id : nat; m_verts : list (nat * vec); m_cells : list nat }.
Record field := Field { f_geo : option mesh; f_loc : location; f_data : list (nat * vec) }.
(** a field not set *)
Definition no_field : field := Field None Undefined [].
Fixpoint lookup (id : nat) (l : list (nat * vec)) : option vec :=
  match l with [] => None | (i, x) :: r => if Nat.eqb i id then Some x else lookup id r end.
Definition mem (id : nat) (l : list nat) : bool := existsb (Nat.eqb id) l.
(** getGeometryIds, 530-546 (interfaces left out) *)
Definition geo_ids (g : mesh) (l : location) : list nat := match l with Point => map fst (m_verts g) | Cell => m_cells g | Undefined => [] end.
(** completeMissingData({0,0,0}), 566-579, with checkDataIdsCoherence 411-447 and checkDataSizeCoherence 377-400 *)
Definition complete (f : field) : field :=
  match f_geo f with
  | None => f
  | Some g =>
      let ids := geo_ids g (f_loc f) in
      if forallb (fun e => mem (fst e) ids) (f_data f) then
        if Nat.eqb (length (f_data f)) (length ids) then f
        else Field (f_geo f) (f_loc f) (f_data f ++ map (fun id => (id, vzero)) (filter (fun id => negb (mem id (map fst (f_data f)))) ids))
      else f
  end.
(** the vertices with their displacement; None: m_defField[id] of an id that is not there *)
Fixpoint displacements (vs : list (nat * vec)) (f : field) : option (list (nat * (vec * vec))) :=
  match vs with
  | [] => Some []
  | (id, x) :: r =>
      match lookup id (f_data f), displacements r f with Some d, Some l => Some ((id, (x, d)) :: l) | _, _ => None end
  end.
(** all the processes, or an error if there is one in any of them *)
Fixpoint all_some {A : Type} (l : list (option A)) : option (list A) :=
  match l with [] => Some [] | Some x :: r => match all_some r with Some y => Some (x :: y) | None => None end | None :: _ => None end.
(** getViolation, 110-122 and 120-136: the maximum of the field on all processes *)
Definition getViolation (v : list (list (nat * R))) : R :=
  fold_left (fun m l => Rmax m (fold_left (fun m e => Rmax m (snd e)) l (-1 * dmax))) v (-1 * dmax).
(** the linked geometry is of surface type or it is not set; the violation is thrown away with an exception *)
Definition part := (mesh * field)%type.

(** ** ControlDeformMaxDistance *)
Section MaxDistance.
  (** findPointClosestCell, findPointClosestGlobalCell: the distance, if some cell is within the radius *)
  Variable closest : vec -> R -> option R.
  (** setLimitDistance, 155-158 *)
  Definition setLimitDistance (d : R) : R := Rmax (/ 10 ^ 12) d.
  (** execute, 176-249, on a process *)
  Definition radius (d : vec) : R := Rmax (/ 10 ^ 8) (12 / 10 * norm d).
  Definition far (p : vec) (r : R) : R := match closest p r with Some h => h | None => dmax end.
  Definition max_part (limit : R) (p : part) : option (list (nat * R)) :=
    match displacements (m_verts (fst p)) (complete (snd p)) with
    | None => None
    | Some l => Some (map (fun e => let '(id, (x, d)) := e in (id, far (vadd x d) (radius d) - limit)) l)
    end.
  Definition max_execute (limit : R) (ps : list part) : option (list (list (nat * R))) := all_some (map (max_part limit) ps).
End MaxDistance.

(** ** ControlDeformExtSurface *)
(** the distance with sign from a constraint, if some cell is within the radius; the box of the constraint *)
Record constraint := Con { c_signed : vec -> R -> option R; c_low : vec; c_high : vec }.
Definition upd (o : nat -> R) (i : nat) (x : R) : nat -> R := fun j => if Nat.eqb j i then x else o j.
(** evaluateSignedDistance, 567-640: the points left, each with its position; the loop goes on with the other
    processes also when there are none left *)
Fixpoint rounds (sd : vec -> R -> option R) (fuel : nat) (r : R) (work : list (nat * vec)) (out : nat -> R) : list (nat * vec) * (nat -> R) :=
  match fuel with
  | O => (work, out)
  | S n =>
      let out' := fold_left (fun o w => match sd (snd w) r with Some h => upd o (fst w) h | None => o end) work out in
      let left := filter (fun w => match sd (snd w) r with Some _ => false | None => true end) work in
      rounds sd n (r * (1 + 5 / 100)) left out'
  end.
Definition lost : R := - 10 ^ 25.
Definition evaluateSignedDistance (sd : vec -> R -> option R) (r : R) (points : list vec) : nat -> R :=
  let (left, out) := rounds sd 1000 r (combine (seq 0 (length points)) points) (fun _ => 0) in
  fold_left (fun o w => upd o (fst w) lost) left out.
(** setTolerance, 203-206 *)
Definition setTolerance (t : R) : R := Rmax 0 t.
Section ExtSurface.
  (** intersectBoxBox of bitpit: the diagonal of the intersection of two boxes, if there is one *)
  Variable diagonal : vec -> vec -> vec -> vec -> option R.
  Definition middle (lo hi : vec) : vec := vscale (/ 2) (vadd lo hi).
  Definition guess (lo hi : vec) (c : constraint) : R :=
    let supp := match diagonal lo hi (c_low c) (c_high c) with Some d => Rmax (/ 10 ^ 8) (/ 2 * d) | None => / 10 ^ 8 end in
    Rmax supp (norm (vsub (middle lo hi) (middle (c_low c) (c_high c)))).
  (** the loop over the constraints, 391-432, on a process; (lo, hi): the box of the geometry not deformed, on
      all processes; (dlo, dhi): the box of the points deformed *)
  Definition min3 (a b : vec) : vec := V3 (Rmin (vx a) (vx b)) (Rmin (vy a) (vy b)) (Rmin (vz a) (vz b)).
  Definition max3 (a b : vec) : vec := V3 (Rmax (vx a) (vx b)) (Rmax (vy a) (vy b)) (Rmax (vz a) (vz b)).
  Definition reference (lo hi : vec) (c : constraint) : R :=
    if Rlt_dec 0 (evaluateSignedDistance (c_signed c) (guess lo hi c) [middle lo hi] 0%nat) then 1 * -1 else 1.
  Definition one_constraint (lo hi : vec) (tol : R) (ids : list nat) (points : list vec) (field : list (nat * R)) (c : constraint) : list (nat * R) :=
    let dlo := fold_left min3 points (V3 dmax dmax dmax) in
    let dhi := fold_left max3 points (V3 (-1 * dmax) (-1 * dmax) (-1 * dmax)) in
    let s := reference lo hi c in
    let d := evaluateSignedDistance (c_signed c) (guess dlo dhi c) points in
    map (fun e => (fst (fst e), Rmax (snd (fst e)) (d (snd e) * s + tol))) (combine field (seq 0 (length field))).
  (** execute, 337-437, on a process *)
  Definition ext_part (lo hi : vec) (tol : R) (cs : list constraint) (p : part) : option (list (nat * R)) :=
    match displacements (m_verts (fst p)) (complete (snd p)) with
    | None => None
    | Some l =>
        let points := map (fun e => vadd (fst (snd e)) (snd (snd e))) l in
        let ids := map fst l in
        Some (fold_left (one_constraint lo hi tol ids points) cs (map (fun id => (id, lost)) ids))
    end.
  Definition ext_execute (lo hi : vec) (tol : R) (cs : list constraint) (ps : list part) : option (list (list (nat * R))) := all_some (map (ext_part lo hi tol cs) ps).
End ExtSurface.
