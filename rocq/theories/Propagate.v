(** PropagateScalarField and PropagateVectorField (src/propagators/PropagateField.cpp, PropagateField.tpp,
    StencilFunctions.cpp): a field on the boundary is propagated to the vertices of a mesh by a graph laplacian.
    Doubles are real numbers; one process.  Vertices are known by their ids; the point connectivity is a
    function.  The solver of the linear system (bitpit over PETSc) is a function; theorems take one that solves
    the systems that have a solution.  Renumberings, files, logs, XML and plots are not modelled, nor links of null length
    (a division by zero). *)
From Coq Require Import Reals List Arith Bool ZArith.
From Verif Require Import Vec.
Import ListNotations.
Open Scope R_scope.

(** ** Stencils *)
(** bitpit::StencilScalar: ids and weights, in order; the target mesh: its vertices and MimmoObject::getPointConnectivity
    (StencilFunctions.cpp 620-634); sums as those of std::vector of doubles in 636-650 *)
Definition stencil := list (nat * R).
Record mesh := Mesh { g_verts : list nat; g_link : nat -> list nat }.
Definition sum_list (l : list R) : R := fold_left Rplus l 0.
(** StencilFunctions.cpp, 635-640 and 727-732 *)
Definition weight (pos : nat -> vec) (diff : nat -> R) (i j : nat) : R := 1 / norm (vsub (pos i) (pos j)) ^ 2 * (/ 2 * (diff i + diff j)).
(** StencilScalar::addComplementToZero: nothing on an empty stencil *)
Definition complement (i : nat) (l : stencil) : stencil := match l with [] => [] | _ => l ++ [(i, - sum_list (map snd l))] end.
(** computeLaplacianStencils, StencilFunctions.cpp 594-671, 687-764: the row of a vertex *)
Definition laplacian (g : mesh) (pos : nat -> vec) (diff : nat -> R) (i : nat) : stencil :=
  let items := map (fun j => (j, weight pos diff i j)) (g_link g i) in
  let s := sum_list (map snd items) in
  complement i (map (fun e => (fst e, snd e / s)) items).
(** modifyStencilsForNarrowBand, PropagateField.tpp 914-939: the distances of the vertices in the band; the last
    item is that of the vertex.  An empty stencil, where the code runs out of bounds, is left as it is *)
Definition farther (band : nat -> option R) (d : R) (j : nat) : bool := match band j with Some e => if Rlt_dec d e then true else false | None => false end.
Definition narrow (band : nat -> option R) (relax : R) (i : nat) (l : stencil) : stencil :=
  match band i with
  | None => l
  | Some d =>
      match rev l with
      | [] => l
      | (c, w) :: r =>
          let items := rev r in
          let old := sum_list (map snd (filter (fun e => farther band d (fst e)) items)) in
          let new := sum_list (map (fun e => snd e * relax) (filter (fun e => farther band d (fst e)) items)) in
          map (fun e => if farther band d (fst e) then (fst e, snd e * relax) else e) items ++ [(c, w + (old - new))]
      end
  end.
(** a stencil times zero plus the item of a condition, 1115-1125: StencilScalar::sumItem adds to the item of the id *)
Fixpoint sum_item (i : nat) (x : R) (l : stencil) : stencil :=
  match l with [] => [(i, x)] | (j, w) :: r => if Nat.eqb j i then (j, w + x) :: r else (j, w) :: sum_item i x r end.
Definition assign (bc : nat -> option R) (rows : nat -> stencil) (i : nat) : stencil * R :=
  match bc i with None => (rows i, 0) | Some b => (sum_item i 1 (map (fun e => (fst e, snd e * 0)) (rows i)), 0 * 0 + - b) end.
(** assignBCAndEvaluateRHS, 1083-1143: the matrix and the right hand side *)
Definition matrix (bc : nat -> option R) (rows : nat -> stencil) (i : nat) : stencil := fst (assign bc rows i).
Definition rhs (bc : nat -> option R) (rows : nat -> stencil) (i : nat) : R := 0 - snd (assign bc rows i).

Section Scalar.
  (** the solver of bitpit: the ids, the rows and the right hand side *)
  Variable solve : list nat -> (nat -> stencil) -> (nat -> R) -> nat -> R.
  Variable g : mesh.
  (** setNarrowBandRelaxation, 284-286 *)
  Definition setRelaxation (r : R) : R := Rmax 0 (Rmin r 1).
  (** the rows before the conditions *)
  Definition rows_of (pos : nat -> vec) (diff : nat -> R) (band : nat -> option R) (relax : R) (i : nat) : stencil := narrow band relax i (laplacian g pos diff i).
  (** PropagateScalarField::execute, PropagateField.cpp 239-352, after the boundary conditions, the diffusivity and the
      band are known; reconstructResults, PropagateField.tpp 1182-1236 *)
  (** 305-321: the conditions of a step *)
  Definition scaled (bc : nat -> option R) (k n : nat) : nat -> option R := fun i => match bc i with Some b => Some (INR (k + 1) * (b / INR n)) | None => None end.
  (** assign and solve, 323-325; solveLaplace, PropagateField.tpp 1155-1171 *)
  Definition solve_bc (rows : nat -> stencil) (bc : nat -> option R) : nat -> R := solve (g_verts g) (matrix bc rows) (rhs bc rows).
  Definition scalar_execute (pos : nat -> vec) (diff : nat -> R) (band : nat -> option R) (relax : R) (bc : nat -> option R) (nstep : nat) : nat -> R :=
    let rows := rows_of pos diff band relax in
    fold_left (fun _ k => solve_bc rows (scaled bc k nstep)) (seq 0 nstep) (fun _ => 0).
  (** setSolverMultiStep, 160-163 and 578-581 *)
  Definition setMultiStep (n : nat) : nat := Nat.max 1 n.
End Scalar.

(** ** Vectors *)
(** PropagateVectorField::execute, PropagateField.cpp 1084-1290 *)
Section Vector.
  Variable solve : list nat -> (nat -> stencil) -> (nat -> R) -> nat -> R.
  Variable g : mesh.
  (** the diffusivity and the band for the deformed mesh *)
  Variable diff : (nat -> vec) -> nat -> R.
  Variable band : (nat -> vec) -> nat -> option R.
  Variable relax : R.
  (** setUpdateThreshold *)
  Variable thres : R.
  (** bitpit: CGElem::projectPointPlane *)
  Definition projectPointPlane (p q n : vec) : vec := vsub p (vscale (dot (vsub p q) n) n).
  (** the walls where the field slips: their vertices; where to: a plane, or a surface with a number of vertices and the
      projection on it.  Periodic borders.  Both are on the border of the mesh: elsewhere the code ignores them *)
  Inductive reference := Plane (center normal : vec) | Surface (count : nat) (project : vec -> vec).
  Record slip := Slip { s_verts : list nat; s_to : reference; s_periodic : list nat }.
  (** std::unordered_set::count and PiercedVector::exists *)
  Definition mem (i : nat) (l : list nat) : bool := existsb (Nat.eqb i) l.
  (** assignBCAndEvaluateRHS, 856-949: the conditions on a component, the last assigned being that left; [None]: predictor *)
  Definition conditions (bc : nat -> option vec) (s : slip) (corrected : option (nat -> vec)) (comp : vec -> R) (i : nat) : option R :=
    match bc i with
    | Some b => Some (comp b)
    | None =>
        if mem i (s_periodic s) then Some 0
        else match corrected with
             | Some c => if mem i (s_verts s) then Some (comp (c i)) else None
             | None => None
             end
    end.
  (** the loops on the components, 1198-1202 and 1214-1218 *)
  Definition solve3 (rows : nat -> stencil) (bc : nat -> option vec) (s : slip) (corrected : option (nat -> vec)) : nat -> vec :=
    let f comp := solve_bc solve g rows (conditions bc s corrected comp) in
    fun i => V3 (f vx i) (f vy i) (f vz i).
  (** computeSlipBCCorrector, 963-1027; None: as many points as vertices of the reference surface are read and projected
      from a list of as many as vertices of the walls, out of bounds if they differ *)
  Definition corrector (s : slip) (pos guess : nat -> vec) : option (nat -> vec) :=
    match s_to s with
    | Plane q n => Some (fun i => vsub (projectPointPlane (vadd (pos i) (guess i)) q n) (pos i))
    | Surface count project => if Nat.eqb count (length (s_verts s)) then Some (fun i => vsub (project (vadd (pos i) (guess i))) (pos i)) else None
    end.
  (** a step, 1193-1228: the field *)
  Definition vector_step (rows : nat -> stencil) (bc : nat -> option vec) (s : slip) (pos : nat -> vec) : option (nat -> vec) :=
    let guess := solve3 rows bc s None in
    match s_verts s with
    | [] => Some guess
    | _ => match corrector s pos guess with Some c => Some (solve3 rows bc s (Some c)) | None => None end
    end.
  (** reconstructResults 1223-1231 and propagateMaskMovingPoints 817-832: the vertices whose stencils are computed again *)
  Definition moving (field : nat -> vec) : list nat :=
    let m := filter (fun i => if Rlt_dec thres (norm (field i)) then true else false) (g_verts g) in
    m ++ flat_map (g_link g) m.
  (** 1236-1256: the stencils of those vertices, for the mesh deformed *)
  Definition update_rows (rows : nat -> stencil) (field pos : nat -> vec) (i : nat) : stencil :=
    if mem i (moving field) then rows_of g pos (diff pos) (band pos) relax i else rows i.
  (** the loop, 1185-1260: apply, 736-757, then the stencils for the next step *)
  Fixpoint vector_loop (n : nat) (rows : nat -> stencil) (bc : nat -> option vec) (s : slip) (pos : nat -> vec) : option (nat -> vec) :=
    match n with
    | O => Some pos
    | S k =>
        match vector_step rows bc s pos with
        | None => None
        | Some field => let pos' := fun i => vadd (pos i) (field i) in vector_loop k (update_rows rows field pos') bc s pos'
        end
    end.
  (** subdivideBC, 711-715, restoreGeometry, 769-786: the field and the mesh at the end *)
  Definition divided (bc : nat -> option vec) (n : nat) (i : nat) : option vec := match bc i with Some b => Some (vscale (/ INR n) b) | None => None end.
  Definition vector_execute (nstep : nat) (bc : nat -> option vec) (s : slip) (pos : nat -> vec) : option ((nat -> vec) * (nat -> vec)) :=
    let rows := rows_of g pos (diff pos) (band pos) relax in
    if Nat.ltb 1 nstep then
      match vector_loop nstep rows (divided bc nstep) s pos with
      | Some pos' => Some (fun i => vsub (pos' i) (pos i), pos)
      | None => None
      end
    else match vector_step rows bc s pos with Some field => Some (field, pos) | None => None end.
End Vector.
(** initializeSlipSurfaceAsPlane, 1038-1079: the vertices of the surfaces, and the normals of their cells *)
Definition sum3 (l : list vec) : vec := fold_left vadd l vzero.
Definition average (l : list vec) : vec := match l with [] => sum3 l | _ => vscale (/ INR (length l)) (sum3 l) end.
Definition slip_plane (points normals : list vec) : reference := Plane (average points) (average normals).

(** ** Boundary conditions *)
(** PropagateField.hpp 126-128; a patch is known by its address; its vertices; a field has the address of its patch and its data *)
Record patch := Patch { p_address : nat; p_verts : list nat }.
Record field (A : Type) := Field { f_patch : patch; f_data : list (nat * A) }.
Arguments Field {A}. Arguments f_patch {A}. Arguments f_data {A}.
(** PiercedVector::find *)
Fixpoint find {A : Type} (i : nat) (l : list (nat * A)) : option A := match l with [] => None | (j, x) :: r => if Nat.eqb j i then Some x else find i r end.
(** 653-664: the vertices of a patch, those already there left as they are *)
Definition put {A : Type} (value : nat -> A) (acc : list (nat * A)) (ids : list nat) : list (nat * A) :=
  fold_left (fun acc i => match find i acc with Some _ => acc | None => acc ++ [(i, value i)] end) ids acc.
(** distributeBCOnBoundaryPoints, PropagateField.tpp 632-673: fields and patches in the order of their unordered sets *)
Fixpoint put_fields {A : Type} (zero : A) (fields : list (field A)) (left : list patch) (acc : list (nat * A)) : list (nat * A) * list patch :=
  match fields with
  | [] => (acc, left)
  | f :: r =>
      if existsb (fun p => Nat.eqb (p_address p) (p_address (f_patch f))) left then
        put_fields zero r (filter (fun p => negb (Nat.eqb (p_address p) (p_address (f_patch f)))) left)
          (put (fun i => match find i (f_data f) with Some x => x | None => zero end) acc (p_verts (f_patch f)))
      else put_fields zero r left acc
  end.
Definition distribute {A : Type} (zero : A) (patches : list patch) (fields : list (field A)) : list (nat * A) :=
  let (acc, left) := put_fields zero fields patches [] in
  fold_left (fun acc p => put (fun _ => zero) acc (p_verts p)) left acc.
(** PropagateScalarField::addDirichletConditions, 138-153: copies in a std::vector, whose elements move to another
    array when the capacity is exceeded (it doubles); the address of each copy: the array and the place in it *)
Record store (A : Type) := Store { t_array : nat; t_capacity : nat; t_copies : list (field A); t_pointers : list (nat * nat) }.
Arguments Store {A}. Arguments t_array {A}. Arguments t_capacity {A}. Arguments t_copies {A}. Arguments t_pointers {A}.
Definition empty_store {A : Type} : store A := Store 0 0 [] [].
Definition addConditions {A : Type} (s : store A) (f : field A) : store A :=
  let full := Nat.eqb (length (t_copies s)) (t_capacity s) in
  let array := if full then S (t_array s) else t_array s in
  let capacity := if full then Nat.max 1 (2 * t_capacity s) else t_capacity s in
  Store array capacity (t_copies s ++ [f]) (t_pointers s ++ [(array, length (t_copies s))]).
(** the fields at the addresses, as execute reads them; None: an address of an array no longer there *)
Fixpoint read_all {A : Type} (s : store A) (l : list (nat * nat)) : option (list (field A)) :=
  match l with
  | [] => Some []
  | (a, k) :: r => if Nat.eqb a (t_array s) then match nth_error (t_copies s) k, read_all s r with Some f, Some q => Some (f :: q) | _, _ => None end else None
  end.
Definition read_conditions {A : Type} (s : store A) : option (list (field A)) := read_all s (t_pointers s).

(** ** Damping *)
(** x / y of doubles; None: a division by zero *)
Definition div (x y : R) : option R := if Req_EM_T y 0 then None else Some (x / y).
(** std::pow for a positive base *)
Definition pow (x y : R) : R := Rpower x y.
(** updateDampingFunction, PropagateField.tpp 755-846: the part of the distance, for a cell at distance d (all positive);
    None: a division by zero.  With a null inner distance the code gets inf from it, and inf * 0 + 1, not a number, for
    every damped cell at line 804 *)
Definition distance_part (radius plateau decay d : R) : option R :=
  match div radius plateau with
  | None => None
  | Some q =>
      if Rlt_dec d plateau then Some 1
      else match div radius d with Some x => div (pow x decay - 1) (pow q decay - 1) | None => None end
  end.
Definition damping_distance (radius plateau decay d : R) : option R :=
  match div radius plateau, distance_part radius plateau decay d with
  | Some q, Some f => Some ((pow q decay - 1) * f + 1)
  | _, _ => None
  end.
(** by volume: the volumes of the cells in the band, floored; the least and the greatest.  [tiny] and [huge]:
    the least positive normal double and the greatest double *)
Definition floor_volume (tiny v : R) : R := if Rlt_dec v tiny then tiny else v.
Definition volmin (tiny huge : R) (vs : list R) : R := fold_left Rmin (map (floor_volume tiny) vs) huge.
Definition volmax (tiny : R) (vs : list R) : R := fold_left Rmax (map (floor_volume tiny) vs) 0.
Definition damping_volume (tiny huge radius plateau decay : R) (vs : list R) (d v : R) : option R :=
  match distance_part radius plateau decay d with
  | Some f => Some (pow (1 + (volmax tiny vs - volmin tiny huge vs) / floor_volume tiny v) f)
  | None => None
  end.
