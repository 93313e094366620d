(** Model of the radial basis function deformation, src/manipulators/MRBF.{hpp,cpp}.

    The nodes, the data fields, the weights and the solvers belong to the base class bitpit::RBF,
    which is outside /repo.  Its containers are modelled as lists; its solvers (solve, greedy) are
    arguments of execute ([oracle]); its basis functions are values of [kernel].  Geometries,
    fields and filters are those of Manip.v.  Pointers to fields given by the user are modelled
    by the fields.  Doubles are real numbers; the smallest normal double is [dbl_min].  None is an
    exception, an access out of the bounds of a vector, or a NaN.  MPI, plots, XML and the log are
    not modelled; the search by kd-tree (bitpit hNeighbors) is modelled by what it returns. *)
From Coq Require Import List Arith Bool Reals.
From Verif Require Import Vec SharedPtr Field Manip.
Import ListNotations.
Open Scope R_scope.

Definition dbl_min : R := / 2 ^ 1022.

(** MRBFSol, MRBF.hpp *)
Inductive rbf_mode := MNone | MWhole | MGreedy.

(** A basis function of bitpit::RBF (evalBasis): its value at a normalised distance and its value
    at an infinite distance (a positive number divided by a null radius). *)
Record kernel := Kn { k_fun : R -> R; k_inf : R }.

(** heaviside10 … heaviside1000, MRBF.cpp 1446-1484; dsigmoid, 1486-1497.  std::exp of a large
    positive number is infinite in C++ and the quotient is then 0, which is the limit. *)
Definition heaviside (K d : R) : R := 1 / (1 + exp (- K * (1 - d))).
Definition dsigmoid (d : R) : R := 4 * (exp (-10 * d) / (1 + exp (-10 * d)) ^ 2).
(** bitpit's WENDLANDC2, the default function of the class (MRBF.cpp 626-628 and the constructor of
    bitpit::RBF): not in /repo, from its documented formula. *)
Definition wendland (d : R) : R := if Rlt_dec 1 d then 0 else (1 - d) ^ 4 * (4 * d + 1).

Definition k_heaviside (K : R) : kernel := Kn (heaviside K) 0.
Definition k_dsigmoid : kernel := Kn dsigmoid 0.
Definition k_wendland : kernel := Kn wendland 0.

(** What bitpit computes: the weights of the interpolation on all the active nodes (solve), and the
    nodes retained and their weights (greedy, with a tolerance), from the nodes with their flags,
    the basis function, the support radius of the base class and the data fields. *)
Record oracle := Or {
  o_solve : list (vec * bool) -> kernel -> R -> list (list R) -> list (list R);
  o_greedy : R -> list (vec * bool) -> kernel -> R -> list (list R) -> list bool * list (list R) }.

(** The nodes and their data as they are given by the user: the list of nodes with their activity
    flag, the data fields (m_weight in mode NONE, m_value otherwise), and the geometry and the
    fields linked by pointers. *)
Record rbf_in := Ri {
  i_nodes : list (vec * bool); i_data : list (list R); i_scalar : bool;
  i_geo : option nat; i_displ : option (fld vec); i_scal : option (fld R); i_radii : option (fld R) }.
(** The parameters: m_solver, the basis function, m_isCompact, m_diagonalFactor, m_tol, and for the
    support radius m_supportRadiusValue, m_srIsReal, m_supportRadii and the radius of the base. *)
Record rbf_par := Rp {
  p_mode : rbf_mode; p_kernel : kernel; p_compact : bool; p_diag : R; p_tol : R;
  p_value : R; p_real : bool; p_radii : list R; p_base : R }.
(** The results: m_displ, m_scalarDispl, m_effectiveSR and m_weight. *)
Record rbf_res := Rr { e_displ : fld vec; e_scal : fld R; e_radii : list R; e_weights : list (list R) }.

Record rbf := Rb {
  b_in : rbf_in; b_par : rbf_par; b_res : rbf_res;
  b_geo : option nat; b_filter : fld R; b_bfilter : bool }.

(** A new object: constructor MRBF(MRBFSol), MRBF.cpp 33-53, linked to a geometry *)
Definition new_rbf (m : rbf_mode) (g : option nat) : rbf :=
  Rb (Ri [] [] false None None None None)
     (Rp m k_wendland false 1 (/ 1000000) (-1) false [] 1)
     (Rr no_field no_field [] []) g no_field false.

Definition put_in (r : rbf) (i : rbf_in) : rbf := Rb i (b_par r) (b_res r) (b_geo r) (b_filter r) (b_bfilter r).
Definition put_par (r : rbf) (p : rbf_par) : rbf := Rb (b_in r) p (b_res r) (b_geo r) (b_filter r) (b_bfilter r).

(** addNode of a list, 317-320; removeAllNodes and addNode of bitpit::RBF *)
Definition rbf_addNode (l : list vec) (r : rbf) : rbf :=
  let i := b_in r in
  put_in r (Ri (i_nodes i ++ map (fun x => (x, true)) l) (i_data i) (i_scalar i) (i_geo i) (i_displ i) (i_scal i) (i_radii i)).
(** setNode of a list, 336-341, and of a geometry, 347-351 (None: null pointer) *)
Definition setNode (l : list vec) (r : rbf) : rbf :=
  let i := b_in r in
  put_in r (Ri (map (fun x => (x, true)) l) (i_data i) (i_scalar i) None (i_displ i) (i_scal i) (i_radii i)).
Definition setNode_geo (g : option nat) (r : rbf) : rbf :=
  match g with
  | None => r
  | Some _ => let i := b_in r in
      put_in r (Ri (i_nodes i) (i_data i) (i_scalar i) g (i_displ i) (i_scal i) (i_radii i))
  end.

(** setFilter, 357-363, and clearFilter, 668-672 *)
Definition rbf_setFilter (f : option (fld R)) (r : rbf) : rbf :=
  match f with
  | None => r
  | Some f => Rb (b_in r) (b_par r) (b_res r) (b_geo r) f (match fd_data f with [] => false | _ => true end)
  end.
Definition clearFilter (r : rbf) : rbf := Rb (b_in r) (b_par r) (b_res r) (b_geo r) no_field false.

(** setSupportRadiusLocal, 418-424; setSupportRadiusReal, 435-441 (setSupportRadiusValue, 446-448) *)
Definition setSupportRadius (real : bool) (x : R) (r : rbf) : rbf :=
  let p := b_par r in
  put_par r (Rp (p_mode p) (p_kernel p) (p_compact p) (p_diag p) (p_tol p) (Rmax (-1) x) real [] (p_base p)).
Definition setSupportRadiusLocal : R -> rbf -> rbf := setSupportRadius false.
Definition setSupportRadiusReal : R -> rbf -> rbf := setSupportRadius true.

(** setVariableSupportRadii of a list, 461-466, and of a field, 475-480 *)
Definition is_none (m : rbf_mode) : bool := match m with MNone => true | _ => false end.
Definition setVariableSupportRadii (l : list R) (r : rbf) : rbf :=
  let p := b_par r in
  match l with
  | [] => r
  | _ => if is_none (p_mode p) then
           put_par r (Rp (p_mode p) (p_kernel p) (p_compact p) (p_diag p) (p_tol p) (-1) false l (p_base p))
         else r
  end.
Definition setVariableSupportRadii_field (f : option (fld R)) (r : rbf) : rbf :=
  let p := b_par r in
  match f with
  | None => r
  | Some _ => if is_none (p_mode p) then
      let i := b_in r in
      put_in (put_par r (Rp (p_mode p) (p_kernel p) (p_compact p) (p_diag p) (p_tol p) (-1) false (p_radii p) (p_base p)))
             (Ri (i_nodes i) (i_data i) (i_scalar i) (i_geo i) (i_displ i) (i_scal i) f)
      else r
  end.

(** setDiagonalFactor, 488-491; setTol, 497-500 *)
Definition setDiagonalFactor (x : R) (r : rbf) : rbf :=
  let p := b_par r in
  put_par r (Rp (p_mode p) (p_kernel p) (p_compact p) (Rmin (Rmax x 0) 1) (p_tol p) (p_value p) (p_real p) (p_radii p) (p_base p)).
Definition setTol (x : R) (r : rbf) : rbf :=
  let p := b_par r in
  put_par r (Rp (p_mode p) (p_kernel p) (p_compact p) (p_diag p) x (p_value p) (p_real p) (p_radii p) (p_base p)).

(** setDisplacements of a list, 513-529, and of a field, 543-548 *)
Definition setDisplacements (l : list vec) (r : rbf) : rbf :=
  let i := b_in r in
  put_in r (Ri (i_nodes i) [map vx l; map vy l; map vz l] false (i_geo i) None (i_scal i) (i_radii i)).
Definition setDisplacements_field (f : option (fld vec)) (r : rbf) : rbf :=
  match f with
  | None => r
  | Some _ => let i := b_in r in
      put_in r (Ri (i_nodes i) (i_data i) false (i_geo i) f (i_scal i) (i_radii i))
  end.
(** setScalarDisplacements of a list, 562-570, and of a field, 585-588 (the flag is not set) *)
Definition setScalarDisplacements (l : list R) (r : rbf) : rbf :=
  let i := b_in r in
  put_in r (Ri (i_nodes i) [l] true (i_geo i) (i_displ i) None (i_radii i)).
Definition setScalarDisplacements_field (f : option (fld R)) (r : rbf) : rbf :=
  match f with
  | None => r
  | Some _ => let i := b_in r in
      put_in r (Ri (i_nodes i) (i_data i) (i_scalar i) (i_geo i) (i_displ i) f (i_radii i))
  end.

(** setFunction, 595-632 and 639-645; setCompactSupport, 651-655 *)
Definition setFunction (k : kernel) (c : bool) (r : rbf) : rbf :=
  let p := b_par r in
  put_par r (Rp (p_mode p) k c (p_diag p) (p_tol p) (p_value p) (p_real p) (p_radii p) (p_base p)).
Definition setCompactSupport (c : bool) (r : rbf) : rbf :=
  let p := b_par r in
  put_par r (Rp (p_mode p) (p_kernel p) c (p_diag p) (p_tol p) (p_value p) (p_real p) (p_radii p) (p_base p)).

(** initRBFwGeometry, 1246-1440 (serial).  A field given by pointer must be linked to the geometry
    of the nodes. *)
Definition linked_to {A} (g : nat) (f : option (fld A)) : bool :=
  match f with None => true | Some f => geo_eqb (fd_geo f) (Some g) end.
(** the entries of a std::map<long, …> are met by increasing id *)
Fixpoint ins_id (e : nat * vec) (l : list (nat * vec)) : list (nat * vec) :=
  match l with
  | [] => [e]
  | a :: r => if Nat.leb (fst e) (fst a) then e :: l else a :: ins_id e r
  end.
Definition by_id (l : list (nat * vec)) : list (nat * vec) := fold_right ins_id [] l.
Definition field_at {A} (f : option (fld A)) (id : nat) : option A :=
  match f with None => None | Some f => find id (fd_data f) end.
(** m_supportRadii[count] = value; None: out of bounds *)
Fixpoint set_at (n : nat) (v : R) (l : list R) : option (list R) :=
  match l, n with
  | [], _ => None
  | _ :: r, O => Some (v :: r)
  | a :: r, S n => match set_at n v r with None => None | Some r => Some (a :: r) end
  end.
Fixpoint put_radii (f : option (fld R)) (ids : list nat) (count : nat) (l : list R) : option (list R) :=
  match ids with
  | [] => Some l
  | id :: r =>
      match field_at f id with
      | None => put_radii f r (S count) l
      | Some v => match set_at count v l with None => None | Some l => put_radii f r (S count) l end
      end
  end.
Definition has_radius (f : option (fld R)) (id : nat) : bool :=
  match field_at f id with None => false | Some _ => true end.
Definition value_at {A} (z : A) (f : option (fld A)) (id : nat) : A :=
  match field_at f id with None => z | Some v => v end.
(** [Some (Some r)]: done; [Some None]: the fields do not fit the geometry *)
Definition initRBFwGeometry (h : store) (g : nat) (r : rbf) : option (option rbf) :=
  let i := b_in r in let p := b_par r in
  if (if i_scalar i then linked_to g (i_scal i) else linked_to g (i_displ i)) && linked_to g (i_radii i) then
    let ns := by_id (so_verts (h g)) in
    let ids := map fst ns in
    match put_radii (i_radii i) ids 0 (repeat 0 (length (filter (has_radius (i_radii i)) ids))) with
    | None => None
    | Some radii =>
        let d := map (value_at vzero (i_displ i)) ids in
        let data := if i_scalar i then [map (value_at 0 (i_scal i)) ids] else [map vx d; map vy d; map vz d] in
        Some (Some (Rb
          (Ri (map (fun e => (snd e, true)) ns) data (i_scalar i) (i_geo i) (i_displ i) (i_scal i) (i_radii i))
          (Rp (p_mode p) (p_kernel p) (p_compact p) (p_diag p) (p_tol p) (p_value p) (p_real p) radii (p_base p))
          (b_res r) (b_geo r) (b_filter r) (b_bfilter r)))
    end
  else Some None.

(** fitDataToNodes, 690-710 with bitpit's: a data field of another size is resized with zeros *)
Fixpoint fit {A} (z : A) (n : nat) (l : list A) : list A :=
  match n with O => [] | S n => match l with [] => z :: fit z n [] | a :: r => a :: fit z n r end end.

(** the diagonal of the bounding box of a geometry, getBoundingBox of MimmoObject.cpp (that of the
    patch, which contains its vertices).  Without vertices: nothing depends on it. *)
Definition low (f : vec -> R) (l : list vec) : R :=
  match l with [] => 0 | a :: r => fold_left (fun m p => Rmin m (f p)) r (f a) end.
Definition high (f : vec -> R) (l : list vec) : R :=
  match l with [] => 0 | a :: r => fold_left (fun m p => Rmax m (f p)) r (f a) end.
Definition box_diag (l : list vec) : R :=
  norm (V3 (high vx l - low vx l) (high vy l - low vy l) (high vz l - low vz l)).

(** computeEffectiveSupportRadiusList, 1143-1196: the radii, and the radius given to the base *)
Definition data_norm (data : list (list R)) (i : nat) : R :=
  sqrt (fold_left (fun s d => s + nth i d 0 * nth i d 0) data 0).
Definition max_norm (data : list (list R)) (n : nat) : R :=
  fold_left (fun m i => Rmax m (data_norm data i)) (seq 0 n) 0.
Definition candidate (diag : R) (n : nat) (data : list (list R)) (p : rbf_par) : R :=
  if Rlt_dec (p_value p) dbl_min then max_norm data n * 3
  else if p_real p then p_value p else p_value p * diag.
Definition effective_radii (diag : R) (n : nat) (data : list (list R)) (p : rbf_par) : list R * R :=
  match p_radii p with
  | _ :: _ => (fit dbl_min n (p_radii p), p_base p)
  | [] => let c := candidate diag n data p in
          (repeat c n, if is_none (p_mode p) then p_base p else c)
  end.

(** dist = norm2(point - m_node[i]) / m_effectiveSR[i]; basis = evalBasis(dist), 1216-1217 *)
Definition eval_basis (k : kernel) (x r : R) : option R :=
  if Req_EM_T r 0 then (if Req_EM_T x 0 then None else Some (k_inf k)) else Some (k_fun k (x / r)).
(** evalRBF, 1205-1227, for one data field: the loop on the nodes *)
Fixpoint eval_field (k : kernel) (p : vec) (nodes : list (vec * bool)) (radii w : list R) (acc : R) : option R :=
  match nodes with
  | [] => Some acc
  | (x, a) :: ns =>
      if a then
        match radii, w with
        | r :: radii, c :: w =>
            match eval_basis k (norm (vsub p x)) r with
            | None => None
            | Some b => eval_field k p ns radii w (acc + b * c)
            end
        | _, _ => None
        end
      else eval_field k p ns (tl radii) (tl w) acc
  end.
Fixpoint evalRBF (k : kernel) (p : vec) (nodes : list (vec * bool)) (radii : list R) (ws : list (list R)) : option (list R) :=
  match ws with
  | [] => Some []
  | w :: ws =>
      match eval_field k p nodes radii w 0, evalRBF k p nodes radii ws with
      | Some v, Some l => Some (v :: l)
      | _, _ => None
      end
  end.

(** the vertices within the radius of a node (751-766): what hNeighbors returns *)
Definition near (nodes : list (vec * bool)) (radii : list R) (p : vec) : bool :=
  existsb (fun e => if Rle_dec (norm (vsub p (fst (fst e)))) (snd e) then true else false) (combine nodes radii).
(** maximumRadius, 727-735 *)
Definition max_radius (radii : list R) : R := fold_left (fun m x => if Rlt_dec m x then x else m) radii 0.

(** the loop 774-785 on the active vertices: [read] takes the value from the result of evalRBF
    (resultValue[0] or the copy of three values; None: out of bounds) *)
Definition read_scalar (l : list R) : option R := match l with a :: _ => Some a | [] => None end.
Definition read_vector (l : list R) : option vec := match l with a :: b :: c :: _ => Some (V3 a b c) | _ => None end.
Fixpoint eval_all {A} (read : list R -> option A) (ev : vec -> option (list R)) (vs : list (nat * vec)) (out : list (nat * A)) :
  option (list (nat * A)) :=
  match vs with
  | [] => Some out
  | (id, p) :: r =>
      match ev p with
      | None => None
      | Some l => match read l with
                  | None => None
                  | Some v => match insert id v out with None => None | Some out => eval_all read ev r out end
                  end
      end
  end.
(** the loops 790-798: m_filter.at throws on a missing id *)
Fixpoint filter_all {A} (mul : R -> A -> A) (fd : list (nat * R)) (l : list (nat * A)) : option (list (nat * A)) :=
  match l with
  | [] => Some []
  | (id, v) :: r =>
      match find id fd, filter_all mul fd r with
      | Some k, Some l => Some ((id, mul k v) :: l)
      | _, _ => None
      end
  end.
(** 774-813: the values, the filter (checkFilter, 983-1001, is the function of the other
    manipulators) and the missing vertices *)
Definition field_of {A} (z : A) (mul : R -> A -> A) (read : list R -> option A) (ev : vec -> option (list R))
  (h : store) (g : nat) (active : list (nat * vec)) (filt : option (fld R)) : option (fld A) :=
  match eval_all read ev active [] with
  | None => None
  | Some l =>
      match (match filt with None => Some l | Some f => filter_all mul (fd_data f) l end) with
      | None => None
      | Some l => match complete h z (Fd (Some g) LPoint l) with None => None | Some (f, _) => Some f end
      end
  end.

(** execute, 681-815.  [run] is the part after initRBFwGeometry (700-814). *)
Definition is_compact_run (diag : R) (p : rbf_par) (radii : list R) : bool :=
  p_compact p && negb (if Rlt_dec (p_diag p * diag) (max_radius radii) then true else false).
Fixpoint set_flags (nodes : list (vec * bool)) (fl : list bool) : list (vec * bool) :=
  match nodes with [] => [] | (x, _) :: ns => (x, hd false fl) :: set_flags ns (tl fl) end.
Definition rbf_run (O : oracle) (h : store) (g : nat) (r : rbf) : option rbf :=
  let i := b_in r in let p := b_par r in
  let vs := so_verts (h g) in
  let n := length (i_nodes i) in
  let data := map (fit 0 n) (i_data i) in
  let diag := box_diag (map snd vs) in
  let (radii, base) := effective_radii diag n data p in
  let (nodes, ws) :=
    match p_mode p with
    | MNone => (i_nodes i, data)
    | MWhole => (i_nodes i, o_solve O (i_nodes i) (p_kernel p) base data)
    | MGreedy => let (fl, ws) := o_greedy O (p_tol p) (i_nodes i) (p_kernel p) base data in (set_flags (i_nodes i) fl, ws)
    end in
  let active := if is_compact_run diag p radii then filter (fun e => near nodes radii (snd e)) vs else vs in
  let ev := fun x => evalRBF (p_kernel p) x nodes radii ws in
  match (if b_bfilter r then match checkFilter h g (b_filter r) with None => None | Some f => Some (Some f) end
         else Some None) with
  | None => None
  | Some filt =>
      let done := fun d s =>
        Rb (Ri nodes data (i_scalar i) (i_geo i) (i_displ i) (i_scal i) (i_radii i))
           (Rp (p_mode p) (p_kernel p) (p_compact p) (p_diag p) (p_tol p) (p_value p) (p_real p) (p_radii p) base)
           (Rr d s radii ws) (b_geo r) (match filt with None => b_filter r | Some f => f end) (b_bfilter r) in
      if i_scalar i then
        match field_of 0 Rmult read_scalar ev h g active filt with None => None | Some f => Some (done no_field f) end
      else
        match field_of vzero vscale read_vector ev h g active filt with None => None | Some f => Some (done f no_field) end
  end.
Definition rbf_execute (O : oracle) (h : store) (r : rbf) : option rbf :=
  match b_geo r with
  | None => None
  | Some g =>
      match i_geo (b_in r) with
      | None => rbf_run O h g r
      | Some n =>
          match initRBFwGeometry h n r with
          | None => None
          | Some None => Some r
          | Some (Some r) => rbf_run O h g r
          end
      end
  end.

(** apply, 820-853.  The normals are those of the current coordinates; a vertex of no cell has no
    normal and no displacement; m_scalarDispl[id] throws on a missing id. *)
Fixpoint along_normals (normal : nat -> option vec) (d : list (nat * R)) (vs : list (nat * vec)) : option (list (nat * vec)) :=
  match vs with
  | [] => Some []
  | (id, _) :: r =>
      match normal id with
      | None => along_normals normal d r
      | Some v => match find id d, along_normals normal d r with
                  | Some k, Some l => Some ((id, vscale k v) :: l)
                  | _, _ => None
                  end
      end
  end.
Definition with_displ (r : rbf) (d : fld vec) : rbf :=
  Rb (b_in r) (b_par r) (Rr d (e_scal (b_res r)) (e_radii (b_res r)) (e_weights (b_res r))) (b_geo r) (b_filter r) (b_bfilter r).
Definition rbf_apply (h : store) (r : rbf) : option (store * rbf) :=
  match b_geo r with
  | None => Some (h, r)
  | Some g =>
      if i_scalar (b_in r) then
        if Nat.eqb (so_type (h g)) 1 then
          match along_normals (so_normal (h g) (so_verts (h g))) (fd_data (e_scal (b_res r))) (so_verts (h g)) with
          | None => None
          | Some d => Some (put_verts h g (map (move d) (so_verts (h g))), with_displ r no_field)
          end
        else Some (h, r)
      else Some (put_verts h g (map (move (fd_data (e_displ (b_res r)))) (so_verts (h g))), r)
  end.

(** exec() with the apply flag, BaseManipulation.cpp 552-609 *)
Definition rbf_exec (O : oracle) (h : store) (r : rbf) : option (store * rbf) :=
  match rbf_execute O h r with None => None | Some r => rbf_apply h r end.

(** getDisplacements, getScalarDisplacements, 263-286 (None: null pointer);
    getEffectivelyUsedSupportRadii, MRBF.cpp 216-220 *)
Definition getDisplacements (r : rbf) : option (fld vec) := if i_scalar (b_in r) then None else Some (e_displ (b_res r)).
Definition getScalarDisplacements (r : rbf) : option (fld R) := if i_scalar (b_in r) then Some (e_scal (b_res r)) else None.
Definition getRadii (r : rbf) : list R := e_radii (b_res r).

(** checkDuplicatedNodes, 373-393: [i] is pushed once for every later node j within tol not yet
    checked *)
Definition dup_row (tol : R) (nodes : list vec) (i : nat) (check : list nat) : list nat :=
  filter (fun j => if existsb (Nat.eqb j) check then false
                   else if Rle_dec (norm (vsub (nth j nodes vzero) (nth i nodes vzero))) tol then true else false)
         (seq (S i) (length nodes - S i)).
Fixpoint dup_loop (tol : R) (nodes : list vec) (is check marked : list nat) : list nat :=
  match is with
  | [] => marked
  | i :: r => let js := dup_row tol nodes i check in
              dup_loop tol nodes r (check ++ js) (marked ++ map (fun _ => i) js)
  end.
Definition checkDuplicatedNodes (tol : R) (nodes : list vec) : list nat :=
  dup_loop tol nodes (seq 0 (length nodes)) [] [].
