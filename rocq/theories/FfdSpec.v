(** What the free form deformation is measured against. *)
From Coq Require Import Reals List Arith ZArith Bool.
From Verif Require Import Vec Field Shape ShapeSpec ShapeSel ShapeSelSpec Mesh MeshSpec Lattice LatticeSpec Manip ManipSpec Ffd.
Import ListNotations.
Open Scope R_scope.

(** ** B-splines: the recursion of Cox and de Boor on the knots u, for a point of the knot span k *)
Definition ratio (a b : R) : R := if Req_EM_T b 0 then 0 else a / b.
Fixpoint bspline (u : Z -> R) (k : Z) (p : nat) (i : Z) (x : R) : R :=
  match p with
  | O => if Z.eqb i k then 1 else 0
  | S q => ratio (x - u i) (u (i + Z.of_nat p)%Z - u i) * bspline u k q i x +
           ratio (u (i + Z.of_nat p + 1)%Z - x) (u (i + Z.of_nat p + 1)%Z - u (i + 1)%Z) * bspline u k q (i + 1)%Z x
  end.
Definition in_span (u : Z -> R) (k : Z) (x : R) : Prop := u k < u (k + 1)%Z /\ u k <= x <= u (k + 1)%Z.

Definition total (l : list R) : R := fold_right Rplus 0 l.

(** ** The knots of one direction with n control nodes, degree p, on the coordinates from o to o + w *)
(** clamped: p+1 equal knots at both ends, and the means of p consecutive nodes between *)
Definition clamped_knot (n p : nat) (o w : R) (i : Z) : R :=
  if Z.leb i (Z.of_nat p) then o
  else if Z.leb (Z.of_nat n) i then o + w
  else o + (IZR i - INR p + (INR p - 1) / 2) * (w / (INR n - 1)).
(** periodic and symmetric: equal distances; knot number p is at o for odd degrees, half a step before
    for even ones *)
Definition shift (p : nat) : R := if Nat.odd p then 0 else (- 1) / 2.
Definition uniform_knot (n p : nat) (o w : R) (i : Z) : R := o + (IZR i - INR p + shift p) * (w / (INR n - 1)).

(** sums over 0 .. n-1 *)
Fixpoint rsum (n : nat) (f : nat -> R) : R := match n with O => 0 | S m => rsum m f + f m end.
Definition vtotal (n : nat) (f : nat -> vec) : vec :=
  V3 (rsum n (fun i => vx (f i))) (rsum n (fun i => vy (f i))) (rsum n (fun i => vz (f i))).

(** ** Lattices ready to deform *)
(** the calls that leave the lattice built *)
Inductive tuned (f0 : ffd) : ffd -> Prop :=
| tuned_built : tuned f0 f0
| tuned_displ f D : tuned f0 f -> tuned f0 (setDisplacements f D)
| tuned_global f b : tuned f0 f -> tuned f0 (setDisplGlobal f b)
| tuned_filter f fl : tuned f0 f -> tuned f0 (ffd_setFilter f fl)
| tuned_geo f g : tuned f0 f -> tuned f0 (ffd_setGeometry f g)
| tuned_exec f G f' : tuned f0 f -> ffd_execute G f = Some f' -> tuned f0 f'.
(** The lattice was built on the shape s, after any sequence of calls on its mesh. *)
Definition ready (f : ffd) (s : shape) : Prop :=
  (exists f0 f1, mreach any (f_mesh f0) /\ build f0 = Some (true, f1) /\ tuned f1 f) /\ m_shape (f_mesh f) = Some s.
(** the number of degrees of freedom *)
Definition nodes (f : ffd) : nat := Z.to_nat (getNNodes (f_lat f)).
Definition coord_type (s : shape) (d : nat) : coordtype := match d with 0%nat => s_ct0 s | 1%nat => s_ct1 s | _ => s_ct2 s end.
(** Two nodes of a periodic or symmetric direction are not closer than 2e-12 in local coordinates. *)
Definition spaced (f : ffd) (s : shape) : Prop :=
  forall d, (d < 3)%nat -> coord_type s d = PERIODIC \/ coord_type s d = SYMMETRIC -> 2 / 10 ^ 12 <= vent (s_span s) d / IZR (dim (f_mesh f) d - 1).
Definition positive_weights (f : ffd) : Prop := Forall (Rlt 0) (f_weights f).
(** The point q is in the box of local coordinates of the shape. *)
Definition in_box (s : shape) (q : vec) : Prop := in_param s (toLocalCoord s q).

(** ** Mixtures of displacements of the nodes *)
Definition shares (n : nat) (lam : nat -> R) : Prop := (forall i, 0 <= lam i) /\ rsum n lam = 1.
Definition mix (n : nat) (lam : nat -> R) (D : list vec) : vec := vtotal n (fun i => vscale (lam i) (nth i D vzero)).
(** The displacement of the point q by m, given in the world or along the local coordinates. *)
Definition displaced (s : shape) (world : bool) (q m : vec) : vec :=
  if world then m
  else vsub (toWorldCoord s (vadd (toLocalCoord s q) (V3 (vx m / vx (s_scaling s)) (vy m / vy (s_scaling s)) (vz m / vz (s_scaling s))))) q.

(** ** Executions *)
(** The vertices a lattice moves: those of the cells in the shape; the points in the shape if the
    geometry is a cloud of points. *)
Definition affected (s : shape) (g : geo) (id : nat) : Prop :=
  if ge_skd_ok g then exists c vs, In c (includeGeometry s (Some g)) /\ In (c, vs) (p_cells (ge_patch g)) /\ In id vs
  else In id (includeCloudPoints s (Some g)).
(** The factor of a vertex by the filter fl; an empty filter is none. *)
Definition factor (g : nat) (vs : list (nat * vec)) (fl : fld R) (id : nat) (k : R) : Prop :=
  (fd_data fl = [] /\ k = 1) \/ (fd_data fl <> [] /\ weight vs g fl id k).
(** The lattice with the displacements D of its nodes, a filter and a geometry. *)
Definition prepared (f : ffd) (D : list vec) (world : bool) (fl : fld R) (g : nat) : ffd :=
  ffd_setGeometry (ffd_setFilter (setDisplGlobal (setDisplacements f D) world) (Some fl)) (Some g).
(** Every execution of the lattice f with the displacements D of its nodes moves the affected vertices
    at q by m, given in the world or along the local coordinates, times their factors. *)
Definition moves (f : ffd) (s : shape) (D : list vec) (world : bool) (q m : vec) : Prop :=
  forall G g fl id f', (forall k, good_geo (G k)) -> distinct_ids (fd_data fl) ->
    In (id, q) (p_verts (ge_patch (G g))) -> affected s (G g) id ->
    ffd_execute G (prepared f D world fl g) = Some f' ->
    exists k, factor g (p_verts (ge_patch (G g))) fl id k /\ In (id, vscale k (displaced s world q m)) (fd_data (f_gdispl f')).

(** ** Rational B-splines *)
Definition points (f : ffd) (d : nat) : nat := Z.to_nat (dim (f_mesh f) d).
Definition degree (f : ffd) (d : nat) : nat := Z.to_nat (MeshSpec.comp (f_deg f) d).
Definition all_clamped (s : shape) : Prop := forall d, (d < 3)%nat -> coord_type s d = CLAMPED.
(** the values F on the nodes of the grid of what the list v gives to the degrees of freedom *)
Definition node_values {A} (f : ffd) (v : list A) (F : nat -> nat -> nat -> A) : Prop :=
  forall a b c d, point_index (f_mesh f) (Z.of_nat a, Z.of_nat b, Z.of_nat c) ->
    dof (f_lat f) (Z.of_nat a, Z.of_nat b, Z.of_nat c) d -> zget v d = Some (F a b c).
Definition weighted_mean (n : nat -> nat) (N : nat -> nat -> R) (w y : nat -> nat -> nat -> R) : R :=
  rsum (n 0%nat) (fun a => rsum (n 1%nat) (fun b => rsum (n 2%nat) (fun c => N 0%nat a * N 1%nat b * N 2%nat c * w a b c * y a b c))) /
  rsum (n 0%nat) (fun a => rsum (n 1%nat) (fun b => rsum (n 2%nat) (fun c => N 0%nat a * N 1%nat b * N 2%nat c * w a b c))).
(** Bernstein polynomials *)
Definition bernstein (p i : nat) (t : R) : R := Binomial.C p i * t ^ i * (1 - t) ^ (p - i).

(** ** Weights *)
(** setNodalWeight called for each pair of an index of the grid and a weight *)
Fixpoint weigh (f : ffd) (calls : list (Z * R)) : option ffd :=
  match calls with [] => Some f | (i, w) :: r => match setNodalWeight f w i with None => None | Some f => weigh f r end end.
(** the last weight given to a point with the number d, 1 if there is none *)
Fixpoint last_weight (l : lattice) (calls : list (Z * R)) (d : Z) (x : R) : R :=
  match calls with
  | [] => x
  | (i, w) :: r => last_weight l r d (match accessDOFFromGrid l i with Some e => if Z.eqb e d then w else x | None => x end)
  end.

(** ** Directions that close or mirror *)
(** The control point a of a direction with n nodes and degree p is the node number a when the direction
    is clamped. Otherwise there are p more control points, from the node -[p/2] on: beyond the ends they
    are the nodes from the other end if the direction is periodic, and mirrored nodes if it is symmetric. *)
Definition controls (t : coordtype) (n p : nat) : nat := match t with PERIODIC | SYMMETRIC => n + p | _ => n end.
Definition control (t : coordtype) (n p a : nat) : nat :=
  let last := (Z.of_nat n - 1)%Z in
  let z := (Z.of_nat a - Z.of_nat p / 2)%Z in
  match t with
  | PERIODIC => Z.to_nat (if Z.ltb z 0 then z + last else if Z.ltb last z then z - last else z)
  | SYMMETRIC => Z.to_nat (if Z.ltb z 0 then - z else if Z.ltb last z then 2 * last - z else z)
  | _ => a
  end.
Definition knot_of (t : coordtype) (n p : nat) (o w : R) : Z -> R :=
  match t with PERIODIC | SYMMETRIC => uniform_knot n p o w | _ => clamped_knot n p o w end.
Definition never_unclamped (s : shape) : Prop := forall d, (d < 3)%nat -> coord_type s d <> UNCLAMPED.

(** ** Sequences of points *)
(** The local coordinates of the points q n tend to those of q0. The azimuth of a cylinder with a
    periodic direction may also tend to its end if q0 is at its beginning. *)
Definition approach (s : shape) (q : nat -> vec) (q0 : vec) : Prop :=
  forall d, (d < 3)%nat -> Un_cv (fun n => vent (toLocalCoord s (q n)) d) (vent (toLocalCoord s q0) d) \/
    (s_kind s = CYLINDER /\ d = 1%nat /\ coord_type s d = PERIODIC /\ vent (toLocalCoord s q0) d = vent (getLocalOrigin s) d /\
     Un_cv (fun n => vent (toLocalCoord s (q n)) d) (vent (getLocalOrigin s) d + vent (s_span s) d)).
Definition tends (M : nat -> vec) (m : vec) : Prop := forall i, (i < 3)%nat -> Un_cv (fun n => vent (M n) i) (vent m i).
