(** Property theorems of the structured meshes: indices (C25), location (C26), interpolation (C27),
    sizes (C28), the flag of built meshes (C55), assignment (C56), default sizes (C57), spacing (C58),
    changes of shape (C59), corners of cells (C60). *)
From Coq Require Import Reals List Arith ZArith Bool Lia Lra.
From Verif Require Import Vec Shape ShapeSpec ShapeProofs ShapeWitness Mesh MeshSpec MeshProofs MeshInterp MeshBuild MeshWitness.
Import ListNotations.
Open Scope R_scope.

(** C25: the numbers of points and cells are a bijection with the triples of indices. *)
Theorem C25_points : forall m,
  (forall i j k, point_index m (i, j, k) -> (0 <= accessPointIndex m i j k < num_points m)%Z /\ pointCoords m (accessPointIndex m i j k) = (i, j, k)) /\
  ((forall i, (i < 3)%nat -> (0 < dim m i)%Z) ->
   forall n, (0 <= n < num_points m)%Z -> point_index m (pointCoords m n) /\
     let '(i, j, k) := pointCoords m n in accessPointIndex m i j k = n).
Proof. exact points_bijection. Qed.
Print Assumptions C25_points.
Theorem C25_cells : forall m,
  (forall i j k, cell_index m (i, j, k) -> (0 <= accessCellIndex m i j k < num_cells m)%Z /\ cellCoords m (accessCellIndex m i j k) = (i, j, k)) /\
  ((forall i, (i < 3)%nat -> (1 < dim m i)%Z) ->
   forall n, (0 <= n < num_cells m)%Z -> cell_index m (cellCoords m n) /\
     let '(i, j, k) := cellCoords m n in accessCellIndex m i j k = n).
Proof. exact cells_bijection. Qed.
Print Assumptions C25_cells.
(** The lists of all points and of all centres are in the order of the numbers. *)
Theorem C25_lists : forall m,
  ((forall i, (i < 3)%nat -> (0 < dim m i)%Z) ->
   Z.of_nat (length (mesh_getLocalCoords m)) = num_points m /\
   forall i j k, point_index m (i, j, k) -> zget (mesh_getLocalCoords m) (accessPointIndex m i j k) = Some (getLocalPoint m i j k)) /\
  ((forall i, (i < 3)%nat -> (1 < dim m i)%Z) ->
   Z.of_nat (length (getLocalCellCentroids m)) = num_cells m /\
   forall i j k, cell_index m (i, j, k) -> zget (getLocalCellCentroids m) (accessCellIndex m i j k) = Some (getLocalCCell m i j k)).
Proof. intros m. split; [exact (coords_list m)|exact (centroids_list m)]. Qed.
Print Assumptions C25_lists.
Example C25_nonvacuous : point_index fan_mesh (2, 3, 1)%Z /\ cell_index fan_mesh (1, 2, 0)%Z /\
  accessPointIndex fan_mesh 2 3 1 = 45%Z /\ accessCellIndex fan_mesh 1 2 0 = 15%Z /\ (forall i, (i < 3)%nat -> (1 < dim fan_mesh i)%Z).
Proof.
  destruct fan_dim as (D0 & D1 & D2). split; [intros i Hi; three Hi; [rewrite D0|rewrite D1|rewrite D2]; cbn; lia|].
  split; [intros i Hi; three Hi; [rewrite D0|rewrite D1|rewrite D2]; cbn; lia|]. split; [reflexivity|]. split; [reflexivity|].
  intros i Hi. three Hi; [rewrite D0|rewrite D1|rewrite D2]; lia.
Qed.

(** C26: the cell returned is a cell of the mesh and contains the point, if the point is in the
    parameter range of the shape; a cell is returned for every point whose coordinates fit an int. *)
Theorem C26_cell : forall m s p i j k, built_on m s -> locateCellByPoint m p = Some (i, j, k) ->
  cell_index m (i, j, k) /\
  (in_param s (toLocalCoord s p) ->
   exists lo hi, getLocalPoint m i j k = Some lo /\ getLocalPoint m (i + 1) (j + 1) (k + 1) = Some hi /\
     forall n, (n < 3)%nat -> vent lo n <= vent (toLocalCoord s p) n <= vent hi n).
Proof. exact locate_ok. Qed.
Print Assumptions C26_cell.
Theorem C26_total_partial : forall m s p, built_on m s ->
  representable m s p \/ (int_sizes m /\ in_param s (toLocalCoord s p)) -> exists t, locateCellByPoint m p = Some t.
Proof.
  intros m s p B [R|[N I]]; apply (locate_some m s p B); [exact R|]. apply inside_representable; assumption.
Qed.
Print Assumptions C26_total_partial.
(** Far from the mesh the conversion to int is undefined. *)
Theorem C26_refuted : exists m s p, built_on m s /\ locateCellByPoint m p = None.
Proof. exists box_mesh, (new_shape CUBE), far. split; [exact box_built|exact far_lost]. Qed.
Print Assumptions C26_refuted.
Example C26_nonvacuous : built_on fan_mesh sector /\ int_sizes fan_mesh /\
  built_on box_mesh (new_shape CUBE) /\ int_sizes box_mesh /\
  in_param (new_shape CUBE) (toLocalCoord (new_shape CUBE) (V3 (/ 3) (/ 5) (- / 7))).
Proof.
  split; [exact fan_built|]. split; [exact fan_sizes|]. split; [exact box_built|]. split; [exact box_sizes|].
  apply box_in. intros i Hi. three Hi; cbn; lra.
Qed.

(** C27: interpolation of data on points: a mixture of the data, exact on the mesh points and on
    affine data, and local to the cell that contains the point. *)
Theorem C27_points_bounded : forall m s p data, built_on m s -> Z.of_nat (length data) = num_points m -> representable m s p ->
  exists r xs, interpolatePointData m p data = Some r /\ incl xs data /\ mixture xs r.
Proof. exact points_bounded. Qed.
Print Assumptions C27_points_bounded.
Theorem C27_points_between : forall m s p data a b, built_on m s -> Z.of_nat (length data) = num_points m -> representable m s p ->
  (forall x, In x data -> a <= x <= b) -> exists r, interpolatePointData m p data = Some r /\ a <= r <= b.
Proof.
  intros m s p data a b B L R H. destruct (points_bounded m s p data B L R) as (r & xs & E & I & M).
  exists r. split; [exact E|]. apply (mixture_bounds xs); [exact M|]. intros x Hx. apply H, I, Hx.
Qed.
Print Assumptions C27_points_between.
Theorem C27_points_exact : forall m s p data f i j k, built_on m s -> int_sizes m -> point_data m data f ->
  getLocalPoint m i j k = Some (toLocalCoord s p) -> interpolatePointData m p data = Some (f i j k).
Proof. exact points_exact. Qed.
Print Assumptions C27_points_exact.
Theorem C27_points_affine : forall m s p data f a b, built_on m s -> int_sizes m -> point_data m data f -> in_param s (toLocalCoord s p) ->
  (forall i j k q, getLocalPoint m i j k = Some q -> f i j k = affine a b q) ->
  interpolatePointData m p data = Some (affine a b (toLocalCoord s p)).
Proof. exact points_affine. Qed.
Print Assumptions C27_points_affine.
Theorem C27_points_local : forall m s p data f, built_on m s -> int_sizes m -> point_data m data f -> in_param s (toLocalCoord s p) ->
  exists i j k lo hi r, cell_index m (i, j, k) /\ getLocalPoint m i j k = Some lo /\ getLocalPoint m (i + 1) (j + 1) (k + 1) = Some hi /\
    (forall n, (n < 3)%nat -> vent lo n <= vent (toLocalCoord s p) n <= vent hi n) /\
    interpolatePointData m p data = Some r /\
    mixture [f i j k; f (i + 1) j k; f (i + 1) (j + 1) k; f i (j + 1) k;
             f i j (k + 1); f (i + 1) j (k + 1); f (i + 1) (j + 1) (k + 1); f i (j + 1) (k + 1)]%Z r.
Proof. exact points_local. Qed.
Print Assumptions C27_points_local.
(** Data on cells. *)
Theorem C27_cells_bounded : forall m s p data, built_on m s -> Z.of_nat (length data) = num_cells m -> representable m s p ->
  exists r xs, interpolateCellData m p data = Some r /\ incl xs data /\ mixture xs r.
Proof. exact cells_bounded. Qed.
Print Assumptions C27_cells_bounded.
Theorem C27_cells_between : forall m s p data a b, built_on m s -> Z.of_nat (length data) = num_cells m -> representable m s p ->
  (forall x, In x data -> a <= x <= b) -> exists r, interpolateCellData m p data = Some r /\ a <= r <= b.
Proof.
  intros m s p data a b B L R H. destruct (cells_bounded m s p data B L R) as (r & xs & E & I & M).
  exists r. split; [exact E|]. apply (mixture_bounds xs); [exact M|]. intros x Hx. apply H, I, Hx.
Qed.
Print Assumptions C27_cells_between.
Theorem C27_cells_exact : forall m s p data f i j k, built_on m s -> int_sizes m -> cell_data m data f ->
  getLocalCCell m i j k = Some (toLocalCoord s p) -> interpolateCellData m p data = Some (f i j k).
Proof. exact cells_exact. Qed.
Print Assumptions C27_cells_exact.
Theorem C27_cells_affine : forall m s p data f a b, built_on m s -> int_sizes m -> cell_data m data f -> between_centres m s p ->
  (forall i j k q, getLocalCCell m i j k = Some q -> f i j k = affine a b q) ->
  interpolateCellData m p data = Some (affine a b (toLocalCoord s p)).
Proof. exact cells_affine. Qed.
Print Assumptions C27_cells_affine.
(** Data that are vectors are interpolated entry by entry; data that are integers are interpolated as
    real numbers, then rounded to the nearest integer. *)
Theorem C27_vectors : forall m p data n, (n < 3)%nat ->
  interpolatePointData m p (map (fun v => vent v n) data) = option_map (fun v => vent v n) (interpolatePointData3 m p data) /\
  interpolateCellData m p (map (fun v => vent v n) data) = option_map (fun v => vent v n) (interpolateCellData3 m p data).
Proof. intros m p data n Hn. split; apply vec_data; exact Hn. Qed.
Print Assumptions C27_vectors.
Theorem C27_integers : forall m p data r,
  (interpolatePointDataInt m p data = Some r -> exists x, interpolatePointData m p (map IZR data) = Some x /\ IZR r - / 2 <= x < IZR r + / 2) /\
  (interpolateCellDataInt m p data = Some r -> exists x, interpolateCellData m p (map IZR data) = Some x /\ IZR r - / 2 <= x < IZR r + / 2).
Proof.
  intros m p data r. unfold interpolatePointDataInt, interpolateCellDataInt. rewrite !int_data.
  change (match point_stencils m p with Some st => match reads (accessPointIndex m) st (map IZR data) with Some xs => Some (wsum (weights st) xs) | None => None end | None => None end)
    with (interpolatePointData m p (map IZR data)).
  change (match cell_stencils m p with Some st => match reads (accessCellIndex m) st (map IZR data) with Some xs => Some (wsum (weights st) xs) | None => None end | None => None end)
    with (interpolateCellData m p (map IZR data)).
  split; [destruct (interpolatePointData m p (map IZR data)) as [x|]|destruct (interpolateCellData m p (map IZR data)) as [x|]];
    try discriminate; intros H; exists x; (split; [reflexivity|apply round_ok; exact H]).
Qed.
Print Assumptions C27_integers.
Theorem C27_integers_total : forall m s p data, built_on m s -> representable m s p ->
  (forall z, In z data -> (- 2 ^ 31 <= z < 2 ^ 31)%Z) ->
  (Z.of_nat (length data) = num_points m -> exists r, interpolatePointDataInt m p data = Some r) /\
  (Z.of_nat (length data) = num_cells m -> exists r, interpolateCellDataInt m p data = Some r).
Proof.
  intros m s p data B R H.
  assert (H' : forall x, In x (map IZR data) -> - 2 ^ 31 <= x <= 2 ^ 31 - 1).
  { intros x Hx. apply in_map_iff in Hx. destruct Hx as (z & <- & Hz). apply H in Hz.
    assert (-2147483648 <= z <= 2147483647)%Z as [A C] by (change 2147483648%Z with (2 ^ 31)%Z in *; lia). apply IZR_le in A, C. lra. }
  split; intros L; unfold interpolatePointDataInt, interpolateCellDataInt; rewrite int_data.
  - destruct (C27_points_between m s p (map IZR data) _ _ B ltac:(rewrite map_length; exact L) R H') as (x & E & X).
    unfold interpolatePointData in E. rewrite E. apply round_some. exact X.
  - destruct (C27_cells_between m s p (map IZR data) _ _ B ltac:(rewrite map_length; exact L) R H') as (x & E & X).
    unfold interpolateCellData in E. rewrite E. apply round_some. exact X.
Qed.
Print Assumptions C27_integers_total.
Example C27_nonvacuous : built_on box_mesh (new_shape CUBE) /\ int_sizes box_mesh /\
  (let p := V3 (/ 8) (/ 9) (- / 10) in representable box_mesh (new_shape CUBE) p /\ between_centres box_mesh (new_shape CUBE) p /\
     in_param (new_shape CUBE) (toLocalCoord (new_shape CUBE) p)) /\
  (exists (data : list R) f, point_data box_mesh data f /\ f 0%Z 0%Z 0%Z <> f 1%Z 0%Z 0%Z) /\
  (exists p i j k, getLocalPoint box_mesh i j k = Some (toLocalCoord (new_shape CUBE) p)).
Proof.
  split; [exact box_built|]. split; [exact box_sizes|]. split; [|split].
  - cbn zeta. assert (I : in_param (new_shape CUBE) (toLocalCoord (new_shape CUBE) (V3 (/ 8) (/ 9) (- / 10)))) by (apply box_in; intros i Hi; three Hi; cbn; lra).
    split; [apply inside_representable; [exact box_built|exact box_sizes|exact I]|]. split; [|exact I].
    destruct (built_axes _ _ box_built) as (_ & _ & _ & _ & X & Y & Z).
    unfold between_centres. rewrite box_local. rewrite (box_dim 0), (box_dim 1), (box_dim 2) by lia. replace (3 - 2)%Z with 1%Z by reflexivity.
    rewrite !(localCCell_in _ _ _ _ _ box_built) by (apply cell_index_iff; cbn; lia).
    eexists. eexists. split; [reflexivity|]. split; [reflexivity|]. intros n Hn.
    rewrite (ga_d _ _ _ _ X), (ga_d _ _ _ _ Y), (ga_d _ _ _ _ Z). rewrite (box_dim 0), (box_dim 1), (box_dim 2) by lia. replace (3 - 1)%Z with 2%Z by reflexivity.
    three Hn; cbn; lra.
  - exists (map INR (seq 0 27)). eexists. split; [apply (point_data_exists 0); reflexivity|]. change (INR 0 <> INR 9). apply not_INR. lia.
  - exists (V3 0 0 0), 1%Z, 1%Z, 1%Z. rewrite box_local. rewrite (localPoint_in _ _ _ _ _ box_built) by (apply point_index_iff; cbn; lia).
    destruct (built_axes _ _ box_built) as (_ & _ & _ & _ & X & Y & Z).
    rewrite (ga_d _ _ _ _ X), (ga_d _ _ _ _ Y), (ga_d _ _ _ _ Z). rewrite (box_dim 0), (box_dim 1), (box_dim 2) by lia. replace (3 - 1)%Z with 2%Z by reflexivity.
    f_equal. apply vec_ext; cbn; lra.
Qed.

(** C28: what build() makes of a mesh with a shape; without a shape it fails and changes nothing. *)
Theorem C28_build : forall m0 s, m_shape m0 = Some s ->
  let m := snd (mesh_build m0) in
  fst (mesh_build m0) = true /\ m_built m = true /\ m_shape m = Some s /\
  (forall i, (i < 3)%nat -> dim m i = Z.max (dim m0 i) (min_points (s_kind s) i)) /\
  (forall i j k, getLocalPoint m i j k =
     if (Z.leb 0 i && Z.ltb i (dim m 0) && (Z.leb 0 j && Z.ltb j (dim m 1)) && (Z.leb 0 k && Z.ltb k (dim m 2)))%bool
     then Some (V3 (division s 0 (dim m 0 - 1) (IZR i)) (division s 1 (dim m 1 - 1) (IZR j)) (division s 2 (dim m 2 - 1) (IZR k)))
     else None) /\
  (forall i j k, getLocalCCell m i j k =
     if (Z.leb 0 i && Z.ltb i (dim m 0 - 1) && (Z.leb 0 j && Z.ltb j (dim m 1 - 1)) && (Z.leb 0 k && Z.ltb k (dim m 2 - 1)))%bool
     then Some (V3 (division s 0 (dim m 0 - 1) (IZR i + / 2)) (division s 1 (dim m 1 - 1) (IZR j + / 2)) (division s 2 (dim m 2 - 1) (IZR k + / 2)))
     else None) /\
  (forall i, (i < 3)%nat -> vent (getSpacing m) i * IZR (dim m i - 1) = vent (mesh_getSpan m) i).
Proof. exact build_facts. Qed.
Print Assumptions C28_build.
Theorem C28_no_shape : forall m0, m_shape m0 = None -> mesh_build m0 = (false, m0).
Proof. intros m0 E. unfold mesh_build. rewrite E. reflexivity. Qed.
Print Assumptions C28_no_shape.
(** setMesh gives a built mesh with the type, origin, sizes and numbers of points it is given. *)
Theorem C28_setMesh : forall junk m o sp k d0 d1 d2,
  let m' := setMesh junk m o sp k d0 d1 d2 in
  m_built m' = true /\ mesh_getShapeType m' = k /\ mesh_getOrigin m' = o /\
  vx (mesh_getSpan m') = Rabs (vx sp) /\
  vy (mesh_getSpan m') = (match k with CYLINDER | SPHERE => Rmin (Rabs (vy sp)) (2 * PI) | _ => Rabs (vy sp) end) /\
  vz (mesh_getSpan m') = (match k with SPHERE => Rmin (Rabs (vz sp)) (PI - vz (mesh_getInfLimits m')) | _ => Rabs (vz sp) end) /\
  dim m' 0 = Z.max d0 (min_points k 0) /\ dim m' 1 = Z.max d1 (min_points k 1) /\ dim m' 2 = Z.max d2 (min_points k 2).
Proof. exact setMesh_ok. Qed.
Print Assumptions C28_setMesh.
Example C28_nonvacuous : m_shape fan_mesh = Some sector /\ dim fan_mesh 0 = 3%Z /\ dim fan_mesh 1 = 4%Z.
Proof. repeat split. Qed.

(** C55: if isBuilt() is true, building again changes nothing: the points are those of the shape.
    True of all histories without a change of the polar infimum of a sphere. *)
Theorem C55_flag_partial : forall m, mreach no_polar m -> m_built m = true -> mesh_build m = (true, m).
Proof. exact flag_ok. Qed.
Print Assumptions C55_flag_partial.
Theorem C55_refuted : exists m, mreach any m /\ m_built m = true /\ ~ same_points m (snd (mesh_build m)).
Proof. exists ball_cut. split; [exact ball_reach|exact ball_stale]. Qed.
Print Assumptions C55_refuted.
Example C55_nonvacuous : mreach no_polar fan_mesh /\ m_built fan_mesh = true.
Proof. split; [exact fan_mreach|reflexivity]. Qed.

(** C56: assignment makes the two meshes equal, if the right one has a shape or the left one has none. *)
Theorem C56_assign_partial : forall a b, m_shape b <> None \/ m_shape a = None -> mesh_assign a b = b.
Proof.
  intros a b H. unfold mesh_assign, mesh_swap, mesh_copy. destruct (m_shape b) eqn:E; [reflexivity|].
  destruct H as [H|H]; [contradiction|]. rewrite H. destruct b. cbn in *. subst. reflexivity.
Qed.
Print Assumptions C56_assign_partial.
(** Otherwise the mesh keeps its old shape. *)
Theorem C56_refuted : exists a b, mreach any a /\ mreach any b /\ mesh_getShapeType (mesh_assign a b) <> mesh_getShapeType b.
Proof.
  exists shaped, new_mesh. split; [exact shaped_reach|]. split; [apply mreach_new|].
  destruct (setShape_shape vzero new_mesh SPHERE) as (s & E & R). destruct (reach_good _ _ R) as (_ & _ & K).
  unfold mesh_getShapeType. change (m_shape (mesh_assign shaped new_mesh)) with (m_shape (mesh_setShape vzero new_mesh SPHERE)). rewrite E, K. discriminate.
Qed.
Print Assumptions C56_refuted.
Example C56_nonvacuous : m_shape fan_mesh <> None /\ mreach any fan_mesh.
Proof. split; [discriminate|apply (mreach_any no_polar), fan_mreach]. Qed.

(** C57: the sizes of a mesh depend on the calls made, and on nothing else. They do not for the
    default cylinder, whose radius and height are read from uninitialised memory. *)
Theorem C57_partial : forall j j' m k, m_shape m <> None \/ t_sets (m_t m) = true \/ k <> CYLINDER -> mesh_setShape j m k = mesh_setShape j' m k.
Proof. exact setShape_junk. Qed.
Print Assumptions C57_partial.
Theorem C57_refuted : exists j j', mesh_getSpan (mesh_setShape j new_mesh CYLINDER) <> mesh_getSpan (mesh_setShape j' new_mesh CYLINDER).
Proof.
  exists (V3 1 0 1), (V3 3 0 1). intros E. apply (f_equal vx) in E.
  assert (H : forall x, vx (mesh_getSpan (mesh_setShape (V3 x 0 1) new_mesh CYLINDER)) = Rabs x).
  { intros x. unfold mesh_setShape. cbn [m_shape new_mesh m_t no_temps t_seto t_sets t_seti t_setr]. unfold mesh_getSpan; cbn [m_shape].
    exact (proj1 (span_ok CYLINDER _ _ (reach_setOrigin _ _ _ (reach_new CYLINDER)))). }
  rewrite !H in E. rewrite !Rabs_right in E by lra. lra.
Qed.
Print Assumptions C57_refuted.
Example C57_nonvacuous : t_sets (m_t (mesh_setSpan new_mesh (V3 1 2 3))) = true.
Proof. reflexivity. Qed.

(** C58: with a spacing: the number of intervals is the span over the spacing, rounded, but for the
    minimum of the shape; a null spacing gives the minimum. *)
Theorem C58_spacing : forall junk m o sp k h m', setMeshSpacing junk m o sp k h = Some m' ->
  m_built m' = true /\ mesh_getShapeType m' = k /\ mesh_getOrigin m' = o /\
  vx (mesh_getSpan m') = Rabs (vx sp) /\
  vy (mesh_getSpan m') = (match k with CYLINDER | SPHERE => Rmin (Rabs (vy sp)) (2 * PI) | _ => Rabs (vy sp) end) /\
  vz (mesh_getSpan m') = (match k with SPHERE => Rmin (Rabs (vz sp)) (PI - vz (mesh_getInfLimits m')) | _ => Rabs (vz sp) end) /\
  forall i, (i < 3)%nat -> exists d, dim m' i = Z.max d (min_points k i) /\
    (vent h i = 0 -> d = min_points k i) /\
    (vent h i <> 0 -> IZR (d - 1) - / 2 <= vent (mesh_getSpan m') i / vent h i < IZR (d - 1) + / 2).
Proof. exact setMeshSpacing_ok. Qed.
Print Assumptions C58_spacing.
Theorem C58_copy : forall m s h m', setMeshCopySpacing m s h = Some m' ->
  m_built m' = true /\ m_shape m' = Some s /\
  forall i, (i < 3)%nat -> exists d, dim m' i = Z.max d (min_points (s_kind s) i) /\
    (vent h i = 0 -> d = min_points (s_kind s) i) /\
    (vent h i <> 0 -> IZR (d - 1) - / 2 <= vent (getSpan s) i / vent h i < IZR (d - 1) + / 2).
Proof. exact setMeshCopySpacing_ok. Qed.
Print Assumptions C58_copy.
Example C58_nonvacuous : exists m', setMeshCopySpacing new_mesh (new_shape CUBE) (V3 (/ 4) 0 (/ 3)) = Some m' /\ dim m' 0 = 5%Z /\ dim m' 1 = 2%Z.
Proof.
  unfold setMeshCopySpacing, spacing_dims, mesh_getSpan, getSpan, cmul.
  cbn [mesh_setShapeCopy m_shape new_shape s_scaling s_span s_kind vx vy vz dimLimit]. unfold spacing_dim.
  destruct (Req_EM_T (/ 4) 0); [lra|]. destruct (Req_EM_T 0 0); [|contradiction]. destruct (Req_EM_T (/ 3) 0); [lra|].
  rewrite (to_int_is _ 4) by (try lia; lra). rewrite (to_int_is _ 3) by (try lia; lra).
  eexists. split; [reflexivity|]. split; reflexivity.
Qed.

(** C59: setShape(type) on a mesh that has a shape keeps its origin and frame, and its sizes if the
    type is the same. *)
Theorem C59_setShape : forall junk m s k k0, m_shape m = Some s -> reach k0 s ->
  let m' := mesh_setShape junk m k in
  m_built m' = false /\ mesh_getShapeType m' = k /\ mesh_getOrigin m' = mesh_getOrigin m /\ mesh_getRefSystem m' = mesh_getRefSystem m /\
  (k = k0 -> mesh_getSpan m' = mesh_getSpan m /\ mesh_getInfLimits m' = mesh_getInfLimits m).
Proof. exact setShape_keeps. Qed.
Print Assumptions C59_setShape.
Theorem C59_reachable : forall m s, mreach any m -> m_shape m = Some s -> reach (mesh_getShapeType m) s.
Proof.
  intros m s R E. destruct (mreach_inv _ _ R) as [S _]. destruct (S s E) as [k H]. unfold mesh_getShapeType. rewrite E.
  destruct (reach_good k s H) as (_ & _ & ->). exact H.
Qed.
Print Assumptions C59_reachable.
Example C59_nonvacuous : m_shape fan_mesh = Some sector /\ reach CYLINDER sector.
Proof. split; [reflexivity|exact sector_reach]. Qed.

(** C60: getCellNeighs gives the eight corners of the cell, once each. *)
Theorem C60_corners : forall m i j k, cell_index m (i, j, k) ->
  length (getCellNeighs m i j k) = 8%nat /\ NoDup (getCellNeighs m i j k) /\
  forall n, In n (getCellNeighs m i j k) <-> (0 <= n < num_points m)%Z /\ exists a b c, pointCoords m n = (a, b, c) /\
     (i <= a <= i + 1)%Z /\ (j <= b <= j + 1)%Z /\ (k <= c <= k + 1)%Z.
Proof. exact neighs_ok. Qed.
Print Assumptions C60_corners.
Example C60_nonvacuous : cell_index fan_mesh (1, 2, 0)%Z.
Proof. apply C25_nonvacuous. Qed.
