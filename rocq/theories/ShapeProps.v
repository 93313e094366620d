(** Property theorems of the elementary shapes: coordinates (C30), selections (C31, C52, C53),
    frames (C32), matrices (C33) and sizes (C54). *)
From Coq Require Import Reals List Arith ZArith Bool Lia Lra Permutation.
From Verif Require Import Vec Shape ShapeSpec ShapeProofs ShapeCoord ShapeSel ShapeSelSpec ShapeSelProofs ShapeWitness.
Import ListNotations.
Open Scope R_scope.

(** C30: a world point goes to local coordinates and back, for every solid shape a program can
    build, except on the plane through the edge of a wedge. *)
Theorem C30_world_partial : forall k s x, reach k s -> solid s -> ~ edge_plane s x ->
  toWorldCoord s (toLocalCoord s x) = x.
Proof. intros k s x R S E. destruct (reach_good k s R) as (F & G & _). apply world_local_world; assumption. Qed.
Print Assumptions C30_world_partial.
(** A parameter goes to world coordinates and back, except where a point has several parameters. *)
Theorem C30_local_partial : forall k s p, reach k s -> solid s -> in_param s p -> ~ singular s p ->
  toLocalCoord s (toWorldCoord s p) = p.
Proof. intros k s p R S I N. destruct (reach_good k s R) as (F & G & _). apply local_world_local; assumption. Qed.
Print Assumptions C30_local_partial.
Theorem C30_basic : forall k s, reach k s -> solid s ->
  (forall b, localToBasic s (basicToLocal s b) = b) /\ (forall p, basicToLocal s (localToBasic s p) = p) /\
  (forall b, unit_cube b <-> in_param s (basicToLocal s b)).
Proof.
  intros k s R S. destruct (reach_good k s R) as (F & G & _).
  split; [|split]; intros; [apply basic_local_basic|apply local_basic_local|apply basic_param]; assumption.
Qed.
Print Assumptions C30_basic.
Theorem C30_world_refuted : exists s x, reach WEDGE s /\ solid s /\ toWorldCoord s (toLocalCoord s x) <> x.
Proof.
  exists (new_shape WEDGE), (V3 1 1 0). split; [apply reach_new|]. split; [|exact wedge_edge].
  intros i Hi. three Hi; cbn; lra.
Qed.
Print Assumptions C30_world_refuted.
Theorem C30_local_refuted : exists s p, reach CYLINDER s /\ solid s /\ in_param s p /\ toLocalCoord s (toWorldCoord s p) <> p.
Proof.
  exists (new_shape CYLINDER), (V3 0 PI 0). split; [apply reach_new|]. split; [|exact cyl_axis].
  pose proof PI_RGT_0. intros i Hi. three Hi; cbn; lra.
Qed.
Print Assumptions C30_local_refuted.
Example C30_nonvacuous : reach CYLINDER sector /\ solid sector /\ ~ edge_plane sector (V3 1 2 3) /\
  in_param sector (V3 (/ 2) (/ 4) 0) /\ ~ singular sector (V3 (/ 2) (/ 4) 0).
Proof.
  pose proof pi_big. split; [exact sector_reach|]. split; [exact sector_solid|]. split; [intros [H0 _]; discriminate|].
  split; [intros i Hi; three Hi; cbn; lra|]. intros [H0|H0]; cbn in H0; lra.
Qed.
Example C30_nonvacuous_frame : reach WEDGE (tilted WEDGE) /\ solid (tilted WEDGE).
Proof. split; [apply tilted_reach|apply tilted_solid]. Qed.

(** C31: the two selections of cells split the cells, in a tessellation and in a geometry with its
    search tree; the two selections of points split a list of points and the vertices of a
    tessellation. *)
Theorem C31_cells : forall s g, split_of (includeGeometryPatch s g) (excludeGeometryPatch s g) (map fst (p_cells g)).
Proof. exact patch_cells_split. Qed.
Print Assumptions C31_cells.
Theorem C31_tree_cells : forall s g, good_geo g ->
  exists l, excludeGeometry s (Some g) = Sel l /\ split_of (includeGeometry s (Some g)) l (map fst (p_cells (ge_patch g))).
Proof. exact geo_cells_split. Qed.
Print Assumptions C31_tree_cells.
Theorem C31_points : forall s l,
  Permutation (includeCloudList s l ++ excludeCloudList s l) (seq 0 (length l)) /\
  (forall i, In i (includeCloudList s l) <-> exists v, nth_error l i = Some v /\ isPointIncluded s v = true) /\
  (forall g, split_of (includeCloudPatch s g) (excludeCloudPatch s g) (map fst (p_verts g))).
Proof.
  intros s l. split; [apply cloud_split|]. split; [|apply patch_verts_split].
  intros i. unfold includeCloudList. rewrite cloud_in, Nat.sub_0_r. split; intros (v & H); exists v; intuition lia.
Qed.
Print Assumptions C31_points.
(** The exclusion of the points of a geometry starts from the ids of the cells. *)
Theorem C31_tree_points_partial : forall s g, good_geo g ->
  Permutation (map fst (p_cells (ge_patch g))) (map fst (p_verts (ge_patch g))) ->
  exists l, excludeCloudPoints s (Some g) = Sel l /\ split_of (includeCloudPoints s (Some g)) l (map fst (p_verts (ge_patch g))).
Proof. exact cloud_split_ok. Qed.
Print Assumptions C31_tree_points_partial.
Theorem C31_tree_points_refuted : exists s g, reach CUBE s /\ solid s /\ good_geo g /\
  (forall i p, at_point (ge_patch g) i p -> inside s p) /\ excludeCloudPoints s (Some g) = BadSize.
Proof.
  exists (new_shape CUBE), tri_geo. split; [apply reach_new|]. split; [exact cube_solid|]. split; [exact tri_good|]. split; [|exact tri_excluded].
  intros i p H. apply cube_inside. destruct H as [H|[H|[H|[]]]]; injection H as <- <-; intros j Hj; three Hj; cbn; lra.
Qed.
Print Assumptions C31_tree_points_refuted.
Example C31_nonvacuous : good_geo fan_geo /\ good_geo lone_geo /\
  Permutation (map fst (p_cells (ge_patch lone_geo))) (map fst (p_verts (ge_patch lone_geo))).
Proof. split; [exact fan_good|]. split; [exact lone_good|reflexivity]. Qed.

(** C32: three axes: if they are accepted, the frame is made of their directions, orthonormal up to
    the tolerance, with its inverse, and nothing else changes; orthogonal axes are accepted. *)
Theorem C32_axes : forall s a0 a1 a2,
  (forall s', setRefSystem s a0 a1 a2 = Changed s' ->
     orthonormal_within (/ 1000) (s_sdr s') /\ inverses (s_sdr s') (s_inv s') /\
     direction (row0 (s_sdr s')) a0 /\ direction (row1 (s_sdr s')) a1 /\ direction (row2 (s_sdr s')) a2 /\
     s_kind s' = s_kind s /\ s_origin s' = s_origin s /\ getSpan s' = getSpan s /\ s_inf s' = s_inf s) /\
  setRefSystem s a0 a1 a2 <> Nan.
Proof. exact axes_ok. Qed.
Print Assumptions C32_axes.
Theorem C32_axes_accepted : forall s a0 a1 a2, nonnull a0 -> nonnull a1 -> nonnull a2 ->
  sum3 (fun k => vent a0 k * vent a1 k) = 0 -> sum3 (fun k => vent a1 k * vent a2 k) = 0 -> sum3 (fun k => vent a0 k * vent a2 k) = 0 ->
  exists s', setRefSystem s a0 a1 a2 = Changed s' /\ orthonormal (s_sdr s').
Proof. exact axes_accepted. Qed.
Print Assumptions C32_axes_accepted.
(** One axis. *)
Theorem C32_axis_partial : forall s label axis s', setRefSystem1 s label axis = Changed s' ->
  orthonormal (s_sdr s') /\ right_handed (s_sdr s') /\ inverses (s_sdr s') (s_inv s') /\
  direction (mrow (s_sdr s') (Z.to_nat label)) axis.
Proof.
  intros s label axis s' H. destruct (ref1_changed _ _ _ _ H) as (_ & _ & O & RH & D & I).
  split; [exact O|]. split; [exact RH|]. split; [|exact D]. rewrite I. apply inverse_ok. unfold right_handed in RH. lra.
Qed.
Print Assumptions C32_axis_partial.
(** It fails exactly for an axis along the world axis that comes next. *)
Theorem C32_axis_nan : forall s label axis, setRefSystem1 s label axis = Nan <->
  (0 <= label < 3)%Z /\ nonnull axis /\
  parallel axis (match label with 0%Z => V3 0 1 0 | 1%Z => V3 0 0 1 | _ => V3 1 0 0 end).
Proof.
  intros s label axis. rewrite ref1_nan. split; intros (L & N & P); (split; [exact L|]; split; [exact N|]);
    (assert (Q : label = 0%Z \/ label = 1%Z \/ label = 2%Z) by lia; destruct Q as [-> |[-> | ->]]; exact P).
Qed.
Print Assumptions C32_axis_nan.
Theorem C32_refuted : exists s label axis, reach CUBE s /\ (0 <= label < 3)%Z /\ nonnull axis /\ setRefSystem1 s label axis = Nan.
Proof.
  exists (new_shape CUBE), 0%Z, (V3 0 1 0).
  assert (N : nonnull (V3 0 1 0)) by (exists 1%nat; split; [lia|cbn; lra]).
  split; [apply reach_new|]. split; [lia|]. split; [exact N|]. apply C32_axis_nan.
  split; [lia|]. split; [exact N|]. exists 1. intros i Hi. three Hi; cbn; ring.
Qed.
Print Assumptions C32_refuted.
Example C32_nonvacuous : setRefSystem (new_shape CUBE) (row0 turned) (row1 turned) (row2 turned) = Changed (tilted CUBE) /\
  exists s', setRefSystem1 (new_shape CUBE) 2 (V3 0 1 1) = Changed s'.
Proof.
  split; [apply turned_set|]. destruct (setRefSystem1 (new_shape CUBE) 2 (V3 0 1 1)) as [s'| |] eqn:E; [exists s'; reflexivity| |].
  - exfalso. unfold setRefSystem1 in E. cbn [Z.ltb Z.compare orb] in E.
    destruct (Rlt_dec 0 (norm (V3 0 1 1))) as [L|L].
    + destruct (Req_EM_T _ 0) in E; [discriminate|]. destruct (Req_EM_T _ 0) in E; discriminate.
    + apply L. apply norm_pos_iff. intros H. apply (f_equal vy) in H. cbn in H. lra.
  - apply C32_axis_nan in E. destruct E as (_ & _ & k & P). pose proof (P 1%nat ltac:(lia)) as P1. cbn in P1. lra.
Qed.

(** C33: 3x3 matrices. *)
Theorem C33_inverse : forall m, leibniz m <> 0 -> inverses m (inverse m).
Proof. exact inverse_ok. Qed.
Print Assumptions C33_inverse.
Theorem C33_products : forall m u v,
  (forall i j, (i < 3)%nat -> (j < 3)%nat -> ment (transpose m) i j = ment m j i) /\
  (forall i, (i < 3)%nat -> vent (matmul_vm v m) i = sum3 (fun k => vent v k * ment m k i)) /\
  (forall i, (i < 3)%nat -> vent (matmul_mv m v) i = sum3 (fun k => ment m i k * vent v k)) /\
  sum3 (fun i => vent u i * vent (matmul_mv m v) i) = sum3 (fun i => vent (matmul_vm u m) i * vent v i).
Proof.
  intros m u v. split; [intros; apply transpose_ok; assumption|]. split; [intros; apply matmul_vm_ok; assumption|].
  split; [intros; apply matmul_mv_ok; assumption|]. unfold sum3, matmul_mv, matmul_vm. cbn. ring.
Qed.
Print Assumptions C33_products.
Example C33_nonvacuous : leibniz turned <> 0.
Proof. unfold leibniz, turned, ment; cbn. lra. Qed.

(** C52: with the search tree every returned cell passes the one by one test and is returned once,
    for every shape; and no cell in the volume is lost for the shapes listed in tree_safe. *)
Theorem C52_cells_sound : forall s g, good_geo g ->
  NoDup (includeGeometry s (Some g)) /\
  forall c, In c (includeGeometry s (Some g)) ->
    In c (map fst (p_cells (ge_patch g))) /\ cell_all (ge_patch g) c (fun p => isPointIncluded s p = true).
Proof. intros s g G. split; [apply include_incl; exact G|]. intros c. apply tree_sound. exact G. Qed.
Print Assumptions C52_cells_sound.
Theorem C52_cells_complete_partial : forall k s g c, reach k s -> solid s -> tree_safe s -> good_geo g -> ge_skd_ok g = true ->
  In c (map fst (p_cells (ge_patch g))) -> cell_all (ge_patch g) c (inside s) -> In c (includeGeometry s (Some g)).
Proof. intros k s g c R. destruct (reach_good k s R) as (F & G & _). apply tree_complete; assumption. Qed.
Print Assumptions C52_cells_complete_partial.
Theorem C52_points_sound : forall s g, good_geo g ->
  NoDup (includeCloudPoints s (Some g)) /\
  forall i, In i (includeCloudPoints s (Some g)) -> exists p, at_point (ge_patch g) i p /\ isPointIncluded s p = true.
Proof. intros s g G. split; [apply cloud_nodup; exact G|]. intros i. apply cloud_sound. exact G. Qed.
Print Assumptions C52_points_sound.
Theorem C52_points_complete_partial : forall k s g i p, reach k s -> solid s -> k = CUBE \/ k = WEDGE ->
  good_geo g -> p_cells (ge_patch g) <> [] -> at_point (ge_patch g) i p -> inside s p -> In i (includeCloudPoints s (Some g)).
Proof.
  intros k s g i p R S K. destruct (reach_good k s R) as (F & G & E). apply cloud_complete; try assumption. rewrite E. exact K.
Qed.
Print Assumptions C52_points_complete_partial.
(** A cell is lost by a sector of cylinder, and one by a wedge whose axes are turned. *)
Theorem C52_sector_refuted : exists s g c, reach CYLINDER s /\ solid s /\ good_geo g /\ ge_skd_ok g = true /\
  In c (includeGeometryPatch s (ge_patch g)) /\ ~ In c (includeGeometry s (Some g)).
Proof.
  exists sector, fan_geo, 1%nat. split; [exact sector_reach|]. split; [exact sector_solid|]. split; [exact fan_good|].
  split; [reflexivity|]. split; [exact fan_cell|exact fan_missed].
Qed.
Print Assumptions C52_sector_refuted.
Theorem C52_wedge_refuted : exists s g c, reach WEDGE s /\ solid s /\ good_geo g /\ ge_skd_ok g = true /\
  In c (includeGeometryPatch s (ge_patch g)) /\ ~ In c (includeGeometry s (Some g)).
Proof.
  exists (tilted WEDGE), slab_geo, 1%nat. split; [apply tilted_reach|]. split; [apply tilted_solid|]. split; [exact slab_good|].
  split; [reflexivity|]. split; [apply slab_cell|exact slab_missed].
Qed.
Print Assumptions C52_wedge_refuted.
(** A point is lost by a whole cylinder whose axes are turned. *)
Theorem C52_points_refuted : exists s g i, reach CYLINDER s /\ solid s /\ whole_turn s /\ good_geo g /\
  In i (includeCloudPatch s (ge_patch g)) /\ ~ In i (includeCloudPoints s (Some g)).
Proof.
  exists (tilted CYLINDER), lone_geo, 5%nat. split; [apply tilted_reach|]. split; [apply tilted_solid|]. split; [reflexivity|].
  split; [exact lone_good|]. split; [apply lone_inside|exact lone_missed].
Qed.
Print Assumptions C52_points_refuted.
Example C52_nonvacuous : reach CUBE (new_shape CUBE) /\ solid (new_shape CUBE) /\ tree_safe (new_shape CUBE) /\ good_geo tri_geo /\
  cell_all tri 0 (inside (new_shape CUBE)) /\ tree_safe (tilted CYLINDER) /\ tree_safe (new_shape SPHERE) /\ tree_safe (new_shape WEDGE).
Proof.
  split; [apply reach_new|]. split; [exact cube_solid|]. split; [exact I|]. split; [exact tri_good|]. split.
  - intros vs v p _ _ H. apply cube_inside. destruct H as [H|[H|[H|[]]]]; injection H as <- <-; intros j Hj; three Hj; cbn; lra.
  - split; [reflexivity|]. split; [repeat split|reflexivity].
Qed.

(** C53: a point found included is a point of the shape enlarged by less than 1e-12 in each
    normalised coordinate; a point of the shape is found included when the shape makes a whole
    turn, or when its parameters are unique. *)
Theorem C53_sound : forall k s p, reach k s -> solid s -> isPointIncluded s p = true -> inside_within (/ 10 ^ 12) s p.
Proof. intros k s p R. destruct (reach_good k s R) as (F & G & _). intros S H. exact (included_near s p F G S H). Qed.
Print Assumptions C53_sound.
Theorem C53_complete_partial : forall k s, reach k s -> solid s ->
  (whole_turn s -> forall p, inside s p -> isPointIncluded s p = true) /\
  (forall b, unit_cube b -> ~ singular s (basicToLocal s b) -> isPointIncluded s (toWorldCoord s (basicToLocal s b)) = true).
Proof.
  intros k s R S. destruct (reach_good k s R) as (F & G & _). split.
  - intros W p. apply inside_included; assumption.
  - intros b. apply regular_included; assumption.
Qed.
Print Assumptions C53_complete_partial.
Theorem C53_refuted : exists s p, reach CYLINDER s /\ solid s /\ inside s p /\ isPointIncluded s p = false.
Proof. exists marked, vzero. split; [exact marked_reach|]. split; [exact marked_solid|]. exact marked_axis. Qed.
Print Assumptions C53_refuted.
Example C53_nonvacuous : whole_turn (tilted CYLINDER) /\ inside (tilted CYLINDER) (V3 (9 / 10) 0 0) /\
  isPointIncluded (new_shape CUBE) (V3 2 0 0) = false.
Proof.
  split; [reflexivity|]. split; [apply lone_inside|]. apply not_true_is_false. intros H.
  pose proof (proj1 (included_iff _ _) H 0%nat ltac:(lia)) as I0. unfold basic, localToBasic, toLocalCoord, getLocalOrigin in I0.
  cbn in I0. unfold dot in I0; cbn in I0. pose proof tol_pos. lra.
Qed.

(** C54: sizes. setSpan keeps absolute values, up to the whole turn and to the polar range left by
    the infimum; the other data are not changed. *)
Theorem C54_span : forall k s sp, reach k s ->
  let s' := setSpan s sp in
  vent (getSpan s') 0 = Rabs (vx sp) /\
  vent (getSpan s') 1 = (match k with CYLINDER | SPHERE => Rmin (Rabs (vy sp)) (2 * PI) | _ => Rabs (vy sp) end) /\
  vent (getSpan s') 2 = (match k with SPHERE => Rmin (Rabs (vz sp)) (PI - vz (s_inf s)) | _ => Rabs (vz sp) end) /\
  s_origin s' = s_origin s /\ s_inf s' = s_inf s /\ s_sdr s' = s_sdr s /\ s_inv s' = s_inv s /\ s_kind s' = k.
Proof. exact span_ok. Qed.
Print Assumptions C54_span.
(** An infimum is kept within its range and does not change the span, except for the polar angle of
    a sphere, which must end at pi. *)
Theorem C54_infimum : forall k s o dir, reach k s ->
  let s' := setInfLimits s o dir in
  (forall i, (i < 3)%nat -> Z.of_nat i <> dir -> vent (s_inf s') i = vent (s_inf s) i) /\
  (forall i, (i < 3)%nat -> (i < 2)%nat \/ k <> SPHERE \/ dir <> 2%Z -> vent (getSpan s') i = vent (getSpan s) i) /\
  (k = SPHERE -> vz (getSpan s') <= vz (getSpan s) /\ vz (s_inf s') + vz (getSpan s') <= PI) /\
  (k = CYLINDER \/ k = SPHERE -> dir = 0%Z -> vx (s_inf s') = Rmax 0 o) /\
  (k = CYLINDER \/ k = SPHERE -> dir = 1%Z -> 0 <= o <= 2 * PI -> vy (s_inf s') = o) /\
  (k = CUBE \/ k = WEDGE -> s' = s).
Proof. exact infimum_ok. Qed.
Print Assumptions C54_infimum.
(** The azimuth stays periodic when the span is reduced below the whole turn. *)
Theorem C54_periodic_refuted : exists s, reach CYLINDER s /\ solid s /\ vy (getSpan s) < 2 * PI /\ s_ct1 s = PERIODIC.
Proof.
  exists sector. split; [exact sector_reach|]. split; [exact sector_solid|]. split; [|reflexivity].
  pose proof pi_big. cbn. lra.
Qed.
Print Assumptions C54_periodic_refuted.
Example C54_nonvacuous : reach CYLINDER marked /\ vy (s_inf marked) = 1 /\ vy (getSpan marked) = / 2.
Proof. split; [exact marked_reach|]. split; [reflexivity|]. cbn. lra. Qed.
