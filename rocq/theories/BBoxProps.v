(** C107: boxes around geometries. *)
From Coq Require Import Reals List Arith ZArith Bool Lra Lia Psatz Permutation.
From Verif Require Import Vec Shape ShapeSpec ShapeProofs Specular SpecularProofs BBox BBoxSpec BBoxProofs.
Import ListNotations.
Open Scope R_scope.

(** Every vertex of every geometry, on every process, is between the planes of the box of AABBox, whichever
    axes were given. *)
Theorem C107_contains : forall b w b' x, aabb_execute b w = Some b' -> is_point w x -> between b' x.
Proof.
  intros b w b' x H P. unfold aabb_execute in H. destruct (no_geometry w) eqn:N; [|apply (box_between _ _ _ _ H P)].
  exfalso. destruct P as (gs & g & H1 & H2 & _). unfold no_geometry in N. rewrite forallb_forall in N. specialize (N gs H1). destruct gs; [destruct H2|discriminate].
Qed.
Print Assumptions C107_contains.

(** Axes that are not null and are normal one to the other: the frame of the box has their directions, it is
    orthonormal and right-handed, and each vertex is reached from the origin by at most half a span along
    each axis. *)
Theorem C107_axes : forall b w b', no_geometry w = false -> aabb_execute b w = Some b' ->
  (2 * dmin <= norm (row0 (b_axes b)) /\ 2 * dmin <= norm (row1 (b_axes b))) -> dot (row0 (b_axes b)) (row1 (b_axes b)) = 0 ->
  direction (row0 (b_axes b')) (row0 (b_axes b)) /\ direction (row1 (b_axes b')) (row1 (b_axes b)) /\ orthonormal (b_axes b') /\ right_handed (b_axes b') /\
  forall x, is_point w x -> in_box b' x.
Proof.
  intros b w b' N H [A B] D. pose proof dmin_pos as M. unfold aabb_execute in H. rewrite N in H. pose proof (box_along_eq _ _ _ H) as (_ & E & _).
  assert (U : user_axes (b_axes b) = M3 (vscale (/ norm (row0 (b_axes b))) (row0 (b_axes b))) (vscale (/ norm (row1 (b_axes b))) (row1 (b_axes b))) (cross (vscale (/ norm (row0 (b_axes b))) (row0 (b_axes b))) (vscale (/ norm (row1 (b_axes b))) (row1 (b_axes b))))).
  { unfold user_axes. destruct (Rlt_dec dmin (norm (row0 (b_axes b)))) as [L|L]; [|lra]. destruct (Rlt_dec dmin (norm (row1 (b_axes b)))) as [L'|L']; [|lra]. reflexivity. }
  rewrite U in E. destruct (b_axes b) as [p q r]. cbn [row0 row1 row2] in *.
  destruct (cross_frame (vscale (/ norm p) p) (vscale (/ norm q) q)) as [O L]; [apply scaled_dot; lra|apply scaled_dot; lra|transitivity (/ norm p * / norm q * dot p q); [unfold dot, vscale; cbn; ring|rewrite D; ring]|].
  rewrite E. cbn [row0 row1]. split; [|split; [|split; [exact O|split; [exact L|]]]].
  - exists (/ norm p). split; [apply Rinv_0_lt_compat; lra|]. intros i Hi. three Hi; reflexivity.
  - exists (/ norm q). split; [apply Rinv_0_lt_compat; lra|]. intros i Hi. three Hi; reflexivity.
  - intros x P. apply between_in; [rewrite E; exact O|]. apply (box_between _ _ _ _ H P).
Qed.
Print Assumptions C107_axes.

(** The box is not larger than needed: on both faces normal to each axis there is a vertex, unless the span
    along that axis was raised to a ten thousandth of the mean span. *)
Theorem C107_tight : forall b w b' x, aabb_execute b w = Some b' -> is_point w x -> representable (b_axes b') w -> forall i, (i < 3)%nat ->
  touched b' w i \/ vent (b_span b') i <= / 10 ^ 4 * (sum3 (vent (b_span b')) / 3).
Proof.
  intros b w b' x H P Rp. unfold aabb_execute in H. destruct (no_geometry w) eqn:N.
  - exfalso. destruct P as (gs & g & H1 & H2 & _). unfold no_geometry in N. rewrite forallb_forall in N. specialize (N gs H1). destruct gs; [destruct H2|discriminate].
  - pose proof (box_along_eq _ _ _ H) as (_ & E & _). rewrite E in Rp. apply (box_touched _ _ _ x H P Rp).
Qed.
Print Assumptions C107_tight.

(** Executing again changes nothing. *)
Theorem C107_again : forall b w b', aabb_execute b w = Some b' -> aabb_execute b' w = Some b'.
Proof.
  intros b w b' H. pose proof dmin_pos as M. pose proof dmin_small as M1. unfold aabb_execute in *. destruct (no_geometry w) eqn:N; [injection H as <-; reflexivity|].
  pose proof (box_along_eq _ _ _ H) as (_ & E & _). rewrite E. replace (user_axes (user_axes (b_axes b))) with (user_axes (b_axes b)); [exact H|].
  assert (K : forall p q, dot p p = 1 -> dot q q = 1 -> M3 p q (cross p q) = user_axes (M3 p q (cross p q))).
  { intros p q P Q. unfold user_axes. cbn [row0 row1]. assert (NP : norm p = 1) by (unfold norm; rewrite P; apply sqrt_1). assert (NQ : norm q = 1) by (unfold norm; rewrite Q; apply sqrt_1). rewrite NP, NQ.
    destruct (Rlt_dec dmin 1); [|contradiction]. assert (V : forall v, vscale (/ 1) v = v) by (intros [x y z]; unfold vscale; cbn; f_equal; field). rewrite !V. reflexivity. }
  unfold user_axes at 1 3. destruct (Rlt_dec dmin (norm (row0 (b_axes b)))) as [L|L]; [destruct (Rlt_dec dmin (norm (row1 (b_axes b)))) as [L'|L']|]; apply K; try (apply scaled_dot; lra); unfold dot; cbn; ring.
Qed.
Print Assumptions C107_again.

(** OBBox: whichever strategy, the frame is orthonormal and right-handed, each vertex is in the box, and the
    box is as small as its axes allow.  LAPACK is assumed to be right. *)
Theorem C107_oriented : forall dsyev s junk w b, (forall c, covariance junk w = Some c -> eigen_right dsyev c) -> no_geometry w = false -> obb_execute dsyev s junk w = Some b ->
  orthonormal (b_axes b) /\ right_handed (b_axes b) /\ (forall x, is_point w x -> in_box b x) /\
  (forall x i, is_point w x -> representable (b_axes b) w -> (i < 3)%nat -> touched b w i \/ vent (b_span b) i <= / 10 ^ 4 * (sum3 (vent (b_span b)) / 3)).
Proof.
  intros dsyev s junk w b E N H. assert (K : exists m, orthonormal m /\ leibniz m = 1 /\ box_along m w = Some b).
  { unfold obb_execute in H. rewrite N in H. assert (C : exists m, orthonormal m /\ leibniz m = 1 /\ box_along m w = Some (computeAABB w)) by (exists canonical; split; [|split]; [apply canonical_ortho|apply canonical_ortho|apply aabb_is_along]).
    destruct s.
    - apply (obb_is_along dsyev junk w b E H).
    - injection H as <-. exact C.
    - destruct (computeOBB dsyev junk w) as [b0|] eqn:O; [|discriminate]. destruct (Rlt_dec (volume b0) (volume (computeAABB w))); injection H as <-; [apply (obb_is_along dsyev junk w b0 E O)|exact C]. }
  destruct K as (m & O & L & B). pose proof (box_along_eq _ _ _ B) as (_ & A & _). rewrite A. repeat split.
  - exact O.
  - exact L.
  - intros x P. apply between_in; [rewrite A; exact O|]. apply (box_between _ _ _ _ B P).
  - intros x i P Rp Hi. apply (box_touched _ _ _ x B P Rp i Hi).
Qed.
Print Assumptions C107_oriented.

(** The smallest of the two boxes. *)
Definition bulk (b : box) : R := vent (b_span b) 0 * vent (b_span b) 1 * vent (b_span b) 2.
Theorem C107_smallest : forall dsyev junk w b o a, obb_execute dsyev MINVOL junk w = Some b -> obb_execute dsyev OBB junk w = Some o -> obb_execute dsyev AABB junk w = Some a ->
  bulk b <= bulk o /\ bulk b <= bulk a /\ (b = o \/ b = a).
Proof.
  intros dsyev junk w b o a. unfold obb_execute. destruct (no_geometry w).
  - intros H1 H2 H3. injection H1 as <-. injection H2 as <-. injection H3 as <-. repeat split; try lra. left. reflexivity.
  - intros H H2 H3. rewrite H2 in H. injection H3 as <-. change volume with bulk in H. destruct (Rlt_dec (bulk o) (bulk (computeAABB w))); injection H as <-; repeat split; try lra; [left|right]; reflexivity.
Qed.
Print Assumptions C107_smallest.

(** The integers of the strategies are brought within their range. *)
Theorem C107_strategy : forall z, setOBBStrategyInt z = if (z <=? 0)%Z then OBB else if (z =? 1)%Z then AABB else MINVOL.
Proof.
  intros z. unfold setOBBStrategyInt. destruct (Z.leb_spec z 0) as [A|A]; [rewrite (Z.max_r z 0) by lia; reflexivity|]. rewrite (Z.max_l z 0) by lia. destruct (Z.eqb_spec z 1) as [B|B]; [subst z; reflexivity|]. rewrite (Z.min_l 2 z) by lia. reflexivity.
Qed.
Print Assumptions C107_strategy.

(** The first axis is a direction of greatest variance, and the third of least, for the matrix computed (up to
    the smallest positive double, the tolerance for equal eigenvalues). *)
Theorem C107_main_axis : forall dsyev junk w b c v, eigen_right dsyev c -> computeOBB dsyev junk w = Some b -> covariance junk w = Some c -> length_one v ->
  variance c v <= variance c (row0 (b_axes b)) + dmin /\ variance c (row2 (b_axes b)) <= variance c v + dmin.
Proof.
  intros dsyev junk w b c v E H C V. pose proof dmin_pos as M. pose proof (eigen_frame dsyev c E) as O. unfold computeOBB in H. rewrite C in H.
  destruct E as (_ & Or & Ei). unfold eigenVectors in *. destruct (dsyev c) as [e l]. cbn [fst snd] in *. set (e' := M3 (row2 e) (row1 e) (row0 e)) in *. set (l' := V3 (vz l) (vy l) (vx l)) in *.
  assert (Ei' : forall i k, (i < 3)%nat -> (k < 3)%nat -> sum3 (fun j => ment c k j * ment e' i j) = vent l' i * ment e' i k).
  { intros i k Hi Hk. three Hi; [apply (Ei 2%nat k)|apply (Ei 1%nat k)|apply (Ei 0%nat k)]; lia. }
  assert (Or' : vz l' <= vy l' <= vx l') by (cbn; lra).
  pose proof (box_along_eq _ _ _ H) as (_ & A & _). rewrite A.
  pose proof (variance_bounds c e' l' v O Ei' Or' V) as Bv.
  destruct (adjust_shape e' l' O) as [[T AE]|(_ & _ & _ & s & t & Hs & Ht & AE)]; rewrite AE.
  - assert (X0 : length_one (row0 canonical)) by (unfold length_one, sum3; cbn; ring). assert (X2 : length_one (row2 canonical)) by (unfold length_one, sum3; cbn; ring).
    pose proof (variance_bounds c e' l' _ O Ei' Or' X0). pose proof (variance_bounds c e' l' _ O Ei' Or' X2).
    apply andb_prop in T. destruct T as [_ T]. unfold near in T. destruct (Rle_dec (Rabs (vx l' - vz l')) dmin) as [Q|Q]; [|discriminate]. unfold Rabs in Q. destruct (Rcase_abs (vx l' - vz l')); lra.
  - cbn [row0 row2]. assert (V1 : forall u, u = vscale 1 u) by (intros [x y z]; unfold vscale; cbn; f_equal; ring).
    assert (B0 : variance c (row0 e') = vx l') by (rewrite (V1 (row0 e')); apply (variance_axis c e' l' 0 1 O Ei'); [lia|left; reflexivity]).
    assert (B2 : variance c (vscale t (row2 e')) = vz l') by (apply (variance_axis c e' l' 2 t O Ei'); [lia|exact Ht]). rewrite B0, B2. lra.
Qed.
Print Assumptions C107_main_axis.

(** For surfaces the matrix is the covariance of the points of the surface itself (the integral over its
    triangles, not a sum over its vertices), whatever the tessellation and the partition. *)
Theorem C107_surface : forall junk w c, surfaces_only w -> covariance junk w = Some c -> forall j k, (j < 3)%nat -> (k < 3)%nat ->
  ment c j k = surface_mean (fun x => (vent x j - surface_mean (fun y => vent y j) w) * (vent x k - surface_mean (fun y => vent y k) w)) w.
Proof.
  intros junk w c So H j k Hj Hk. unfold covariance in H. replace (existsb (existsb g_cloud) w) with false in H.
  - destruct (Req_EM_T (tri_sum tri_area w) 0) as [A|A]; [discriminate|]. injection H as <-. rewrite <- (tri_cov_right w j k Hj Hk A).
    assert (Y : forall j k, tri_cov w j k = tri_cov w k j) by (intros j0 k0; unfold tri_cov; rewrite !tri_sum_eq; replace (map (tri_moment j0 k0) (all_triangles w)) with (map (tri_moment k0 j0) (all_triangles w)) by (apply map_ext; intros [[p q] r]; unfold tri_moment; field); ring).
    three Hj; three Hk; try reflexivity; cbn [sym ment vent row0 row1 row2 vx vy vz]; apply Y.
  - symmetry. apply not_true_iff_false. intros T. apply existsb_exists in T. destruct T as (gs & I & T). apply existsb_exists in T. destruct T as (g & I' & T). rewrite (So gs g I I') in T. discriminate.
Qed.
Print Assumptions C107_surface.

(** Cutting a triangle in two, or moving triangles from a geometry or a process to another, changes nothing. *)
Theorem C107_tessellation : forall junk w w' p q r t l, surfaces_only w -> surfaces_only w' -> 0 <= t <= 1 ->
  Permutation (all_triangles w) ((p, q, r) :: l) ->
  (Permutation (all_triangles w') ((p, q, r) :: l) \/
   Permutation (all_triangles w') ((p, q, vadd q (vscale t (vsub r q))) :: (p, vadd q (vscale t (vsub r q)), r) :: l)) ->
  covariance junk w' = covariance junk w.
Proof.
  intros junk w w' p q r t l So So' T P P'.
  assert (K : forall w, surfaces_only w -> existsb (existsb g_cloud) w = false).
  { intros w0 So0. apply not_true_iff_false. intros Q. apply existsb_exists in Q. destruct Q as (gs & I & Q). apply existsb_exists in Q. destruct Q as (g & I' & Q). rewrite (So0 gs g I I') in Q. discriminate. }
  set (s := vadd q (vscale t (vsub r q))) in *.
  assert (A1 : tri_area (p, q, s) = t * tri_area (p, q, r)).
  { unfold tri_area. replace (cross (vsub q p) (vsub s p)) with (vscale t (cross (vsub q p) (vsub r p))) by (unfold s; destruct p, q, r; unfold cross, vsub, vscale, vadd; cbn; f_equal; ring).
    rewrite norm_scale_pos by lra. ring. }
  assert (A2 : tri_area (p, s, r) = (1 - t) * tri_area (p, q, r)).
  { unfold tri_area. replace (cross (vsub s p) (vsub r p)) with (vscale (1 - t) (cross (vsub q p) (vsub r p))) by (unfold s; destruct p, q, r; unfold cross, vsub, vscale, vadd; cbn; f_equal; ring).
    rewrite norm_scale_pos by lra. ring. }
  assert (F : forall f, f (p, q, s) + f (p, s, r) = f (p, q, r) -> tri_sum f w' = tri_sum f w).
  { intros f E. rewrite !tri_sum_eq, (sum_perm _ _ (Permutation_map f P)). destruct P' as [P'|P']; rewrite (sum_perm _ _ (Permutation_map f P')); [reflexivity|]. cbn [map]. rewrite !sum_cons. lra. }
  assert (C : forall i, coord i s = coord i q + t * (coord i r - coord i q)) by (intros [|[|i]]; reflexivity).
  assert (FA : tri_sum tri_area w' = tri_sum tri_area w) by (apply F; rewrite A1, A2; ring).
  assert (FM : forall i, tri_sum (fun x => tri_area x * tri_mid x i) w' = tri_sum (fun x => tri_area x * tri_mid x i) w).
  { intros i. apply F. rewrite A1, A2. unfold tri_mid. rewrite C. field. }
  assert (FP : forall j k, tri_sum (tri_moment j k) w' = tri_sum (tri_moment j k) w).
  { intros j k. apply F. unfold tri_moment. rewrite A1, A2. unfold tri_mid. rewrite !C. field. }
  unfold covariance. rewrite (K w So), (K w' So'), FA. destruct (Req_EM_T (tri_sum tri_area w) 0); [reflexivity|]. f_equal. unfold sym, tri_cov. rewrite FA, !FM, !FP. reflexivity.
Qed.
Print Assumptions C107_tessellation.

(** Clouds of points: the covariance of the points, for one geometry and memory that happens to be zero.
    Missing: more geometries and memory not initialised, both refuted below. *)
Theorem C107_points_partial : forall w c, (exists gs g, In gs w /\ In g gs /\ g_cloud g = true) -> (forall gs, In gs w -> (length gs <= 1)%nat) -> covariance 0 w = Some c ->
  forall j k, (j < 3)%nat -> (k < 3)%nat -> ment c j k = spread (all_points w) j k.
Proof.
  intros w c (gs & g & I1 & I2 & G) L H j k Hj Hk. unfold covariance in H. replace (existsb (existsb g_cloud) w) with true in H.
  - destruct (Req_EM_T (count w) 0); [discriminate|]. injection H as <-. rewrite <- (point_cov_right w j k L).
    assert (Y : forall j k, point_cov 0 w j k = point_cov 0 w k j) by (intros j0 k0; rewrite !(point_cov_right w _ _ L); unfold spread; f_equal; apply map_ext; intros; ring).
    three Hj; three Hk; try reflexivity; cbn [sym ment vent row0 row1 row2 vx vy vz]; apply Y.
  - symmetry. apply existsb_exists. exists gs. split; [exact I1|]. apply existsb_exists. exists g. auto.
Qed.
Print Assumptions C107_points_partial.

Definition across : geo := Geo true [V3 1 0 0; V3 (-1) 0 0] [].
Definition upright : geo := Geo true [V3 0 1 0; V3 0 (-1) 0] [].
(** With two clouds the points of the first are counted twice: the matrix is not the covariance, and depends on
    the order of the geometries, which is that of the addresses in memory. *)
Theorem C107_several_refuted : exists w w' c c', covariance 0 w = Some c /\ covariance 0 w' = Some c' /\
  Permutation (all_points w) (all_points w') /\ ment c 0 0 <> spread (all_points w) 0 0 /\ ment c 0 0 <> ment c' 0 0.
Proof.
  exists [[across; upright]], [[upright; across]]. unfold covariance. cbn [existsb across upright g_cloud orb].
  assert (N : count [[across; upright]] <> 0) by (unfold count; cbn; lra). assert (N' : count [[upright; across]] <> 0) by (unfold count; cbn; lra).
  destruct (Req_EM_T (count [[across; upright]]) 0); [contradiction|]. destruct (Req_EM_T (count [[upright; across]]) 0); [contradiction|].
  eexists. eexists. split; [reflexivity|split; [reflexivity|split; [|split]]].
  - cbn. apply (Permutation_app_comm [V3 1 0 0; V3 (-1) 0 0] [V3 0 1 0; V3 0 (-1) 0]).
  - cbn. unfold point_cov, local_cov, mass_center, sum_over, count, spread, mean, sum_list. cbn. lra.
  - cbn. unfold point_cov, local_cov, mass_center, sum_over, count. cbn. lra.
Qed.
Print Assumptions C107_several_refuted.

(** The matrix starts from whatever is in memory. *)
Theorem C107_memory_refuted : exists w c c', covariance 0 w = Some c /\ covariance 1 w = Some c' /\ ment c 0 0 <> ment c' 0 0.
Proof.
  exists [[across]]. unfold covariance. cbn [existsb across g_cloud orb]. assert (N : count [[across]] <> 0) by (unfold count; cbn; lra). destruct (Req_EM_T (count [[across]]) 0); [contradiction|].
  eexists. eexists. split; [reflexivity|split; [reflexivity|]]. cbn. unfold point_cov, local_cov, mass_center, sum_over, count. cbn. lra.
Qed.
Print Assumptions C107_memory_refuted.

(** Axes not normal one to the other: the box, as a reference system with its spans, leaves vertices out. *)
Theorem C107_slanted_refuted : exists b w b' x, dmin < norm (row0 (b_axes b)) /\ dmin < norm (row1 (b_axes b)) /\ aabb_execute b w = Some b' /\ is_point w x /\ ~ in_box b' x.
Proof.
  set (p := V3 1 0 0). set (q := V3 (3 / 5) (4 / 5) 0). set (w := [[Geo true [V3 0 1 0; V3 0 (-1) 0] []]]).
  assert (NN : forall v, dot v v = 1 -> norm v = 1) by (intros v H; unfold norm; rewrite H; apply sqrt_1).
  assert (NP : norm p = 1) by (apply NN; unfold dot, p; cbn; ring). assert (NQ : norm q = 1) by (apply NN; unfold dot, q; cbn; field).
  pose proof dmin_small as M. assert (U : user_axes (M3 p q p) = M3 p q (V3 0 0 (4 / 5))).
  { unfold user_axes. cbn [row0 row1]. rewrite NP, NQ. destruct (Rlt_dec dmin 1); [|contradiction]. unfold p, q, vscale, cross. cbn. f_equal; f_equal; field. }
  assert (K : is_point w (V3 0 1 0)) by (exists [Geo true [V3 0 1 0; V3 0 (-1) 0] []], (Geo true [V3 0 1 0; V3 0 (-1) 0] []); cbn; auto).
  assert (D : 1 < dmax) by (unfold dmax; assert (1 <= 2 ^ 1023) by (apply pow_R1_Rle; lra); assert (/ 2 ^ 52 < / 1) by (apply Rinv_lt_contravar; [rewrite Rmult_1_l; apply pow_lt; lra|apply Rlt_pow_R1; [lra|lia]]); rewrite Rinv_1 in *; nra).
  assert (AL : along (M3 p q (V3 0 0 (4 / 5))) w = (V3 0 (- (4 / 5)) 0, V3 0 (4 / 5) 0)).
  { unfold along. rewrite !least_eq, !greatest_eq. cbn [w all_points map concat g_points app fold_left row0 row1 row2]. unfold dot, p, q. cbn [vx vy vz].
    f_equal; f_equal; unfold Rmin, Rmax; repeat (match goal with |- context [Rle_dec ?a ?b] => lazymatch a with context [Rle_dec] => fail | _ => lazymatch b with context [Rle_dec] => fail | _ => destruct (Rle_dec a b) end end end); lra. }
  destruct (box_along (user_axes (M3 p q p)) w) as [b'|] eqn:B.
  - exists (setAxes (M3 p q p) aabb_new), w, b', (V3 0 1 0). cbn [b_axes setAxes row0 row1]. rewrite NP, NQ. repeat split; [lra|lra|exact B|exact K|]. intros (c & C1 & C2).
    pose proof (box_along_eq _ _ _ B) as (_ & A & Sp & O). rewrite U in *. rewrite AL in *. cbn [fst snd] in *. rewrite Sp in C1. rewrite A in C2.
    pose proof (C1 1%nat ltac:(lia)) as C11. pose proof (C2 1%nat ltac:(lia)) as C21. cbn [row1] in *.
    assert (OY : vy (b_origin b') = 0). { unfold dots, vscale, vadd, dot, p, q in O. cbn in O. injection O as O1 O2 O3. lra. }
    unfold sum3, ment, vent, p, q in C21. cbn [row0 row1 row2 vx vy vz] in C21. rewrite OY in C21.
    assert (X1 : c 1%nat = 5 / 4) by lra. rewrite X1 in C11. rewrite Rabs_right in C11 by lra. unfold widen, vsub, vent in C11. cbn [vx vy vz] in C11. unfold Rmax in C11. destruct (Rle_dec _ _) in C11; [|lra].
    assert (/ 10 ^ 4 <= 1) by (rewrite <- Rinv_1; apply Rinv_le_contravar; [lra|apply pow_R1_Rle; lra]). assert (0 < / 10 ^ 4) by (apply Rinv_0_lt_compat; apply pow_lt; lra). lra.
  - exfalso. unfold box_along in B. rewrite U in B. destruct (Req_EM_T (det (M3 p q (V3 0 0 (4 / 5)))) 0) as [Z|Z]; [unfold det, p, q in Z; cbn in Z; lra|]. rewrite AL in B. discriminate.
Qed.
Print Assumptions C107_slanted_refuted.

(** Parallel axes: no box. *)
Theorem C107_parallel_refuted : forall b w k, no_geometry w = false -> dmin < norm (row0 (b_axes b)) -> dmin < norm (row1 (b_axes b)) -> row1 (b_axes b) = vscale k (row0 (b_axes b)) -> aabb_execute b w = None.
Proof.
  intros b w k N A B E. unfold aabb_execute. rewrite N. unfold box_along. destruct (Req_EM_T (det (user_axes (b_axes b))) 0) as [D|D]; [reflexivity|]. exfalso. apply D. unfold user_axes.
  destruct (Rlt_dec dmin (norm (row0 (b_axes b)))); [|contradiction]. destruct (Rlt_dec dmin (norm (row1 (b_axes b)))); [|contradiction]. generalize (/ norm (row1 (b_axes b))). rewrite E. intros j. unfold det, vscale, cross. cbn [row0 row1 row2 vx vy vz]. ring.
Qed.
Print Assumptions C107_parallel_refuted.

(** A geometry without points: negative spans. *)
Theorem C107_empty_refuted : exists w b', no_geometry w = false /\ aabb_execute aabb_new w = Some b' /\ vx (b_span b') < 0.
Proof.
  exists [[Geo true [] []]]. pose proof dmin_small as M. unfold aabb_execute. cbn [no_geometry forallb andb].
  assert (N : forall v, dot v v = 1 -> norm v = 1) by (intros v H; unfold norm; rewrite H; apply sqrt_1).
  assert (U : user_axes (b_axes aabb_new) = canonical).
  { unfold user_axes, aabb_new, canonical. cbn [b_axes row0 row1]. rewrite !N by (unfold dot; cbn; ring). destruct (Rlt_dec dmin 1); [|contradiction]. unfold vscale, cross. cbn. f_equal; f_equal; field. }
  rewrite U, aabb_is_along. eexists. split; [reflexivity|split; [reflexivity|]]. unfold computeAABB. cbn [b_span]. rewrite !least_eq, !greatest_eq. cbn [all_points map concat g_points app fold_left].
  assert (D : 0 < dmax) by (unfold dmax; assert (0 < 2 ^ 1023) by (apply pow_lt; lra); assert (/ 2 ^ 52 < / 1) by (apply Rinv_lt_contravar; [rewrite Rmult_1_l; apply pow_lt; lra|apply Rlt_pow_R1; [lra|lia]]); rewrite Rinv_1 in *; nra).
  assert (T : 0 < / 10 ^ 4) by (apply Rinv_0_lt_compat; apply pow_lt; lra). revert D T. generalize dmax (/ 10 ^ 4). intros d t D T. unfold widen, vsub. cbn [vx vy vz]. apply Rmax_lub_lt; nra.
Qed.
Print Assumptions C107_empty_refuted.

(** A cloud on two processes, axes turned by a right angle; a diagonal matrix and its eigenvectors. *)
Example C107_nonvacuous : exists w b b', no_geometry w = false /\ is_point w (V3 1 2 0) /\ is_point w (V3 3 0 1) /\ dot (row0 (b_axes b)) (row1 (b_axes b)) = 0 /\
  2 * dmin <= norm (row0 (b_axes b)) /\ 2 * dmin <= norm (row1 (b_axes b)) /\ aabb_execute b w = Some b' /\ row0 (b_axes b') = V3 0 1 0.
Proof.
  exists [[Geo true [V3 1 2 0] []]; [Geo true [V3 3 0 1] []]], (setAxes (M3 (V3 0 2 0) (V3 (-2) 0 0) (V3 0 0 0)) aabb_new).
  assert (N0 : norm (V3 0 2 0) = 2) by (unfold norm, dot; cbn; replace (0 * 0 + 2 * 2 + 0 * 0) with (2 * 2) by ring; apply sqrt_square; lra).
  assert (N1 : norm (V3 (-2) 0 0) = 2) by (unfold norm, dot; cbn; replace (-2 * -2 + 0 * 0 + 0 * 0) with (2 * 2) by ring; apply sqrt_square; lra).
  pose proof dmin_small as M. unfold aabb_execute. cbn [no_geometry forallb andb setAxes b_axes row0 row1].
  assert (U : user_axes (M3 (V3 0 2 0) (V3 (-2) 0 0) (V3 0 0 0)) = M3 (V3 0 1 0) (V3 (-1) 0 0) (V3 0 0 1)).
  { unfold user_axes. cbn [row0 row1]. rewrite N0, N1. destruct (Rlt_dec dmin 2); [|lra]. unfold vscale, cross. cbn. f_equal; f_equal; field. }
  rewrite U. unfold box_along. destruct (Req_EM_T (det (M3 (V3 0 1 0) (V3 (-1) 0 0) (V3 0 0 1))) 0) as [Z|Z]; [unfold det in Z; cbn in Z; lra|]. destruct (along _ _) as [lo hi]. eexists.
  split; [reflexivity|]. split; [exists [Geo true [V3 1 2 0] []], (Geo true [V3 1 2 0] []); cbn; auto|]. split; [exists [Geo true [V3 3 0 1] []], (Geo true [V3 3 0 1] []); cbn; auto|].
  split; [unfold dot; cbn; ring|]. rewrite N0, N1. split; [lra|split; [lra|]]. split; [reflexivity|reflexivity].
Qed.
(** the cloud across: LAPACK gives the eigenvectors of its matrix diag(1, 0, 0), in ascending order *)
Example C107_nonvacuous_oriented : exists dsyev w c b, covariance 0 w = Some c /\ eigen_right dsyev c /\ computeOBB dsyev 0 w = Some b /\ row0 (b_axes b) = V3 1 0 0 /\ is_point w (V3 1 0 0).
Proof.
  exists (fun _ => (M3 (V3 0 0 1) (V3 0 1 0) (V3 1 0 0), V3 0 0 1)), [[across]]. pose proof dmin_small as M. pose proof dmin_pos as M0.
  assert (C : covariance 0 [[across]] = Some (M3 (V3 1 0 0) (V3 0 0 0) (V3 0 0 0))).
  { unfold covariance. cbn [existsb across g_cloud orb]. assert (N : count [[across]] <> 0) by (unfold count; cbn; lra). destruct (Req_EM_T (count [[across]]) 0); [contradiction|]. f_equal. unfold sym, point_cov, local_cov, mass_center, sum_over, count, coord. cbn. f_equal; f_equal; field. }
  exists (M3 (V3 1 0 0) (V3 0 0 0) (V3 0 0 0)). unfold computeOBB. rewrite C. unfold eigenVectors. cbn [row0 row1 row2 vx vy vz].
  assert (O : orthonormal (M3 (V3 1 0 0) (V3 0 1 0) (V3 0 0 1))) by apply canonical_ortho.
  destruct (adjust_frame (M3 (V3 1 0 0) (V3 0 1 0) (V3 0 0 1)) (V3 1 0 0) O) as [_ L].
  unfold box_along. destruct (Req_EM_T (det _) 0) as [Z|Z]; [exfalso; rewrite det_leibniz in Z; lra|]. destruct (along _ _) as [lo hi]. eexists. split; [reflexivity|]. split.
  - split; [apply ortho_rows; cbn; unfold dot; cbn; repeat split; ring|]. split; [cbn; lra|]. intros i k Hi Hk. three Hi; three Hk; unfold sum3, ment, vent; cbn; ring.
  - split; [reflexivity|]. split; [|exists [across], across; cbn; auto]. cbn [b_axes].
    destruct (adjust_shape (M3 (V3 1 0 0) (V3 0 1 0) (V3 0 0 1)) (V3 1 0 0) O) as [[_ E]|(_ & _ & _ & s & t & _ & _ & E)]; rewrite E; reflexivity.
Qed.
