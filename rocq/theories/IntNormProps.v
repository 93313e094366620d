(** Properties of the normals of interfaces. *)
From Coq Require Import Reals Lra ZArith.
From Verif Require Import Vec IntNorm IntNormSpec.
Open Scope R_scope.

Lemma swap_cross : forall e m v, dot (cross e m) v = - dot (cross e v) m.
Proof. intros [ex ey ez] [mx my mz] [x y z]. unfold dot, cross. cbn. ring. Qed.
Lemma along : forall u v n m, dot n n = 1 -> dot n u = 0 -> dot n v = 0 ->
  dot (cross u v) m = dot (cross u v) n * dot n m.
Proof.
  intros [ux uy uz] [x y z] [nx ny nz] [mx my mz] H1 H2 H3. unfold dot, cross in *. cbn in *.
  set (wx := uy * z - uz * y). set (wy := uz * x - ux * z). set (wz := ux * y - uy * x).
  assert (Kz : wx * ny - wy * nx = z * (nx * ux + ny * uy + nz * uz) - uz * (nx * x + ny * y + nz * z)) by (unfold wx, wy; ring).
  assert (Ky : wz * nx - wx * nz = y * (nx * ux + ny * uy + nz * uz) - uy * (nx * x + ny * y + nz * z)) by (unfold wx, wz; ring).
  assert (Kx : wy * nz - wz * ny = x * (nx * ux + ny * uy + nz * uz) - ux * (nx * x + ny * y + nz * z)) by (unfold wy, wz; ring).
  rewrite H2, H3 in Kx, Ky, Kz.
  set (l := wx * nx + wy * ny + wz * nz) in *.
  assert (Wx : wx = l * nx). { replace wx with (wx * (nx * nx + ny * ny + nz * nz)) by (rewrite H1; ring).
    replace (wx * (nx * nx + ny * ny + nz * nz)) with (l * nx + (ny * (wx * ny - wy * nx) - nz * (wz * nx - wx * nz))) by (unfold l; ring). rewrite Ky, Kz. ring. }
  assert (Wy : wy = l * ny). { replace wy with (wy * (nx * nx + ny * ny + nz * nz)) by (rewrite H1; ring).
    replace (wy * (nx * nx + ny * ny + nz * nz)) with (l * ny + (nz * (wy * nz - wz * ny) - nx * (wx * ny - wy * nx))) by (unfold l; ring). rewrite Kx, Kz. ring. }
  assert (Wz : wz = l * nz). { replace wz with (wz * (nx * nx + ny * ny + nz * nz)) by (rewrite H1; ring).
    replace (wz * (nx * nx + ny * ny + nz * nz)) with (l * nz + (nx * (wz * nx - wx * nz) - ny * (wy * nz - wz * ny))) by (unfold l; ring). rewrite Kx, Ky. ring. }
  clearbody l wx wy wz. subst wx wy wz. ring.
Qed.
Lemma half_dot : forall n1 n2 m, dot n1 n1 = 1 -> dot n2 n2 = 1 -> half_way n1 n2 m -> 0 < dot n1 m /\ 0 < dot n2 m.
Proof.
  intros n1 n2 m H1 H2 (Hm & k & Hk & E).
  assert (K1 : k * dot n1 m = dot n1 n1 + dot n1 n2).
  { replace (k * dot n1 m) with (dot n1 (vscale k m)) by (unfold dot, vscale; cbn; ring). rewrite E. unfold dot, vadd. cbn. ring. }
  assert (K2 : k * dot n2 m = dot n2 n2 + dot n1 n2).
  { replace (k * dot n2 m) with (dot n2 (vscale k m)) by (unfold dot, vscale; cbn; ring). rewrite E. unfold dot, vadd. cbn. ring. }
  assert (KK : k * k * dot m m = dot n1 n1 + dot n2 n2 + 2 * dot n1 n2).
  { replace (k * k * dot m m) with (dot (vscale k m) (vscale k m)) by (unfold dot, vscale; cbn; ring). rewrite E. unfold dot, vadd. cbn. ring. }
  assert (P : 0 < k * k) by now apply Rmult_lt_0_compat.
  split; (apply Rmult_lt_reg_l with k; [exact Hk |]); rewrite Rmult_0_r; rewrite Hm in KK; lra.
Qed.
Lemma half_orth : forall n1 n2 m e, half_way n1 n2 m -> dot n1 e = 0 -> dot n2 e = 0 -> dot m e = 0.
Proof.
  intros n1 n2 m e (_ & k & Hk & E) H1 H2.
  assert (K : k * dot m e = dot n1 e + dot n2 e).
  { replace (k * dot m e) with (dot (vscale k m) e) by (unfold dot, vscale; cbn; ring). rewrite E. unfold dot, vadd. cbn. ring. }
  rewrite H1, H2 in K. apply Rmult_eq_reg_l with k; lra.
Qed.
Lemma norm_pos_sq : forall v, 0 < norm v -> dot v v = norm v * norm v.
Proof. intros v _. unfold norm. rewrite sqrt_sqrt; [reflexivity |]. unfold dot. pose proof (Rle_0_sqr (vx v)). pose proof (Rle_0_sqr (vy v)). pose proof (Rle_0_sqr (vz v)). unfold Rsqr in *. lra. Qed.
Lemma cross_norm : forall e m, dot m m = 1 -> dot m e = 0 -> norm (cross e m) = norm e.
Proof.
  intros e m H1 H2. unfold norm. f_equal.
  replace (dot (cross e m) (cross e m)) with (dot e e * dot m m - dot m e * dot m e) by (unfold dot, cross; cbn; ring).
  rewrite H1, H2. ring.
Qed.

(** the normal with the interfaces built, on a surface *)
Lemma surface_normal : forall tiny i, 0 <= tiny -> tiny < norm (vsub (i_v1 i) (i_v0 i)) ->
  dot (i_edge_normal i) (i_edge_normal i) = 1 -> dot (i_edge_normal i) (vsub (i_v1 i) (i_v0 i)) = 0 ->
  exists h, 0 < h /\ evalInterfaceNormal tiny true 1 i = vscale h (cross (vsub (i_v1 i) (i_v0 i)) (i_edge_normal i)) /\
    across (i_v0 i) (i_v1 i) (i_edge_normal i) (evalInterfaceNormal tiny true 1 i).
Proof.
  intros tiny i H0 Ht H1 H2. unfold evalInterfaceNormal. cbn [negb Z.eqb Pos.eqb].
  set (e := vsub (i_v1 i) (i_v0 i)) in *. set (m := i_edge_normal i) in *.
  rewrite (cross_norm e m H1 H2). destruct (Rlt_dec tiny (norm e)) as [_ | N]; [| contradiction].
  assert (P : 0 < norm e) by lra.
  exists (/ norm e). split; [now apply Rinv_0_lt_compat |]. split; [reflexivity |]. unfold across. fold e.
  split; [| split].
  - replace (dot (vscale (/ norm e) (cross e m)) (vscale (/ norm e) (cross e m))) with (/ norm e * / norm e * (dot e e * dot m m - dot m e * dot m e))
      by (unfold dot, cross, vscale; cbn; ring).
    rewrite H1, H2, (norm_pos_sq e P). field. lra.
  - unfold dot, vscale, cross. cbn. ring.
  - unfold dot, vscale, cross. cbn. ring.
Qed.
Lemma dot_vscale : forall h u v, dot (vscale h u) v = h * dot u v.
Proof. intros. unfold dot, vscale. cbn. ring. Qed.

(** ** C172 *)
(** an edge between two triangles with the same orientation: the normal is a unit vector across the edge that goes
    from the owner to the neighbour, whatever the angle between them *)
Theorem C172_owner_neighbour : forall tiny i c d n1 n2, 0 <= tiny -> tiny < norm (vsub (i_v1 i) (i_v0 i)) ->
  normal_of (i_v0 i) (i_v1 i) c n1 -> normal_of (i_v1 i) (i_v0 i) d n2 -> half_way n1 n2 (i_edge_normal i) ->
  let r := evalInterfaceNormal tiny true 1 i in
  across (i_v0 i) (i_v1 i) (i_edge_normal i) r /\ away (i_v0 i) c r /\ towards (i_v0 i) d r.
Proof.
  intros tiny i c d n1 n2 H0 Ht (A1 & A2 & A3 & A4) (B1 & B2 & B3 & B4) Hh r.
  set (a := i_v0 i) in *. set (b := i_v1 i) in *. set (m := i_edge_normal i) in *.
  assert (B2' : dot n2 (vsub b a) = 0) by (replace (dot n2 (vsub b a)) with (- dot n2 (vsub a b)) by (unfold dot, vsub; cbn; ring); lra).
  assert (B3' : dot n2 (vsub d a) = 0) by (replace (dot n2 (vsub d a)) with (dot n2 (vsub d b) + dot n2 (vsub b a)) by (unfold dot, vsub; cbn; ring); lra).
  assert (B4' : dot (cross (vsub b a) (vsub d a)) n2 < 0).
  { replace (dot (cross (vsub b a) (vsub d a)) n2) with (- dot (cross (vsub a b) (vsub d b)) n2) by (unfold dot, cross, vsub; cbn; ring). lra. }
  assert (Hm : dot m m = 1) by (destruct Hh as [Hm _]; exact Hm).
  assert (He : dot m (vsub b a) = 0) by (apply (half_orth n1 n2); assumption).
  destruct (half_dot n1 n2 m A1 B1 Hh) as [P1 P2].
  destruct (surface_normal tiny i H0 Ht Hm He) as (h & Hpos & E & Ha). fold a b m in E, Ha.
  split; [exact Ha |]. unfold away, towards, r. rewrite E, !dot_vscale, (swap_cross _ m (vsub c a)), (swap_cross _ m (vsub d a)).
  rewrite (along (vsub b a) (vsub c a) n1 m A1 A2 A3), (along (vsub b a) (vsub d a) n2 m B1 B2' B3').
  split.
  - assert (Q : 0 < h * (dot (cross (vsub b a) (vsub c a)) n1 * dot n1 m)) by (repeat apply Rmult_lt_0_compat; assumption). lra.
  - assert (Q : 0 < h * (- dot (cross (vsub b a) (vsub d a)) n2 * dot n2 m)) by (repeat apply Rmult_lt_0_compat; try assumption; lra). lra.
Qed.

(** an edge of the border: out of the owner, in its plane *)
Theorem C172_border : forall tiny i c n, 0 <= tiny -> tiny < norm (vsub (i_v1 i) (i_v0 i)) ->
  normal_of (i_v0 i) (i_v1 i) c n -> i_edge_normal i = n ->
  let r := evalInterfaceNormal tiny true 1 i in across (i_v0 i) (i_v1 i) n r /\ away (i_v0 i) c r.
Proof.
  intros tiny i c n H0 Ht (A1 & A2 & A3 & A4) En r.
  destruct (surface_normal tiny i H0 Ht) as (h & Hpos & E & Ha); rewrite En in *; try assumption.
  split; [exact Ha |]. unfold away, r. rewrite E, dot_vscale, swap_cross.
  assert (Q : 0 < h * dot (cross (vsub (i_v1 i) (i_v0 i)) (vsub c (i_v0 i))) n) by now apply Rmult_lt_0_compat. lra.
Qed.

(** volumes: what bitpit gives for the face; other meshes, or interfaces not built: zero *)
Theorem C172_others : forall tiny type i,
  evalInterfaceNormal tiny true 2 i = i_face_normal i /\ evalInterfaceArea true 2 i = i_face_area i /\
  evalInterfaceArea true 1 i = i_edge_length i /\
  evalInterfaceNormal tiny false type i = vzero /\ evalInterfaceArea false type i = 0 /\
  (type <> 1%Z -> type <> 2%Z -> evalInterfaceNormal tiny true type i = vzero /\ evalInterfaceArea true type i = 0).
Proof.
  intros tiny type i. do 5 (split; [reflexivity |]). intros N1 N2. unfold evalInterfaceNormal, evalInterfaceArea. cbn [negb].
  apply Z.eqb_neq in N1, N2. rewrite N1, N2. now split.
Qed.

(** two triangles at a right angle; the neighbour in the given orientation or in the other *)
Definition edge_a : vec := V3 0 0 0.
Definition edge_b : vec := V3 1 0 0.
Definition own_c : vec := V3 0 1 0.
Definition far_d : vec := V3 0 0 (-1).
Definition s2 : R := / sqrt 2.
Lemma s2_sq : s2 * s2 = / 2.
Proof. unfold s2. rewrite <- Rinv_mult. rewrite sqrt_sqrt; lra. Qed.
Lemma s2_pos : 0 < s2. Proof. unfold s2. apply Rinv_0_lt_compat. apply sqrt_lt_R0. lra. Qed.
Definition the_interface (m : vec) : interface := Interface edge_a edge_b m 1 vzero 0.
Lemma edge_len : norm (vsub edge_b edge_a) = 1.
Proof. unfold norm, dot, vsub, edge_a, edge_b. cbn. replace ((1 - 0) * (1 - 0) + (0 - 0) * (0 - 0) + (0 - 0) * (0 - 0)) with 1 by ring. apply sqrt_1. Qed.
Lemma half_of : forall n1 n2 m, vscale s2 (vadd n1 n2) = m -> dot m m = 1 -> half_way n1 n2 m.
Proof.
  intros n1 n2 m E Hm. split; [exact Hm |]. exists (/ s2). pose proof s2_pos. split; [now apply Rinv_0_lt_compat |].
  rewrite <- E. unfold vscale, vadd. cbn. f_equal; field; lra.
Qed.

(** with a neighbour of the other orientation the normal does not go from the owner to the neighbour *)
Theorem C172_orientation_refuted : ~ (forall tiny i c d n1 n2, 0 <= tiny -> tiny < norm (vsub (i_v1 i) (i_v0 i)) ->
  normal_of (i_v0 i) (i_v1 i) c n1 -> normal_of (i_v0 i) (i_v1 i) d n2 -> half_way n1 n2 (i_edge_normal i) ->
  towards (i_v0 i) d (evalInterfaceNormal tiny true 1 i)).
Proof.
  intros H. pose proof s2_sq as Q. pose proof s2_pos as P.
  set (m := V3 0 s2 s2).
  assert (Hm : dot m m = 1) by (unfold m, dot; cbn; lra).
  specialize (H 0 (the_interface m) own_c far_d (V3 0 0 1) (V3 0 1 0)). cbn [i_v0 i_v1 i_edge_normal the_interface] in H.
  rewrite edge_len in H.
  assert (Hh : half_way (V3 0 0 1) (V3 0 1 0) m).
  { apply half_of; [| exact Hm]. unfold m, vscale, vadd. cbn. f_equal; ring. }
  assert (T : towards edge_a far_d (evalInterfaceNormal 0 true 1 (the_interface m))).
  { apply H; try lra; try exact Hh; unfold normal_of, dot, cross, vsub, edge_a, edge_b, own_c, far_d; cbn; repeat split; lra. }
  destruct (surface_normal 0 (the_interface m)) as (h & Hpos & E & _).
  - lra.
  - cbn [i_v0 i_v1 the_interface]. rewrite edge_len. lra.
  - exact Hm.
  - unfold dot, vsub, the_interface, m, edge_a, edge_b. cbn. ring.
  - unfold towards in T. rewrite E, dot_vscale in T. unfold the_interface, m, dot, cross, vsub, edge_a, edge_b, far_d in T. cbn in T.
    assert (h * s2 > 0) by now apply Rmult_lt_0_compat.
    lra.
Qed.

Example C172_nonvacuous : exists i c d n1 n2, 0 < norm (vsub (i_v1 i) (i_v0 i)) /\
  normal_of (i_v0 i) (i_v1 i) c n1 /\ normal_of (i_v1 i) (i_v0 i) d n2 /\ half_way n1 n2 (i_edge_normal i).
Proof.
  pose proof s2_sq as Q. pose proof s2_pos as P.
  exists (the_interface (V3 0 (- s2) s2)), own_c, far_d, (V3 0 0 1), (V3 0 (-1) 0).
  cbn [i_v0 i_v1 i_edge_normal the_interface]. rewrite edge_len. split; [lra |].
  split; [unfold normal_of, dot, cross, vsub, edge_a, edge_b, own_c; cbn; repeat split; lra |].
  split; [unfold normal_of, dot, cross, vsub, edge_a, edge_b, far_d; cbn; repeat split; lra |].
  apply half_of; [unfold vscale, vadd; cbn; f_equal; ring | unfold dot; cbn; lra].
Qed.

Print Assumptions C172_owner_neighbour.
Print Assumptions C172_border.
Print Assumptions C172_others.
Print Assumptions C172_orientation_refuted.
