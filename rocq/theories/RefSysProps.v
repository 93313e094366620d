(** C106: reference systems rotated and points translated. *)
From Coq Require Import Reals List Lra Lia.
From Verif Require Import Vec Shape ShapeSpec ManipSpec ManipProofs Specular SpecularProofs RefSys.
Open Scope R_scope.

(** the point with coordinates [c] in the frame of origin [o] and axes [m] *)
Definition point_of (o : vec) (m : mat) (c : vec) : vec :=
  V3 (vx o + vx c * vx (row0 m) + vy c * vx (row1 m) + vz c * vx (row2 m))
     (vy o + vx c * vy (row0 m) + vy c * vy (row1 m) + vz c * vy (row2 m))
     (vz o + vx c * vz (row0 m) + vy c * vz (row1 m) + vz c * vz (row2 m)).
(** the object as set by the user, whatever was set before *)
Definition set_rotation (o d : vec) (a : R) (m : mat) (p : vec) (r : rotation) : rotation := rotAxesOrigin p (rotAxes m (rotRotation a (rotAxis o d r))).

Lemma formula_rodrigues : forall d a p, formula d a p = Manip.rodrigues d a p.
Proof. intros d a p. unfold formula, Manip.rodrigues. vring. Qed.
Lemma unit_direction : forall d, dmin < norm d -> unit_or_same d = vscale (/ norm d) d /\ dot (vscale (/ norm d) d) (vscale (/ norm d) d) = 1.
Proof.
  intros d H. pose proof dmin_pos as D. unfold unit_or_same. destruct (Rlt_dec dmin (norm d)) as [_|X]; [|contradiction]. split; [reflexivity|].
  rewrite dot_scale_l, dot_scale_r, <- norm_sq. field. lra.
Qed.

(** Every point attached to the reference system is turned by the angle about the axis: the point with the
    same coordinates in the rotated system is where the rotation takes it.  [u] is the direction with
    length one. *)
Theorem C106_rotated : forall o d a m p r c u, dmin < norm d -> unit_vec u -> d = vscale (norm d) u ->
  let r' := rot_execute (set_rotation o d a m p r) in
  turned o u a (point_of p m c) (point_of (r_rotax_origin r') (r_rotax r') c).
Proof.
  intros o d a m p r c u H U E. cbv zeta. pose proof dmin_pos as D. destruct (unit_direction d H) as [E1 E2].
  assert (Eu : vscale (/ norm d) d = u). { rewrite E at 2. transitivity (vscale (/ norm d * norm d) u); [vring|]. rewrite Rinv_l by lra. vring. }
  assert (Ed : r_direction (set_rotation o d a m p r) = u) by (cbn; rewrite E1; exact Eu).
  pose proof (rodrigues_turned o u U a (point_of p m c)) as T.
  replace (point_of (r_rotax_origin (rot_execute (set_rotation o d a m p r))) (r_rotax (rot_execute (set_rotation o d a m p r))) c) with (vadd (Manip.rodrigues u a (vsub (point_of p m c) o)) o); [exact T|].
  unfold rot_execute. rewrite Ed. cbn [r_rotax r_rotax_origin set_rotation rotAxesOrigin rotAxes rotRotation rotAxis rotDirection rotOrigin r_axes r_axes_origin r_alpha r_origin row0 row1 row2].
  clear. unfold point_of, formula, Manip.rodrigues. unfold dot, cross, vadd, vsub, vscale. apply vec_eq; cbn [vx vy vz row0 row1 row2]; ring.
Qed.
Print Assumptions C106_rotated.

(** Orthonormal axes stay so, and the volume and the orientation of the axes are kept. *)
Theorem C106_frame : forall o d a m p r, dmin < norm d -> let m' := r_rotax (rot_execute (set_rotation o d a m p r)) in
  (forall i j, (i < 3)%nat -> (j < 3)%nat -> axis_dot m' i j = axis_dot m i j) /\ leibniz m' = leibniz m /\ (ShapeSpec.orthonormal m -> ShapeSpec.orthonormal m').
Proof.
  intros o d a m p r H. cbv zeta. destruct (unit_direction d H) as [E1 E2]. set (u := vscale (/ norm d) d) in *.
  set (m' := r_rotax _). assert (Em : m' = M3 (formula u a (row0 m)) (formula u a (row1 m)) (formula u a (row2 m))) by (unfold m'; cbn; rewrite E1; reflexivity). rewrite Em. clear Em m' E1. clearbody u. clear -E2.
  pose proof (sin2_cos2 a) as T. unfold Rsqr in T. set (cs := cos a) in *. set (sn := sin a) in *.
  assert (Dot : forall v w, dot (formula u a v) (formula u a w) = dot v w).
  { intros v w. unfold formula. fold cs sn. rewrite !dot_add_l, !dot_add_r, !dot_scale_l, !dot_scale_r. rewrite E2.
    assert (L : dot (cross u v) (cross u w) = dot v w - dot u v * dot u w).
    { transitivity (dot u u * dot v w - dot u v * dot u w); [vring|rewrite E2; ring]. }
    rewrite L, (dot_sym v u), (dot_sym u (cross u w)), dot_cross_l, dot_cross_l. assert (A : dot v (cross u w) = - dot (cross u v) w) by vring. rewrite A.
    transitivity ((cs * cs + sn * sn) * dot v w + dot u v * dot u w * (1 - cs * cs - sn * sn)); [ring|]. replace (cs * cs + sn * sn) with 1 by lra. replace (1 - cs * cs - sn * sn) with 0 by lra. ring. }
  assert (G : forall i j, (i < 3)%nat -> (j < 3)%nat -> axis_dot (M3 (formula u a (row0 m)) (formula u a (row1 m)) (formula u a (row2 m))) i j = axis_dot m i j).
  { assert (Ad : forall M i j, (i < 3)%nat -> (j < 3)%nat -> axis_dot M i j = dot (match i with 0%nat => row0 M | 1%nat => row1 M | _ => row2 M end) (match j with 0%nat => row0 M | 1%nat => row1 M | _ => row2 M end)).
    { intros M i j Hi Hj. destruct i as [|[|[|i]]]; try lia; destruct j as [|[|[|j]]]; try lia; reflexivity. }
    intros i j Hi Hj. rewrite !Ad by assumption. destruct i as [|[|[|i]]]; try lia; destruct j as [|[|[|j]]]; try lia; cbn [row0 row1 row2]; apply Dot. }
  split; [exact G|]. split; [|intros O i j Hi Hj; rewrite G by assumption; apply O; assumption].
  assert (Lb : forall x y z, leibniz (M3 x y z) = dot (cross x y) z) by (intros x y z; unfold leibniz, ment, vent, dot, cross; cbn [row0 row1 row2 vx vy vz]; ring).
  destruct m as [x y z]. cbn [row0 row1 row2]. rewrite !Lb.
  assert (Cr : cross (formula u a x) (formula u a y) = formula u a (cross x y)).
  { clear Dot G Lb z. unfold formula. fold cs sn. clearbody cs sn. set (k := 1 - cs).
    assert (B1 : cross u (cross u y) = vsub (vscale (dot u y) u) y) by (rewrite bac_cab, E2; vring).
    assert (B2 : cross (cross u x) u = vsub x (vscale (dot u x) u)). { transitivity (vscale (-1) (cross u (cross u x))); [vring|]. rewrite bac_cab, E2. vring. }
    assert (B3 : cross (cross u x) (cross u y) = vscale (dot u (cross x y)) u) by vring.
    assert (B4 : vsub (vscale (dot u x) (cross u y)) (vscale (dot u y) (cross u x)) = vsub (cross x y) (vscale (dot u (cross x y)) u)).
    { transitivity (vscale (-1) (cross u (cross u (cross x y)))); [vring|]. rewrite (bac_cab u u), E2. vring. }
    transitivity (vadd (vadd (vscale (cs * cs) (cross x y)) (vscale (cs * k) (vsub (vscale (dot u x) (cross u y)) (vscale (dot u y) (cross u x)))))
      (vadd (vadd (vscale (cs * sn) (cross u (cross x y))) (vscale (k * sn) (vadd (vscale (dot u x) (cross u (cross u y))) (vscale (dot u y) (cross (cross u x) u))))) (vscale (sn * sn) (cross (cross u x) (cross u y))))); [vring|].
    rewrite B1, B2, B3, B4. replace (sn * sn) with (1 - cs * cs) by lra. unfold k. vring. }
  rewrite Cr. apply Dot.
Qed.
Print Assumptions C106_frame.

(** Executing again changes nothing, and a rotation by [a] followed by one by [b] is the rotation by a + b. *)
Theorem C106_compose : forall o d a b m p r r2, dmin < norm d ->
  let r1 := rot_execute (set_rotation o d a m p r) in
  rot_execute r1 = r1 /\
  let r3 := rot_execute (set_rotation o d b (r_rotax r1) (r_rotax_origin r1) r2) in
  let r4 := rot_execute (set_rotation o d (a + b) m p r2) in
  r_rotax r3 = r_rotax r4 /\ r_rotax_origin r3 = r_rotax_origin r4.
Proof.
  intros o d a b m p r r2 H. cbv zeta. split.
  { unfold rot_execute. cbn [r_axes_origin r_origin r_direction r_alpha r_axes]. set (q := r_axes_origin _). set (w := r_origin _).
    replace (vadd (vadd (vadd q (vscale (-1) w)) w) (vscale (-1) w)) with (vadd q (vscale (-1) w)) by vring. reflexivity. }
  destruct (unit_direction d H) as [E1 E2]. set (u := vscale (/ norm d) d) in *.
  assert (T : forall x, formula u b (formula u a x) = formula u (a + b) x).
  { intros x. rewrite !formula_rodrigues. pose proof (rodrigues_turned vzero u E2 a x) as T1. pose proof (rodrigues_turned vzero u E2 b (vadd (Manip.rodrigues u a (vsub x vzero)) vzero)) as T2.
    pose proof (turned_compose vzero u E2 a b _ _ _ T1 T2) as T3. pose proof (rodrigues_turned vzero u E2 (a + b) x) as T4. pose proof (turned_fun vzero u E2 (a + b) x _ _ T3 T4) as E.
    replace (vsub x vzero) with x in E by vring. assert (Z : forall y, vadd y vzero = y) by (intros y; vring). rewrite !Z in E. replace (vsub (Manip.rodrigues u a x) vzero) with (Manip.rodrigues u a x) in E by vring. exact E. }
  unfold rot_execute, set_rotation. cbn [r_rotax r_rotax_origin rotAxesOrigin rotAxes rotRotation rotAxis rotDirection rotOrigin r_axes r_axes_origin r_alpha r_origin r_direction row0 row1 row2]. rewrite E1. fold u.
  split; [rewrite !T; reflexivity|]. f_equal. rewrite <- T. f_equal. vring.
Qed.
Print Assumptions C106_compose.

(** The reference system of an object whose axes have not been set is not the canonical one: its third axis
    is null and so is, for any rotation, the third axis of the result. *)
Theorem C106_default_refuted : forall o d o' d' a p, row2 (r_rotax (rot_execute (rotAxesOrigin p (rotRotation a (rotAxis o' d' (new_rotation o d)))))) = V3 0 0 0.
Proof. intros. cbn. unfold formula. vring. Qed.
Print Assumptions C106_default_refuted.

(** Without a direction, as in an object built with the default arguments, the reference system is not left as
    it is: the axes and the distance of the origin from that of the axis are multiplied by the cosine. *)
Theorem C106_no_direction_refuted : forall o a m p r, let r' := rot_execute (set_rotation o (V3 0 0 0) a m p r) in
  row0 (r_rotax r') = vscale (cos a) (row0 m) /\ row1 (r_rotax r') = vscale (cos a) (row1 m) /\ row2 (r_rotax r') = vscale (cos a) (row2 m) /\
  vsub (r_rotax_origin r') o = vscale (cos a) (vsub p o).
Proof.
  intros o a m p r. cbv zeta. assert (Z : unit_or_same (V3 0 0 0) = V3 0 0 0).
  { unfold unit_or_same. destruct (Rlt_dec dmin (norm (V3 0 0 0))) as [X|_]; [|reflexivity]. exfalso. unfold norm, dot in X. cbn [vx vy vz] in X. replace (0 * 0 + 0 * 0 + 0 * 0) with 0 in X by ring. rewrite sqrt_0 in X. pose proof dmin_pos. lra. }
  unfold rot_execute, set_rotation. cbn [r_rotax r_rotax_origin rotAxesOrigin rotAxes rotRotation rotAxis rotDirection rotOrigin r_axes r_axes_origin r_alpha r_origin r_direction row0 row1 row2]. rewrite Z.
  unfold formula. repeat split; vring.
Qed.
Print Assumptions C106_no_direction_refuted.

(** A point is translated along a direction of length one by the value given. *)
Theorem C106_translated_partial : forall v o a t, dot v v = 1 -> exists q, tra_execute (traTranslation a (traOrigin o (traDirection v t))) = Some q /\
  vsub q o = vscale a v /\ norm (vsub q o) = Rabs a.
Proof.
  intros v o a t V. unfold tra_execute. cbn. unfold tra_unit. assert (N : norm v = 1) by (unfold norm; rewrite V; apply sqrt_1). pose proof dmin_small as D.
  destruct (Rlt_dec (norm v) dmin) as [X|_]; [lra|]. eexists. split; [reflexivity|]. split; [vring|]. unfold norm. replace (dot _ _) with (a * a * dot v v) by vring. rewrite V, Rmult_1_r. apply sqrt_Rsqr_abs.
Qed.
Print Assumptions C106_translated_partial.

(** A direction is only a direction if it has length one: otherwise the point goes farther, or not as far, as
    asked; and without a direction the point is lost even if it is not to be moved. *)
Theorem C106_translation_refuted : (forall v o a t, dmin <= norm v -> norm v <> 1 -> a <> 0 ->
    exists q, tra_execute (traTranslation a (traOrigin o (traDirection v t))) = Some q /\ norm (vsub q o) <> Rabs a) /\
  (forall o junk, tra_execute (traTranslation 0 (traOrigin o (new_translation (V3 0 0 0) junk))) = None).
Proof.
  split.
  - intros v o a t V N A. unfold tra_execute. cbn. unfold tra_unit. destruct (Rlt_dec (norm v) dmin) as [X|_]; [lra|]. eexists. split; [reflexivity|].
    replace (norm _) with (Rabs a * norm v).
    + intros E. apply N. apply (Rmult_eq_reg_l (Rabs a)); [rewrite E; ring|]. apply Rabs_no_R0. exact A.
    + unfold norm. replace (dot (vsub _ _) _) with (Rsqr a * dot v v) by (unfold Rsqr; vring). rewrite sqrt_mult_alt by apply Rle_0_sqr. rewrite sqrt_Rsqr_abs. reflexivity.
  - intros o junk. unfold tra_execute. cbn. unfold tra_unit. assert (Z : norm (V3 0 0 0) = 0). { unfold norm, dot. cbn [vx vy vz]. replace (0 * 0 + 0 * 0 + 0 * 0) with 0 by ring. apply sqrt_0. }
    rewrite Z. pose proof dmin_pos as D. destruct (Rlt_dec 0 dmin) as [_|X]; [|lra]. destruct (Req_EM_T 0 0) as [_|X]; [reflexivity|contradiction].
Qed.
Print Assumptions C106_translation_refuted.

(** A quarter of a turn about the z axis through (1, 0, 0): the x axis becomes the y axis. *)
Example C106_nonvacuous : dmin < norm (V3 0 0 2) /\ unit_vec (V3 0 0 1) /\ V3 0 0 2 = vscale (norm (V3 0 0 2)) (V3 0 0 1) /\
  let r := rot_execute (set_rotation (V3 1 0 0) (V3 0 0 2) (PI / 2) (M3 (V3 1 0 0) (V3 0 1 0) (V3 0 0 1)) (V3 2 0 0) (new_rotation vzero vzero)) in
  row0 (r_rotax r) = V3 0 1 0 /\ r_rotax_origin r = V3 1 1 0.
Proof.
  assert (N : norm (V3 0 0 2) = 2). { unfold norm, dot. cbn [vx vy vz]. replace (0 * 0 + 0 * 0 + 2 * 2) with (2 * 2) by ring. apply sqrt_square. lra. }
  pose proof dmin_small as D. split; [rewrite N; lra|]. split; [unfold unit_vec, dot; cbn [vx vy vz]; ring|]. split; [rewrite N; vring|]. cbv zeta.
  unfold rot_execute, set_rotation. cbn [r_rotax r_rotax_origin rotAxesOrigin rotAxes rotRotation rotAxis rotDirection rotOrigin r_axes r_axes_origin r_alpha r_origin r_direction row0 row1 row2].
  destruct (unit_direction (V3 0 0 2)) as [E _]; [rewrite N; lra|]. rewrite E, N. unfold formula. rewrite cos_PI2, sin_PI2. split; apply vec_eq; unfold vadd, vscale, cross, dot; cbn [vx vy vz]; field.
Qed.
