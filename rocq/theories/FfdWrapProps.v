(** Property theorems of the free form deformation lattices with directions that close or mirror (C74) and
    of the continuity of the displacements (C75). *)
From Coq Require Import Reals List Arith ZArith Bool Lia Lra.
From Verif Require Import Vec Field Shape ShapeSpec ShapeProofs ShapeCoord ShapeWitness Mesh MeshSpec Lattice LatticeSpec Ffd FfdSpec FfdReady FfdMoves FfdWrap FfdCont FfdWitness.
Import ListNotations.
Open Scope R_scope.

(** C74: without unclamped directions the displacement of a point is the mean of those of the control
    points, weighted by the products of the B-splines of the three directions and the weights of the
    nodes. Beyond the ends of a periodic direction the control points are the nodes from the other end, of a
    symmetric direction the mirrored nodes. *)
Theorem C74_spline : forall f s q, ready f s -> ShapeSpec.solid s -> spaced f s -> never_unclamped s -> positive_weights f -> in_box s q ->
  let knots d := knot_of (coord_type s d) (points f d) (degree f d) (vent (getLocalOrigin s) d) (vent (s_span s) d) in
  let count d := controls (coord_type s d) (points f d) (degree f d) in
  let node d := control (coord_type s d) (points f d) (degree f d) in
  exists k, (forall d, (d < 3)%nat -> in_span (knots d) (k d) (vent (toLocalCoord s q) d) /\ (Z.of_nat (degree f d) <= k d < Z.of_nat (count d))%Z /\ (1 <= degree f d < points f d)%nat) /\
    forall w D y world m, length D = nodes f -> node_values f (f_weights f) w -> node_values f D y ->
      (forall i, (i < 3)%nat -> vent m i = weighted_mean count (fun d a => bspline (knots d) (k d) (degree f d) (Z.of_nat a) (vent (toLocalCoord s q) d))
         (fun a b c => w (node 0%nat a) (node 1%nat b) (node 2%nat c)) (fun a b c => vent (y (node 0%nat a) (node 1%nat b) (node 2%nat c)) i)) ->
      moves f s D world q m.
Proof.
  intros f s q R So Sp Nu Wp I knots count node. pose proof (ready_core f s R) as C. destruct (wrapped_form f s q C So Sp Nu I Wp) as [K E]. exists (span_of f s q). split.
  - intros d Hd. destruct (K d Hd) as (A & B & De & _). split; [exact A|]. split; [exact B|exact De].
  - intros w D y world m L Hw Hy M. apply evaluates_moves; [exact C|]. exact (E w D y world m L Hw Hy M).
Qed.
Print Assumptions C74_spline.
(** The azimuth of the default cylinder is periodic. *)
Example C74_nonvacuous : exists f q, let s := new_shape CYLINDER in ready f s /\ ShapeSpec.solid s /\ spaced f s /\ never_unclamped s /\ positive_weights f /\ in_box s q /\
  coord_type s 1 = PERIODIC /\ length (f_displ f) = nodes f /\ (exists w, node_values f (f_weights f) w) /\ (exists y, node_values f (f_displ f) y).
Proof.
  destruct round_ready as (f & R & So & Sp & Wp & T & L). exists f, (toWorldCoord (new_shape CYLINDER) (V3 (/ 2) 1 0)). cbv zeta. pose proof (ready_core f _ R) as C.
  split; [exact R|]. split; [exact So|]. split; [exact Sp|]. split; [intros d Hd; destruct d as [|[|[|d]]]; try lia; discriminate|]. split; [exact Wp|]. split; [exact round_box|]. split; [exact T|]. split; [exact L|].
  split; [exact (values_exist f _ (f_weights f) 0 C (co_weights _ _ C))|exact (values_exist f _ (f_displ f) vzero C L)].
Qed.

(** C75: the displacements are continuous: if the local coordinates of the points q n tend to those of q0,
    their displacements tend to the displacement of q0. For a cylinder with a periodic azimuth this includes
    the seam: the azimuths may tend to the end of the turn when q0 is at its beginning. *)
Theorem C75_continuous : forall f s D q q0, ready f s -> ShapeSpec.solid s -> spaced f s -> never_unclamped s -> positive_weights f -> length D = nodes f ->
  in_box s q0 -> (forall n, in_box s (q n)) -> approach s q q0 ->
  exists m M, moves f s D true q0 m /\ (forall n, moves f s D true (q n) (M n)) /\ tends M m.
Proof.
  intros f s D q q0 R So Sp Nu Wp L I0 I A. pose proof (ready_core f s R) as C.
  destruct (values_exist f s (f_weights f) 0 C (co_weights _ _ C)) as (w & Hw). destruct (values_exist f s D vzero C L) as (y & Hy).
  exists (moved f s w y q0), (fun n => moved f s w y (q n)). split; [exact (moved_moves f s D C So Sp Nu Wp L w y Hw Hy q0 true I0)|].
  split; [intros n; exact (moved_moves f s D C So Sp Nu Wp L w y Hw Hy (q n) true (I n))|].
  exact (continuous f s D C (proj2 R) So Sp Nu Wp L w y Hw Hy q q0 I0 I A).
Qed.
Print Assumptions C75_continuous.
(** In a box: points that tend to a point. *)
Theorem C75_box : forall f s D q q0, ready f s -> s_kind s = CUBE -> ShapeSpec.solid s -> spaced f s -> never_unclamped s -> positive_weights f -> length D = nodes f ->
  in_box s q0 -> (forall n, in_box s (q n)) -> tends q q0 ->
  exists m M, moves f s D true q0 m /\ (forall n, moves f s D true (q n) (M n)) /\ tends M m.
Proof. intros f s D q q0 R K So Sp Nu Wp L I0 I T. apply C75_continuous; try assumption. apply box_approach; assumption. Qed.
Print Assumptions C75_box.
(** The seam of the default cylinder is reached by points of the box. *)
Example C75_nonvacuous : exists f q q0, let s := new_shape CYLINDER in ready f s /\ ShapeSpec.solid s /\ spaced f s /\ never_unclamped s /\ positive_weights f /\ length (f_displ f) = nodes f /\
  in_box s q0 /\ (forall n, in_box s (q n)) /\ approach s q q0 /\ vy (toLocalCoord s q0) = 0 /\ Un_cv (fun n => vy (toLocalCoord s (q n))) (2 * PI).
Proof.
  assert (P := PI_RGT_0). assert (P2 := PI2_1). destruct (reach_good _ _ (reach_new CYLINDER)) as (F & G & _).
  assert (So : ShapeSpec.solid (new_shape CYLINDER)) by (intros i Hi; three Hi; cbn; lra).
  assert (Lc : forall t, 0 <= t < 2 * PI -> in_param (new_shape CYLINDER) (V3 (/ 2) t 0) /\ toLocalCoord (new_shape CYLINDER) (toWorldCoord (new_shape CYLINDER) (V3 (/ 2) t 0)) = V3 (/ 2) t 0).
  { intros t Ht. assert (I : in_param (new_shape CYLINDER) (V3 (/ 2) t 0)) by (intros i Hi; three Hi; cbn; lra).
    split; [exact I|]. apply local_world_local; try assumption. unfold singular. cbn. lra. }
  set (t := fun n : nat => 2 * PI - / (INR n + 1)).
  assert (T : forall n, 0 <= t n < 2 * PI).
  { intros n. unfold t. pose proof (pos_INR n). assert (0 < / (INR n + 1) <= 1); [|lra]. split; [apply Rinv_0_lt_compat; lra|]. rewrite <- Rinv_1. apply Rinv_le_contravar; lra. }
  assert (Tc : Un_cv t (2 * PI)).
  { replace (2 * PI) with (2 * PI - 0) by ring. apply (CV_minus (fun _ => 2 * PI) (fun n => / (INR n + 1))); [apply cv_const|].
    intros e E. destruct (archimed_cor1 e E) as (k & K & Kp). exists k. intros n Hn. unfold R_dist. rewrite Rminus_0_r. assert (0 < INR k <= INR n) by (split; [apply lt_0_INR; lia|apply le_INR; lia]).
    rewrite Rabs_right by (apply Rle_ge, Rlt_le, Rinv_0_lt_compat; lra). eapply Rle_lt_trans; [|exact K]. apply Rinv_le_contravar; lra. }
  destruct round_ready as (f & R & _ & Sp & Wp & Tp & L).
  exists f, (fun n => toWorldCoord (new_shape CYLINDER) (V3 (/ 2) (t n) 0)), (toWorldCoord (new_shape CYLINDER) (V3 (/ 2) 0 0)). cbv zeta.
  split; [exact R|]. split; [exact So|]. split; [exact Sp|]. split; [intros d Hd; three Hd; discriminate|]. split; [exact Wp|]. split; [exact L|].
  destruct (Lc 0 ltac:(lra)) as [I0 E0]. assert (En : forall n, toLocalCoord (new_shape CYLINDER) (toWorldCoord (new_shape CYLINDER) (V3 (/ 2) (t n) 0)) = V3 (/ 2) (t n) 0) by (intros n; apply Lc, T).
  split; [unfold in_box; rewrite E0; exact I0|]. split; [intros n; unfold in_box; rewrite En; apply Lc, T|]. split; [|split].
  - intros d Hd. rewrite E0. three Hd; cbn [vent].
    + left. apply (cv_ext (fun _ => / 2)); [intros n; rewrite En; reflexivity|apply cv_const].
    + right. split; [reflexivity|]. split; [reflexivity|]. split; [exact Tp|]. split; [reflexivity|]. apply (cv_ext t); [intros n; rewrite En; reflexivity|]. cbn [getLocalOrigin new_shape s_kind vy s_span vzero]. 
      match goal with |- Un_cv _ ?x => replace x with (2 * PI); [exact Tc|] end. cbn. lra.
    + left. apply (cv_ext (fun _ => 0)); [intros n; rewrite En; reflexivity|apply cv_const].
  - rewrite E0. reflexivity.
  - apply (cv_ext t); [intros n; rewrite En; reflexivity|exact Tc].
Qed.
