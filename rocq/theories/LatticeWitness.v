(** Concrete lattices. *)
From Coq Require Import Reals List Arith ZArith Bool Lia Lra Psatz.
From Verif Require Import Vec Shape ShapeSpec ShapeProofs ShapeWitness Mesh MeshSpec MeshProofs MeshBuild MeshWitness
  Lattice LatticeNumber LatticeProofs LatticeSpec LatticeBuild LatticeGeom.
Import ListNotations.
Open Scope R_scope.

Definition want (d0 d1 d2 : Z) (i : nat) : Z := match i with 0%nat => d0 | 1%nat => d1 | _ => d2 end.
(** A lattice on any shape, with any dimensions. *)
Lemma lat_ex k s d0 d1 d2 : reach k s -> (forall i, (i < 3)%nat -> min_points k i <= want d0 d1 d2 i)%Z ->
  exists l, built_lat l s /\ forall i, (i < 3)%nat -> dim (l_mesh l) i = want d0 d1 d2 i.
Proof.
  intros R D. set (l0 := La (setDimension (mesh_setShapeCopy new_mesh (Some s)) d0 d1 d2) 7 [5%Z]).
  assert (M : mreach any (l_mesh l0)).
  { cbn [l_mesh l0]. eapply mreach_call; [eapply mreach_call; [apply mreach_new| | |]| | |].
    - exact I.
    - instantiate (1 := MShapeCopy s). exists k. exact R.
    - reflexivity.
    - exact I.
    - instantiate (1 := MDim d0 d1 d2). exact I.
    - reflexivity. }
  assert (E : m_shape (l_mesh l0) = Some s) by reflexivity.
  pose proof (lat_build_is l0 s E) as B. cbn zeta in B. destruct (build_facts (l_mesh l0) s E) as (_ & _ & Sh & DD & _).
  eexists. split; [split; [exists l0; split; [exact M|exact B]|exact Sh]|]. cbn [l_mesh]. intros i Hi. rewrite (DD i Hi).
  destruct (reach_good _ _ R) as (_ & _ & ->). pose proof (D i Hi). replace (dim (l_mesh l0) i) with (want d0 d1 d2 i); [lia|].
  unfold l0. three Hi; cbn; lia.
Qed.
Lemma pt l d0 d1 d2 i j k : (forall i, (i < 3)%nat -> dim (l_mesh l) i = want d0 d1 d2 i) ->
  (0 <= i < d0 /\ 0 <= j < d1 /\ 0 <= k < d2)%Z -> point_index (l_mesh l) (i, j, k).
Proof. intros D H n Hn. rewrite (D n Hn). three Hn; cbn; lia. Qed.
Lemma where_ l s d0 d1 d2 i j k : good_lat l s -> (forall i, (i < 3)%nat -> dim (l_mesh l) i = want d0 d1 d2 i) ->
  (0 <= i < d0 /\ 0 <= j < d1 /\ 0 <= k < d2)%Z ->
  place l (i, j, k) (toWorldCoord s (V3 (division s 0 (d0 - 1) (IZR i)) (division s 1 (d1 - 1) (IZR j)) (division s 2 (d2 - 1) (IZR k)))).
Proof.
  intros G D H. pose proof (place_is l s G i j k (pt l d0 d1 d2 i j k D H)) as P.
  rewrite (D 0%nat), (D 1%nat), (D 2%nat) in P by lia. exact P.
Qed.
(** Two points joined although they differ, or apart although they coincide. *)
Lemma wrongly_joined l s t t' p p' : good_lat l s -> point_index (l_mesh l) t -> point_index (l_mesh l) t' ->
  rep3 (l_mesh l) t = rep3 (l_mesh l) t' -> place l t p -> place l t' p' -> p <> p' ->
  exists d, point_index (l_mesh l) t /\ point_index (l_mesh l) t' /\ dof l t d /\ dof l t' d /\ place l t p /\ ~ place l t' p.
Proof.
  intros G P P' E Q Q' N. destruct (same_dof l s G t t' P P' E) as (d & D & D'). exists d. do 5 (split; [assumption|]).
  intros C. apply N. exact (place_fun l _ _ _ C Q').
Qed.
Lemma wrongly_apart l s t t' p p' : good_lat l s -> point_index (l_mesh l) t -> point_index (l_mesh l) t' ->
  rep3 (l_mesh l) t <> rep3 (l_mesh l) t' -> place l t p -> place l t' p' -> p = p' ->
  point_index (l_mesh l) t /\ point_index (l_mesh l) t' /\ place l t p /\ place l t' p /\ ~ exists d, dof l t d /\ dof l t' d.
Proof.
  intros G P P' N Q Q' <-. do 4 (split; [assumption|]). intros (d & D & D'). apply N. exact (dof_same l s G t t' d P P' D D').
Qed.

Ltac world := unfold toWorldCoord, division, getLocalOrigin; cbn [s_kind new_shape sector s_span s_scaling s_inf s_inv s_origin vadd cmul vx vy vz vent vzero Z.sub].
(** The sphere: the point before the last of each circle is joined to the first. *)
Lemma sphere_joined : exists l t t' d p, built_lat l (new_shape SPHERE) /\
  (point_index (l_mesh l) t /\ point_index (l_mesh l) t' /\ dof l t d /\ dof l t' d /\ place l t p /\ ~ place l t' p).
Proof.
  destruct (lat_ex SPHERE (new_shape SPHERE) 2 5 3) as (l & B & D); [apply reach_new|intros i Hi; three Hi; cbn; lia|].
  pose proof (built_good l _ B) as G.
  pose proof (where_ l _ 2 5 3 1 0 1 G D ltac:(lia)) as Q1. pose proof (where_ l _ 2 5 3 1 3 1 G D ltac:(lia)) as Q2.
  destruct (fun E N => wrongly_joined l _ _ _ _ _ G (pt l 2 5 3 1 0 1 D ltac:(lia)) (pt l 2 5 3 1 3 1 D ltac:(lia)) E Q1 Q2 N) as (d & H).
  - unfold rep3. rewrite (gl_shape l _ G). unfold lat_info. cbn [s_kind new_shape i_per i_low i_high periodic s_ct1].
    destruct (dim_eqs (l_mesh l)) as (D0 & D1 & D2). rewrite (D 1%nat) in D1 by lia. rewrite (D 2%nat) in D2 by lia. cbn [want] in D1, D2.
    replace (a_n (m_y (l_mesh l))) with 4%Z by lia. replace (a_n (m_z (l_mesh l))) with 2%Z by lia.
    rewrite !andb_false_r. cbn. reflexivity.
  - world. change (5 - 1)%Z with 4%Z. change (2 - 1)%Z with 1%Z. change (3 - 1)%Z with 2%Z. intros C.
    assert (C' := f_equal vx C). unfold dots, dot, ident, vzero in C'. cbn [vadd vx vy vz row0 row1 row2] in C'.
    replace ((0 + 0 / 4 * (2 * PI)) * 1 + 0) with 0 in C' by field. replace ((0 + 3 / 4 * (2 * PI)) * 1 + 0) with (3 * (PI / 2)) in C' by field.
    replace ((0 + 1 / 2 * PI) * 1 + 0) with (PI / 2) in C' by field. rewrite cos_0, sin_PI2, cos_3PI2 in C'. lra.
  - do 5 eexists. split; [exact B|exact H].
Qed.
(** The sphere: the last point of each circle coincides with the first and is not joined to it. *)
Lemma sphere_apart : exists l t t' p, built_lat l (new_shape SPHERE) /\
  (point_index (l_mesh l) t /\ point_index (l_mesh l) t' /\ place l t p /\ place l t' p /\ ~ exists d, dof l t d /\ dof l t' d).
Proof.
  destruct (lat_ex SPHERE (new_shape SPHERE) 2 5 3) as (l & B & D); [apply reach_new|intros i Hi; three Hi; cbn; lia|].
  pose proof (built_good l _ B) as G.
  pose proof (where_ l _ 2 5 3 1 0 1 G D ltac:(lia)) as Q1. pose proof (where_ l _ 2 5 3 1 4 1 G D ltac:(lia)) as Q2.
  do 4 eexists. split; [exact B|]. apply (fun E N => wrongly_apart l _ _ _ _ _ G (pt l 2 5 3 1 0 1 D ltac:(lia)) (pt l 2 5 3 1 4 1 D ltac:(lia)) E Q1 Q2 N).
  - unfold rep3. rewrite (gl_shape l _ G). unfold lat_info. cbn [s_kind new_shape i_per i_low i_high periodic s_ct1].
    destruct (dim_eqs (l_mesh l)) as (D0 & D1 & D2). rewrite (D 1%nat) in D1 by lia. rewrite (D 2%nat) in D2 by lia. cbn [want] in D1, D2.
    replace (a_n (m_y (l_mesh l))) with 4%Z by lia. replace (a_n (m_z (l_mesh l))) with 2%Z by lia.
    rewrite !andb_false_r. cbn. discriminate.
  - world. change (5 - 1)%Z with 4%Z. change (2 - 1)%Z with 1%Z. change (3 - 1)%Z with 2%Z.
    replace ((0 + 0 / 4 * (2 * PI)) * 1 + 0) with 0 by field. replace ((0 + 4 / 4 * (2 * PI)) * 1 + 0) with (2 * PI) by field.
    rewrite cos_0, sin_0, cos_2PI, sin_2PI. reflexivity.
Qed.
(** The sector of cylinder: its two sides are joined. *)
Lemma sector_joined : exists l t t' d p, built_lat l sector /\
  (point_index (l_mesh l) t /\ point_index (l_mesh l) t' /\ dof l t d /\ dof l t' d /\ place l t p /\ ~ place l t' p).
Proof.
  destruct (lat_ex CYLINDER sector 2 4 2) as (l & B & D); [apply sector_reach|intros i Hi; three Hi; cbn; lia|].
  pose proof (built_good l _ B) as G.
  pose proof (where_ l _ 2 4 2 1 0 1 G D ltac:(lia)) as Q1. pose proof (where_ l _ 2 4 2 1 3 1 G D ltac:(lia)) as Q2.
  destruct (fun E N => wrongly_joined l _ _ _ _ _ G (pt l 2 4 2 1 0 1 D ltac:(lia)) (pt l 2 4 2 1 3 1 D ltac:(lia)) E Q1 Q2 N) as (d & H).
  - unfold rep3. rewrite (gl_shape l _ G). unfold lat_info. cbn [s_kind sector i_per i_low i_high periodic s_ct1].
    destruct (dim_eqs (l_mesh l)) as (D0 & D1 & D2). rewrite (D 1%nat) in D1 by lia. cbn [want] in D1.
    replace (a_n (m_y (l_mesh l))) with 3%Z by lia. reflexivity.
  - world. change (4 - 1)%Z with 3%Z. change (2 - 1)%Z with 1%Z. intros C.
    assert (C' := f_equal vy C). unfold dots, dot, ident, vzero in C'. cbn [vadd vx vy vz row0 row1 row2] in C'.
    replace ((0 + 0 / 3 * / 2) * 1 + 0) with 0 in C' by field. replace ((0 + 3 / 3 * / 2) * 1 + 0) with (/ 2) in C' by field. rewrite sin_0 in C'.
    pose proof pi_big. pose proof (sin_gt_0 (/ 2) ltac:(lra) ltac:(lra)). lra.
  - do 5 eexists. split; [exact B|exact H].
Qed.
(** The wedge: the points of its edge are joined along the edge, and not across. *)
Lemma wedge_joined : exists l t t' d p, built_lat l (new_shape WEDGE) /\
  (point_index (l_mesh l) t /\ point_index (l_mesh l) t' /\ dof l t d /\ dof l t' d /\ place l t p /\ ~ place l t' p).
Proof.
  destruct (lat_ex WEDGE (new_shape WEDGE) 2 2 2) as (l & B & D); [apply reach_new|intros i Hi; three Hi; cbn; lia|].
  pose proof (built_good l _ B) as G.
  pose proof (where_ l _ 2 2 2 1 0 0 G D ltac:(lia)) as Q1. pose proof (where_ l _ 2 2 2 1 0 1 G D ltac:(lia)) as Q2.
  destruct (fun E N => wrongly_joined l _ _ _ _ _ G (pt l 2 2 2 1 0 0 D ltac:(lia)) (pt l 2 2 2 1 0 1 D ltac:(lia)) E Q1 Q2 N) as (d & H).
  - unfold rep3. rewrite (gl_shape l _ G). cbn [s_kind new_shape].
    destruct (dim_eqs (l_mesh l)) as (D0 & D1 & D2). rewrite (D 0%nat) in D0 by lia. cbn [want] in D0.
    replace (a_n (m_x (l_mesh l))) with 1%Z by lia. reflexivity.
  - world. change (2 - 1)%Z with 1%Z. intros C.
    assert (C' := f_equal vz C). unfold dots, dot, ident, vzero in C'. cbn [vadd vx vy vz row0 row1 row2] in C'.
    unfold Rdiv in C'. rewrite Rinv_1 in C'. ring_simplify in C'. unfold cmul in C'. cbn [vx vy vz] in C'. lra.
  - do 5 eexists. split; [exact B|exact H].
Qed.
Lemma wedge_apart : exists l t t' p, built_lat l (new_shape WEDGE) /\
  (point_index (l_mesh l) t /\ point_index (l_mesh l) t' /\ place l t p /\ place l t' p /\ ~ exists d, dof l t d /\ dof l t' d).
Proof.
  destruct (lat_ex WEDGE (new_shape WEDGE) 2 2 2) as (l & B & D); [apply reach_new|intros i Hi; three Hi; cbn; lia|].
  pose proof (built_good l _ B) as G.
  pose proof (where_ l _ 2 2 2 1 0 0 G D ltac:(lia)) as Q1. pose proof (where_ l _ 2 2 2 1 1 0 G D ltac:(lia)) as Q2.
  do 4 eexists. split; [exact B|]. apply (fun E N => wrongly_apart l _ _ _ _ _ G (pt l 2 2 2 1 0 0 D ltac:(lia)) (pt l 2 2 2 1 1 0 D ltac:(lia)) E Q1 Q2 N).
  - unfold rep3. rewrite (gl_shape l _ G). cbn [s_kind new_shape].
    destruct (dim_eqs (l_mesh l)) as (D0 & D1 & D2). rewrite (D 0%nat) in D0 by lia. cbn [want] in D0.
    replace (a_n (m_x (l_mesh l))) with 1%Z by lia. discriminate.
  - world. change (2 - 1)%Z with 1%Z. apply (f_equal (fun x => vadd x vzero)). apply (f_equal (fun x => dots x _)). apply vec_ext; unfold cmul; cbn [vx vy vz]; field.
Qed.
(** The cylinder: the points of the axis have as many numbers as azimuths. *)
Lemma axis_apart : exists l t t' p, built_lat l (new_shape CYLINDER) /\
  (point_index (l_mesh l) t /\ point_index (l_mesh l) t' /\ place l t p /\ place l t' p /\ ~ exists d, dof l t d /\ dof l t' d).
Proof.
  destruct (lat_ex CYLINDER (new_shape CYLINDER) 2 4 2) as (l & B & D); [apply reach_new|intros i Hi; three Hi; cbn; lia|].
  pose proof (built_good l _ B) as G.
  pose proof (where_ l _ 2 4 2 0 0 0 G D ltac:(lia)) as Q1. pose proof (where_ l _ 2 4 2 0 1 0 G D ltac:(lia)) as Q2.
  do 4 eexists. split; [exact B|]. apply (fun E N => wrongly_apart l _ _ _ _ _ G (pt l 2 4 2 0 0 0 D ltac:(lia)) (pt l 2 4 2 0 1 0 D ltac:(lia)) E Q1 Q2 N).
  - unfold rep3. rewrite (gl_shape l _ G). unfold lat_info. cbn [s_kind new_shape i_per i_low i_high periodic s_ct1].
    destruct (dim_eqs (l_mesh l)) as (D0 & D1 & D2). rewrite (D 1%nat) in D1 by lia. cbn [want] in D1.
    replace (a_n (m_y (l_mesh l))) with 3%Z by lia. discriminate.
  - world. change (2 - 1)%Z with 1%Z. change (4 - 1)%Z with 3%Z.
    replace ((0 + 0 / 1 * 1) * 1 + 0) with 0 by field. rewrite !Rmult_0_l. reflexivity.
Qed.
(** A tube: inner radius 1, outer radius 2, whole turn. *)
Definition tube : shape := setInfLimits (new_shape CYLINDER) 1 0.
Lemma tube_reach : reach CYLINDER tube.
Proof. apply reach_setInf, reach_new. Qed.
Lemma tube_ct : s_ct1 tube = PERIODIC.
Proof.
  unfold tube, setInfLimits. cbn [s_kind new_shape checkInfLimits Z.eqb Z.ltb Z.compare orb]. unfold setSpan, checkSpan. cbn [s_kind].
  destruct (Rlt_dec _ _); reflexivity.
Qed.
Lemma tube_ok : solid tube /\ no_axis_seam tube /\ joinable tube.
Proof.
  pose proof (infimum_ok CYLINDER (new_shape CYLINDER) 1 0 (reach_new _)) as Q. cbn zeta in Q. fold tube in Q.
  destruct Q as (_ & SP & _ & IX & _). specialize (IX (or_introl eq_refl) eq_refl). rewrite Rmax_right in IX by lra.
  destruct (reach_good _ _ tube_reach) as (_ & _ & K). pose proof pi_big.
  assert (Y : vy (getSpan tube) = 2 * PI) by (pose proof (SP 1%nat ltac:(lia) ltac:(left; lia)) as Q; cbn in Q; cbn; lra).
  split; [|split].
  - intros i Hi. rewrite (SP i Hi) by (right; left; discriminate). three Hi; cbn; lra.
  - right. split; [exact K|]. split; [lra|]. intros _. exact tube_ct.
  - unfold joinable. rewrite K. intros _. exact Y.
Qed.
