(** Places of the points of lattices that share a number. *)
From Coq Require Import Reals List Arith ZArith Bool Lia Lra Psatz.
From Verif Require Import Vec Shape ShapeSpec ShapeProofs ShapeCoord Mesh MeshSpec MeshProofs MeshBuild Lattice LatticeNumber LatticeProofs LatticeSpec LatticeBuild.
Import ListNotations.
Open Scope R_scope.

Lemma div_first s i n : (1 <= n)%Z -> division s i n 0 = vent (getLocalOrigin s) i.
Proof. intros H. unfold division. assert (1 <= IZR n) by (apply IZR_le in H; exact H). field. lra. Qed.
Lemma div_last s i n : (1 <= n)%Z -> division s i n (IZR n) = vent (getLocalOrigin s) i + vent (s_span s) i.
Proof. intros H. unfold division. assert (1 <= IZR n) by (apply IZR_le in H; exact H). field. lra. Qed.
Lemma place_fun l t p q : place l t p -> place l t q -> p = q.
Proof. destruct t as [[i j] k]. unfold place. congruence. Qed.

Section geom.
Variables (l : lattice) (s : shape).
Hypothesis G : good_lat l s.
Let m := l_mesh l.
Lemma big : (1 <= dim m 0 - 1 /\ 1 <= dim m 1 - 1 /\ 1 <= dim m 2 - 1)%Z.
Proof. destruct (sized_pos m (gl_sized l s G)) as (s' & E & NX & MY & NY & MZ & NZ). destruct (dim_eqs m) as (D0 & D1 & D2). lia. Qed.
Lemma rep_place t p : joinable s -> point_index m t -> place l t p -> place l (rep3 m t) p.
Proof.
  intros J P Q. destruct big as (B0 & B1 & B2). destruct (gl_reach l s G) as [k0 R]. destruct (reach_good _ _ R) as (_ & GS & _). clear R k0.
  pose proof (rep3_valid m t (gl_sized l s G) P) as V. destruct t as [[i j] k]. pose proof (place_is l s G i j k P) as E. pose proof (place_fun l _ _ _ Q E) as EQ.
  rewrite EQ. clear Q E EQ p. unfold rep3 in *. assert (Sh : m_shape m = Some s) by exact (gl_shape l s G). rewrite Sh in V |- *. unfold joinable in J.
  assert (N1 : a_n (m_y m) = (dim m 1 - 1)%Z) by (destruct (dim_eqs m) as (D0 & D1 & D2); lia).
  assert (N2 : a_n (m_z m) = (dim m 2 - 1)%Z) by (destruct (dim_eqs m) as (D0 & D1 & D2); lia).
  unfold lat_info in *. unfold good_sizes in GS. destruct (s_kind s) eqn:K; [apply (place_is l s G), P| | |destruct J].
  - cbn [i_per i_low i_high] in *. unfold periodic in *. destruct (s_ct1 s) eqn:C; cbn [andb] in *; try (apply (place_is l s G), P).
    destruct (Z.eqb_spec j (a_n (m_y m))) as [->|NE]; [|apply (place_is l s G), P].
    assert (W : forall a b c d, b = d + 2 * PI -> toWorldCoord s (V3 a b c) = toWorldCoord s (V3 a d c)).
    { intros a b c d ->. unfold toWorldCoord. rewrite K. cbn [vx vy vz cmul]. destruct GS as ((_ & _ & -> & _) & _).
      replace ((d + 2 * PI) * 1 + vy (s_inf s)) with (d * 1 + vy (s_inf s) + 2 * PI) by ring. 
      set (x := d * 1 + vy (s_inf s)). assert (CX : cos (x + 2 * PI) = cos x) by (rewrite cos_plus, cos_2PI, sin_2PI; ring).
      assert (SX : sin (x + 2 * PI) = sin x) by (rewrite sin_plus, cos_2PI, sin_2PI; ring). rewrite CX, SX. reflexivity. }
    rewrite (W _ _ _ (division s 1 (dim m 1 - 1) 0)); [apply (place_is l s G), V|].
    rewrite N1, div_last, div_first by exact B1. specialize (J C). unfold getSpan, cmul in J. cbn [vy] in J. cbn [vent].
    destruct GS as ((_ & _ & S1 & _) & _). rewrite S1 in J. lra.
  - destruct ((_ && _) || _)%bool eqn:Q in V |- *.
    + assert (W : sin (division s 2 (dim m 2 - 1) (IZR k) * vz (s_scaling s) + vz (s_inf s)) = 0).
      { destruct GS as ((_ & _ & -> & _) & _). cbn [i_low i_high] in Q. apply orb_true_iff in Q. destruct Q as [Q|Q]; apply andb_true_iff in Q; destruct Q as [F Q]; apply Z.eqb_eq in Q; subst k.
        - unfold eqR in F. destruct (Req_EM_T (vz (s_inf s)) 0) as [E|]; [|discriminate]. rewrite div_first by exact B2. unfold getLocalOrigin. rewrite K.
          cbn [vent vx vy vz]. rewrite E. replace (0 * 1 + 0) with 0 by ring. apply sin_0.
        - unfold eqR in F. destruct (Req_EM_T (vz (s_inf s) + vz (s_span s)) PI) as [E|]; [|discriminate]. rewrite N2, div_last by exact B2.
          unfold getLocalOrigin. rewrite K. cbn [vent vx vy vz]. replace ((0 + vz (s_span s)) * 1 + vz (s_inf s)) with PI by lra. apply sin_PI. }
      pose proof (place_is l s G i 0 k V) as E.
      match goal with |- place _ _ ?x => match type of E with place _ _ ?y => replace x with y; [exact E|] end end.
      unfold toWorldCoord. rewrite K. cbn [vx vy vz cmul]. fold m. rewrite W. rewrite !Rmult_0_r. reflexivity.
    + cbn [i_per] in *. unfold periodic in *. destruct (s_ct1 s) eqn:C; cbn [andb] in *; try (apply (place_is l s G), P). destruct (J eq_refl).
Qed.
Lemma shared_place t t' d p : joinable s -> point_index m t -> point_index m t' -> dof l t d -> dof l t' d -> place l t p -> place l t' p.
Proof.
  intros J P P' D D' Q. pose proof (dof_same l s G t t' d P P' D D') as E. fold m in E.
  pose proof (rep_place t p J P Q) as Q1. rewrite E in Q1. destruct t' as [[i j] k]. pose proof (place_is l s G i j k P') as Q2.
  pose proof (rep_place _ _ J P' Q2) as Q3. rewrite (place_fun l _ _ _ Q1 Q3). exact Q2.
Qed.
Lemma div_inj i n a b : (1 <= n)%Z -> vent (s_span s) i <> 0 -> division s i n (IZR a) = division s i n (IZR b) -> a = b.
Proof.
  intros H S E. unfold division in E. assert (1 <= IZR n) by (apply IZR_le in H; exact H). apply eq_IZR.
  apply Rplus_eq_reg_l in E. apply Rmult_eq_reg_r in E; [|exact S]. unfold Rdiv in E. apply Rmult_eq_reg_r in E; [exact E|].
  apply Rinv_neq_0_compat. lra.
Qed.
Lemma param_in i j k : solid s -> point_index m (i, j, k) -> in_param s (V3 (division s 0 (dim m 0 - 1) (IZR i)) (division s 1 (dim m 1 - 1) (IZR j)) (division s 2 (dim m 2 - 1) (IZR k))).
Proof.
  intros S P n Hn. destruct big as (B0 & B1 & B2). destruct (gl_reach l s G) as [k0 R]. pose proof (span_pos k0 s n R S Hn) as [SP _].
  assert (W : forall a N x, (1 <= N)%Z -> (0 <= a <= N)%Z -> 0 < x -> 0 <= IZR a / IZR N * x <= x).
  { intros a N x H [A1 A2] X. apply IZR_le in H, A1, A2. assert (0 <= IZR a / IZR N <= 1); [|nra].
    split; [apply Rmult_le_pos; [lra|]; apply Rlt_le, Rinv_0_lt_compat; lra|]. apply Rmult_le_reg_r with (IZR N); [lra|].
    unfold Rdiv. rewrite Rmult_assoc, Rinv_l by lra. lra. }
  pose proof (P n Hn) as Pn. unfold division. three Hn; cbn [comp vent vx vy vz] in *.
  - pose proof (W i _ _ B0 ltac:(lia) SP). lra.
  - pose proof (W j _ _ B1 ltac:(lia) SP). lra.
  - pose proof (W k _ _ B2 ltac:(lia) SP). lra.
Qed.
Lemma regular_same i j k i' j' k' q q' p : solid s -> point_index m (i, j, k) -> point_index m (i', j', k') ->
  getLocalPoint m i j k = Some q -> getLocalPoint m i' j' k' = Some q' -> ~ singular s q -> ~ singular s q' ->
  place l (i, j, k) p -> place l (i', j', k') p -> (i, j, k) = (i', j', k').
Proof.
  intros S P P' L L' N N' Q Q'. destruct (gl_reach l s G) as [k0 R]. destruct (reach_good _ _ R) as (GF & GS & _).
  unfold m in L, L'. rewrite (gl_point l s G i j k P) in L. rewrite (gl_point l s G i' j' k' P') in L'. injection L as <-. injection L' as <-.
  pose proof (place_fun l _ _ _ Q (place_is l s G i j k P)) as E. pose proof (place_fun l _ _ _ Q' (place_is l s G i' j' k' P')) as E'.
  pose proof (local_world_local s _ GF GS S (param_in i j k S P) N) as W. pose proof (local_world_local s _ GF GS S (param_in i' j' k' S P') N') as W'.
  fold m in W, W', E, E'. rewrite <- E in W. rewrite <- E' in W'. rewrite W in W'. injection W' as X Y Z. destruct big as (B0 & B1 & B2).
  assert (SP : forall n, (n < 3)%nat -> vent (s_span s) n <> 0) by (intros n Hn; pose proof (span_pos k0 s n R S Hn); lra).
  apply div_inj in X; [|exact B0|apply (SP 0%nat); lia]. apply div_inj in Y; [|exact B1|apply (SP 1%nat); lia]. apply div_inj in Z; [|exact B2|apply (SP 2%nat); lia].
  congruence.
Qed.
Lemma same_place t t' p : solid s -> no_axis_seam s -> point_index m t -> point_index m t' -> place l t p -> place l t' p -> exists d, dof l t d /\ dof l t' d.
Proof.
  intros S NS P P' Q Q'. destruct (gl_reach l s G) as [k0 R]. destruct (reach_good _ _ R) as (_ & GS & _). destruct big as (B0 & B1 & B2).
  assert (REG : forall u u' p, point_index m u -> point_index m u' -> place l u p -> place l u' p ->
    (s_kind s = CUBE \/ (vy (s_span s) <> 2 * PI \/ (snd (fst u) <> dim m 1 - 1 /\ snd (fst u') <> dim m 1 - 1)%Z)) -> u = u').
  { intros [[i j] k] [[i' j'] k'] x U U' X X' C. pose proof (gl_point l s G i j k U) as L. pose proof (gl_point l s G i' j' k' U') as L'.
    apply (regular_same i j k i' j' k' _ _ x S U U' L L'); try assumption.
    - intros SG. unfold singular in SG. destruct NS as [K|(K & I & _)]; rewrite K in SG; [exact SG|].
      pose proof (param_in i j k S U) as PI_. pose proof (PI_ 0%nat ltac:(lia)) as I0. pose proof (PI_ 1%nat ltac:(lia)) as I1. cbn [vent vx vy vz] in *.
      unfold getLocalOrigin in I0, I1. rewrite K in I0, I1. cbn [vx vy vz] in I0, I1. unfold good_sizes in GS. rewrite K in GS.
      destruct GS as ((_ & _ & _ & SY & _) & SX & _). fold m in SG. destruct SG as [SG|SG]; [assert (0 <= division s 0 (dim m 0 - 1) (IZR i) * vx (s_scaling s)) by (apply Rmult_le_pos; lra); lra|].
      destruct C as [C|[C|[C _]]]; [congruence|lra|]. apply C. cbn. apply (div_inj 1 (dim m 1 - 1)); [exact B1| |].
      + cbn. pose proof PI_RGT_0. lra.
      + rewrite div_last by exact B1. unfold getLocalOrigin. rewrite K. cbn [vent vx vy vz]. lra.
    - intros SG. unfold singular in SG. destruct NS as [K|(K & I & _)]; rewrite K in SG; [exact SG|].
      pose proof (param_in i' j' k' S U') as PI_. pose proof (PI_ 0%nat ltac:(lia)) as I0. pose proof (PI_ 1%nat ltac:(lia)) as I1. cbn [vent vx vy vz] in *.
      unfold getLocalOrigin in I0, I1. rewrite K in I0, I1. cbn [vx vy vz] in I0, I1. unfold good_sizes in GS. rewrite K in GS.
      destruct GS as ((_ & _ & _ & SY & _) & SX & _). fold m in SG. destruct SG as [SG|SG]; [assert (0 <= division s 0 (dim m 0 - 1) (IZR i') * vx (s_scaling s)) by (apply Rmult_le_pos; lra); lra|].
      destruct C as [C|[C|[_ C]]]; [congruence|lra|]. apply C. cbn. apply (div_inj 1 (dim m 1 - 1)); [exact B1| |].
      + cbn. pose proof PI_RGT_0. lra.
      + rewrite div_last by exact B1. unfold getLocalOrigin. rewrite K. cbn [vent vx vy vz]. lra. }
  destruct NS as [K|(K & I & C)].
  - rewrite (REG t t' p P P' Q Q' (or_introl K)). destruct t' as [[i j] k]. apply (same_dof l s G); assumption || reflexivity.
  - destruct (Req_dec (vy (s_span s)) (2 * PI)) as [F|F].
    + assert (J : joinable s).
      { unfold joinable. rewrite K. intros _. unfold getSpan, cmul. cbn [vy]. unfold good_sizes in GS. rewrite K in GS. destruct GS as ((_ & _ & -> & _) & _). lra. }
      apply (same_dof l s G); try assumption. apply (REG _ _ p); try (apply rep3_valid; [apply (gl_sized l s G)|assumption]);
        try (apply rep_place; assumption). right. right.
      assert (CT : s_ct1 s = PERIODIC).
      { apply C. unfold getSpan, cmul. cbn [vy]. unfold good_sizes in GS. rewrite K in GS. destruct GS as ((_ & _ & -> & _) & _). lra. }
      assert (N1 : a_n (m_y m) = (dim m 1 - 1)%Z) by (destruct (dim_eqs m) as (D0 & D1 & D2); lia).
      assert (NE : forall u, (snd (fst (rep3 m u)) <> dim m 1 - 1)%Z).
      { intros [[i j] k]. unfold rep3, m. rewrite (gl_shape l s G), K. unfold lat_info. rewrite K. unfold periodic. rewrite CT. cbn [i_per andb].
        fold m. rewrite N1. destruct (Z.eqb_spec j (dim m 1 - 1)); cbn; lia. }
      split; apply NE.
    + rewrite (REG t t' p P P' Q Q' (or_intror (or_introl F))). apply (same_dof l s G); assumption || reflexivity.
Qed.
End geom.
