(** Concrete free form deformation lattices. *)
From Coq Require Import Reals List Arith ZArith Bool Lia Lra Permutation.
From Verif Require Import Vec SharedPtr Field Shape ShapeSpec ShapeProofs ShapeCoord ShapeWitness ShapeSel ShapeSelSpec ShapeSelProofs Mesh MeshSpec MeshProofs MeshBuild Lattice LatticeNumber LatticeSpec LatticeProofs LatticeBuild LatticeWitness Manip ManipSpec ManipProofs Ffd FfdSpec FfdBasis FfdKnots FfdCurve FfdSums FfdEval FfdReady FfdProofs FfdForms FfdBuild FfdMoves.
Import ListNotations.
Open Scope R_scope.

(** a lattice on the shape s, before it is built *)
Definition raw (s : shape) (d0 d1 d2 : Z) (deg : Z * Z * Z) : ffd :=
  setDegrees (with_mesh new_ffd (setDimension (mesh_setShapeCopy new_mesh (Some s)) d0 d1 d2)) deg.
Lemma raw_reach k s d0 d1 d2 deg : reach k s -> mreach any (f_mesh (raw s d0 d1 d2 deg)).
Proof.
  intros R. change (mreach any (setDimension (mesh_setShapeCopy new_mesh (Some s)) d0 d1 d2)).
  eapply mreach_call; [eapply mreach_call; [apply mreach_new| | |]| | |].
  - exact I.
  - instantiate (1 := MShapeCopy s). exists k. exact R.
  - reflexivity.
  - exact I.
  - instantiate (1 := MDim d0 d1 d2). exact I.
  - reflexivity.
Qed.
Lemma ffd_ex k s d0 d1 d2 deg : reach k s -> ShapeSpec.solid s ->
  (forall i, (i < 3)%nat -> min_points k i <= want d0 d1 d2 i)%Z ->
  (forall i, (i < 3)%nat -> coord_type s i = PERIODIC \/ coord_type s i = SYMMETRIC -> 2 / 10 ^ 12 <= vent (s_span s) i / IZR (want d0 d1 d2 i - 1)) ->
  exists f, build (raw s d0 d1 d2 deg) = Some (true, f) /\ ready f s /\ (forall i, (i < 3)%nat -> dim (f_mesh f) i = want d0 d1 d2 i) /\
    (forall i, (i < 3)%nat -> MeshSpec.comp (f_deg f) i = Z.min (want d0 d1 d2 i - 1) (Z.max 1 (MeshSpec.comp deg i))) /\
    spaced f s /\ positive_weights f /\ length (f_displ f) = nodes f.
Proof.
  intros R So Mn Sp. pose proof (raw_reach k s d0 d1 d2 deg R) as M. assert (Sh : m_shape (f_mesh (raw s d0 d1 d2 deg)) = Some s) by reflexivity.
  assert (Dm : forall i, (i < 3)%nat -> MeshSpec.dim (f_mesh (raw s d0 d1 d2 deg)) i = want d0 d1 d2 i).
  { intros i Hi. destruct i as [|[|[|i]]]; try lia; cbn; lia. }
  destruct (reach_good _ _ R) as (_ & _ & Kd).
  destruct (build_total (raw s d0 d1 d2 deg) s M Sh So) as (f & B & Sh' & Df & Dg).
  { intros d Hd T. rewrite Dm, Kd by exact Hd. rewrite Z.max_l by (apply Mn, Hd). apply Sp; assumption. }
  { intros l _. constructor. }
  assert (Df' : forall i, (i < 3)%nat -> dim (f_mesh f) i = want d0 d1 d2 i).
  { intros i Hi. rewrite Df, Dm, Kd by exact Hi. apply Z.max_l, Mn, Hi. }
  exists f. split; [exact B|]. split; [split; [exists (raw s d0 d1 d2 deg), f; split; [exact M|split; [exact B|apply tuned_built]]|exact Sh']|]. split; [exact Df'|]. split.
  { intros i Hi. rewrite Dg by exact Hi. rewrite Df' by exact Hi. reflexivity. }
  split; [intros d Hd T; rewrite Df' by exact Hd; apply Sp; assumption|]. destruct (build_weights _ _ _ B) as (_ & W & _). cbn [f_collect raw setDegrees with_mesh new_ffd loop] in W. split.
  - unfold positive_weights. injection W as <-. apply Forall_forall. intros x I. apply repeat_spec in I. lra.
  - apply (build_displ _ _ _ B).
Qed.
Lemma build_order f0 b f : build f0 = Some (b, f) -> f_order f = orderDimension (dim (f_mesh f) 0 - 1) (dim (f_mesh f) 1 - 1) (dim (f_mesh f) 2 - 1).
Proof.
  intros B. opened B. apply (f_equal (fun o => match o with Some p => snd p | None => f0 end)) in B. cbn [snd] in B. subst f. unfold f_mesh. cbn [f_order f_lat]. destruct (dim_eqs (l_mesh l)) as (-> & -> & ->).
  rewrite !Z.add_simpl_r. reflexivity.
Qed.

(** ** The default cube: clamped, from -1/2 to 1/2 *)
Definition cube : shape := new_shape CUBE.
Lemma cube_solid : ShapeSpec.solid cube.
Proof. intros i Hi. three Hi; cbn; lra. Qed.
Lemma cube_clamped : all_clamped cube.
Proof. intros d Hd. three Hd; reflexivity. Qed.
Lemma cube_ex d0 d1 d2 deg : (2 <= d0)%Z -> (2 <= d1)%Z -> (2 <= d2)%Z -> exists f, build (raw cube d0 d1 d2 deg) = Some (true, f) /\ ready f cube /\ (forall i, (i < 3)%nat -> dim (f_mesh f) i = want d0 d1 d2 i) /\
    (forall i, (i < 3)%nat -> MeshSpec.comp (f_deg f) i = Z.min (want d0 d1 d2 i - 1) (Z.max 1 (MeshSpec.comp deg i))) /\
    spaced f cube /\ positive_weights f /\ length (f_displ f) = nodes f.
Proof.
  intros H0 H1 H2. apply (ffd_ex CUBE); [apply reach_new|exact cube_solid| |].
  - intros i Hi. three Hi; cbn; lia.
  - intros i Hi [T|T]; rewrite (cube_clamped i Hi) in T; discriminate.
Qed.
Lemma cube_local q : toLocalCoord cube q = q.
Proof.
  destruct q as [x y z]. unfold toLocalCoord, cube, new_shape. cbn.
  apply vec_ext; unfold cdiv, dots, dot, vsub, ident, vzero; cbn [vx vy vz Shape.row0 Shape.row1 Shape.row2]; field.
Qed.
Lemma cube_box q : in_box cube q <-> forall i, (i < 3)%nat -> - / 2 <= vent q i <= / 2.
Proof.
  unfold in_box, in_param. rewrite cube_local. cbn [s_kind cube new_shape getLocalOrigin s_span].
  split; intros H i Hi; specialize (H i Hi); three Hi; cbn in *; lra.
Qed.
Lemma cube_included q : (forall i, (i < 3)%nat -> - Shape.tol < vent q i + / 2 < 1 + Shape.tol) -> isPointIncluded cube q = true.
Proof.
  intros H. apply included_iff. intros i Hi. unfold basic. rewrite cube_local. specialize (H i Hi). unfold localToBasic, cube, new_shape. cbn [s_kind s_span].
  three Hi; cbn in *; unfold Rdiv; rewrite ?Rinv_1; lra.
Qed.

(** ** Undefined evaluations *)
Lemma accumulate_none n f i : (i < n)%nat -> f i = None -> accumulate n f = None.
Proof.
  intros Hi Fi. unfold accumulate. assert (K : forall l z, In i l -> loop (fun i a => do x <- f i; Some (hadd a x)) l z = None).
  { induction l as [|j l IH]; intros z I; [destruct I|]. cbn [loop]. destruct (Nat.eq_dec j i) as [->|Ne]; [rewrite Fi; reflexivity|].
    destruct (f j); [|reflexivity]. cbn [bind]. apply IH. destruct I; [contradiction|assumption]. }
  apply K. apply in_seq. lia.
Qed.
Lemma bind_none {A B} (o : option A) : (do _ <- o; @None B) = None.
Proof. destruct o; reflexivity. Qed.
Ltac skip := match goal with |- bind ?o _ = None => destruct o; [|reflexivity]; cbn [bind] end.
(** Some node of the sums has no number: the index of loop number l is out of the map of its slot. *)
Lemma nested_none f slots t q i j k :
  (forall k0 k1 k2 : Z, let '(i0, i1, i2) := f_order f in let '(s0, s1, s2) := slots in
     getKnotInterval (curve_of f i0) (coord i0 q) = Some k0 -> getKnotInterval (curve_of f i1) (coord i1 q) = Some k1 -> getKnotInterval (curve_of f i2) (coord i2 q) = Some k2 ->
     (i <= c_deg (curve_of f i0) /\ j <= c_deg (curve_of f i1) /\ k <= c_deg (curve_of f i2))%nat /\
     accessMapNodes f (assign (assign (assign (0, 0, 0)%Z s0 (k0 - Z.of_nat (c_deg (curve_of f i0)) + Z.of_nat i)) s1 (k1 - Z.of_nat (c_deg (curve_of f i1)) + Z.of_nat j)) s2 (k2 - Z.of_nat (c_deg (curve_of f i2)) + Z.of_nat k)) = None) ->
  nested f slots t q = None.
Proof.
  intros H. unfold nested. destruct (f_order f) as [[i0 i1] i2]. destruct slots as [[s0 s1] s2]. cbv zeta.
  destruct (getKnotInterval (curve_of f i0) (coord i0 q)) as [k0|]; [|reflexivity]. cbn [bind]. destruct (getKnotInterval (curve_of f i1) (coord i1 q)) as [k1|]; [|reflexivity]. cbn [bind].
  destruct (getKnotInterval (curve_of f i2) (coord i2 q)) as [k2|]; [|reflexivity]. cbn [bind]. destruct (H k0 k1 k2 eq_refl eq_refl eq_refl) as ((Hi & Hj & Hk) & E).
  skip. skip. skip. apply (accumulate_none _ _ i); [lia|]. skip. rewrite (accumulate_none _ _ j); [reflexivity|lia|]. skip. rewrite (accumulate_none _ _ k); [reflexivity|lia|]. skip. rewrite E. reflexivity.
Qed.
Lemma core_curve f s d : core f s -> (d < 3)%nat -> coord_type s d = CLAMPED -> ShapeSpec.solid s ->
  exists e, (1 <= e < dimn f d)%nat /\ MeshSpec.comp (f_deg f) d = Z.of_nat e /\ c_deg (curve_of f d) = e /\ length (c_nodes (curve_of f d)) = dimn f d /\
   fits (curve_of f d) (dimn f d) (clamped_knot (dimn f d) e (vent (getLocalOrigin s) d) (vent (s_span s) d)) (vent (getLocalOrigin s) d) (vent (getLocalOrigin s) d + vent (s_span s) d).
Proof.
  intros C Hd T So. destruct (co_curve _ _ C d Hd) as (e & De & Dg & E). destruct (gl_reach _ _ (co_good _ _ C)) as (k & Re). destruct (span_pos k s d Re So Hd) as [W _]. rewrite T in E.
  destruct (clamped_fits _ _ _ _ De W _ E) as (Dc & Ln & _ & _ & F). exists e. split; [exact De|]. split; [exact Dg|]. split; [exact Dc|]. split; [exact Ln|exact F].
Qed.
(** three nodes along x, two along y and z: the loops run over y, z, x; the point is in the second cell *)
Lemma box_point f : ready f cube -> (forall i, (i < 3)%nat -> dim (f_mesh f) i = want 3 2 2 i) -> (forall i, (i < 3)%nat -> MeshSpec.comp (f_deg f) i = 1%Z) ->
  f_order f = (1, 2, 0)%nat -> apply_point f (V3 (/ 4) 0 0) = None.
Proof.
  intros Rd Dm Dg Or. pose proof (ready_core f cube Rd) as C. unfold apply_point. destruct Rd as [_ Sh]. rewrite Sh. cbn [bind].
  assert (I : isPointIncluded cube (V3 (/ 4) 0 0) = true).
  { apply cube_included. intros i Hi. pose proof tol_pos. unfold Shape.tol in *. three Hi; cbn; lra. }
  rewrite I. pose proof (co_built _ _ C) as Bu. rewrite Bu. cbn [negb orb]. unfold evaluate_point. rewrite Sh. cbn [bind]. rewrite cube_local.
  rewrite (nested_none f (0, 1, 2)%nat _ (V3 (/ 4) 0 0) 0 0 1); [reflexivity|]. rewrite Or. intros k0 k1 k2 E0 E1 E2.
  destruct (core_curve f cube 0 C ltac:(lia) eq_refl cube_solid) as (e0 & De0 & Dg0 & Dc0 & Ln0 & F0). destruct (core_curve f cube 2 C ltac:(lia) eq_refl cube_solid) as (e2 & De2 & Dg2 & Dc2 & Ln2 & F2).
  rewrite (Dg 0%nat) in Dg0 by lia. assert (H : e0 = 1%nat) by lia. rewrite H in Dc0, F0. rewrite Dc0. split; [lia|].
  assert (N0 : dimn f 0 = 3%nat) by (unfold dimn; rewrite (Dm 0%nat) by lia; reflexivity). assert (N2 : dimn f 2 = 2%nat) by (unfold dimn; rewrite (Dm 2%nat) by lia; reflexivity).
  rewrite N0 in F0. destruct (direction _ _ _ _ _ (/ 4) F0) as (k & G & S & _); [cbn; lra|]. cbn [coord vx] in E2. rewrite G in E2. injection E2 as ->.
  assert (K2 : k2 = 2%Z).
  { destruct S as [_ [A B]]. assert (o := eq_refl (vent (getLocalOrigin cube) 0)).
    destruct (Z_lt_ge_dec k2 2) as [L|L].
    - exfalso. assert (X : clamped_knot 3 1 (vent (getLocalOrigin cube) 0) (vent (s_span cube) 0) (k2 + 1) <= 0); [|lra].
      unfold clamped_knot. destruct (Z.leb_spec (k2 + 1) (Z.of_nat 1)); [cbn; lra|]. destruct (Z.leb_spec (Z.of_nat 3) (k2 + 1)); [lia|]. replace k2 with 1%Z by lia. cbn. lra.
    - destruct (Z_lt_ge_dec 2 k2); [|lia]. exfalso. assert (X : / 2 <= clamped_knot 3 1 (vent (getLocalOrigin cube) 0) (vent (s_span cube) 0) k2); [|lra].
      unfold clamped_knot. destruct (Z.leb_spec k2 (Z.of_nat 1)); [lia|]. destruct (Z.leb_spec (Z.of_nat 3) k2); [|lia]. cbn. lra. }
  subst k2. unfold assign. cbn [accessMapNodes]. skip. skip. replace (2 - Z.of_nat 1 + Z.of_nat 1)%Z with 2%Z by reflexivity.
  assert (Z2 : zget (c_nodes (f_c2 f)) 2 = None); [|rewrite Z2; reflexivity]. unfold zget. cbn [Z.ltb Z.compare]. apply nth_error_None. cbn [curve_of] in Ln2. rewrite Ln2, N2. cbn. lia.
Qed.

(** ** A geometry: a triangle in the cube and one that leaves it *)
Definition strip (a : R) : patch := Patch [(0, V3 a 0 0); (1, V3 0 0 0); (2, V3 0 (/ 4) 0); (3, V3 2 0 0)]%nat [(1, [0; 1; 2]); (2, [1; 2; 3])]%nat.
Definition strip_geo (a : R) : geo :=
  Geo (strip a) true (SNode (V3 a 0 0) (V3 2 (/ 4) 0) [1; 2]%nat NoChild NoChild)
    (KNode (V3 a 0 0) 0 KNil (KNode (V3 0 0 0) 1 KNil (KNode (V3 0 (/ 4) 0) 2 KNil (KNode (V3 2 0 0) 3 KNil KNil)))).
Lemma strip_good a : a <= 0 -> good_geo (strip_geo a).
Proof.
  intros A. split; [|split].
  - split; [no_dup|]. split; [no_dup|]. intros c vs [H|[H|[]]]; injection H as <- <-; (split; [discriminate|]); cbn; intuition lia.
  - split; [reflexivity|]. cbn [strip_geo ge_skd ge_patch boxes leaves]. split; [|auto].
    intros c _ vs v p Hc Hv Hp. unfold at_point in Hp. cbn in Hp. repeat (destruct Hp as [Hp|Hp]; [injection Hp as <- <-; intros i Hi; three Hi; cbn; lra|]). destruct Hp.
  - split; [reflexivity|]. cbn [strip_geo ge_kd kd_sorted kd_points List.app Nat.modulo Nat.divmod snd Nat.sub].
    repeat split; intros i q H; cbn in H; repeat (destruct H as [H|H]; [injection H as <- <-; cbn; lra|]); destruct H.
Qed.
Lemma strip_first a : - / 2 - Shape.tol < a <= 0 -> In 1%nat (includeGeometry cube (Some (strip_geo a))).
Proof.
  intros A. cbn [includeGeometry strip_geo ge_skd_ok ge_patch ge_skd]. unfold searchBvTreeMatches. apply filter_In. split.
  - cbn [skd_candidates]. rewrite (intersect_ok cube vzero); [left; reflexivity|apply (reach_good CUBE), reach_new|apply (reach_good CUBE), reach_new|exact cube_solid|exact I| |].
    + unfold basic. rewrite cube_local. intros i Hi. three Hi; cbn; lra.
    + intros i Hi. three Hi; cbn; lra.
  - unfold cellIncluded. apply fold_and. split; [reflexivity|]. pose proof tol_pos as Tp.
    intros v [<-|[<-|[<-|[]]]]; cbn [coords strip p_verts Nat.eqb]; apply cube_included; intros i Hi; three Hi; cbn [vent vx vy vz]; lra.
Qed.
Lemma strip_second a : ~ In 2%nat (includeGeometry cube (Some (strip_geo a))).
Proof.
  cbn [includeGeometry strip_geo ge_skd_ok ge_patch ge_skd]. unfold searchBvTreeMatches. intros H. apply filter_In in H. destruct H as [_ H].
  unfold cellIncluded in H. apply fold_and in H. destruct H as [_ H]. specialize (H 3%nat (or_intror (or_intror (or_introl eq_refl)))). cbn [coords strip p_verts Nat.eqb] in H.
  rewrite included_iff in H. specialize (H 0%nat ltac:(lia)). unfold basic in H. rewrite cube_local in H. cbn in H. pose proof tol_pos. unfold Rdiv in H. rewrite ?Rinv_1 in H. lra.
Qed.
Lemma strip_affected a id : - / 2 - Shape.tol < a <= 0 -> affected cube (strip_geo a) id <-> (id <= 2)%nat.
Proof.
  intros A. unfold affected. cbn [strip_geo ge_skd_ok]. split.
  - intros (c & vs & I & [J|[J|[]]] & K); injection J as <- <-; [cbn in K; lia|]. destruct (strip_second a I).
  - intros H. exists 1%nat, [0; 1; 2]%nat. split; [apply strip_first, A|]. split; [left; reflexivity|]. cbn. lia.
Qed.

(** ** A cube with an unclamped direction *)
Definition loose : shape := setCoordinateType cube UNCLAMPED 0.
Lemma loose_reach : reach CUBE loose.
Proof. apply (reach_call CUBE cube (OpType UNCLAMPED 0)); [apply reach_new|reflexivity]. Qed.
Lemma loose_knots : setKnotsStructure UNCLAMPED 2 1 1 (- / 2) =
  Some (Cu 1 [- / 2 - (- / 2 + 1 + tol - - / 2); - / 2; - / 2 + 1 + tol; - / 2 + 1 + tol + (- / 2 + 1 + tol - - / 2)] [0; 1; 2; 3]%nat [0; 1]%Z).
Proof.
  unfold setKnotsStructure, setKnots, getNodeSpacing. cbn [Nat.sub seq map length get nth_error bind Nat.add].
  replace (- / 2 + INR 0 * (1 / INR 1)) with (- / 2) by (cbn; field). replace (- / 2 + INR 1 * (1 / INR 1)) with (- / 2 + 1) by (cbn; field).
  cbn. reflexivity.
Qed.
Lemma loose_interval c x : setKnotsStructure UNCLAMPED 2 1 1 (- / 2) = Some c -> - / 2 - tol / 2 <= x < - / 2 -> getKnotInterval c x = Some 0%Z /\ c_deg c = 1%nat /\ c_nodes c = [0; 1]%Z.
Proof.
  rewrite loose_knots. intros E X. injection E as <-. split; [|split; reflexivity]. assert (T : 0 < tol < / 1000) by exact tol_pos.
  unfold getKnotInterval. cbn [c_knots length get nth_error bind Nat.sub]. destruct (Rlt_dec x _); [lra|]. destruct (Rle_dec _ x); [lra|].
  cbn [search Nat.add Nat.div Nat.divmod fst get nth_error bind]. destruct (Rlt_dec x (- / 2)); [|lra].
  cbn [search Nat.add Nat.div Nat.divmod fst get nth_error bind]. destruct (Rlt_dec x _); [lra|]. destruct (Rle_dec (- / 2) x); [lra|]. cbn [bind]. reflexivity.
Qed.
Definition edge : R := - / 2 - tol / 2.
Lemma loose_ex : exists f, ready f loose /\ f_order f = (0, 1, 2)%nat /\ length (f_displ f) = nodes f /\ dimn f 0 = 2%nat /\ MeshSpec.comp (f_deg f) 0 = 1%Z /\ positive_weights f /\ spaced f loose.
Proof.
  destruct (ffd_ex CUBE loose 2 2 2 (1, 1, 1)%Z loose_reach) as (f & B & Rd & Dm & Dg & Sp & Wp & LD).
  - exact cube_solid.
  - intros i Hi. three Hi; cbn; lia.
  - intros i Hi [T|T]; three Hi; discriminate.
  - exists f. split; [exact Rd|]. split; [rewrite (build_order _ _ _ B), !Dm by lia; reflexivity|]. split; [exact LD|]. split; [unfold dimn; rewrite Dm by lia; reflexivity|].
    split; [rewrite (Dg 0%nat) by lia; reflexivity|]. split; assumption.
Qed.
Lemma loose_nested f t y z : ready f loose -> dimn f 0 = 2%nat -> MeshSpec.comp (f_deg f) 0 = 1%Z -> f_order f = (0, 1, 2)%nat -> nested f (0, 1, 2)%nat t (V3 edge y z) = None.
Proof.
  intros Rd D0 Dg Or. pose proof (ready_core f loose Rd) as C. destruct (co_curve _ _ C 0%nat ltac:(lia)) as (e & De & De' & E). rewrite Dg in De'. assert (H : e = 1%nat) by lia. rewrite H, D0 in E.
  change (coord_type loose 0) with UNCLAMPED in E. replace (vent (s_span loose) 0) with 1 in E by (cbn; lra). replace (vent (getLocalOrigin loose) 0) with (- / 2) in E by (cbn; lra).
  assert (T : 0 < tol < / 1000) by exact tol_pos.
  destruct (loose_interval _ edge E) as (G & Dc & Nd); [unfold edge; lra|].
  apply (nested_none f (0, 1, 2)%nat t (V3 edge y z) 0 0 0). rewrite Or. intros k0 k1 k2 E0 _ _. split; [lia|]. cbn [curve_of coord vx] in *. rewrite G in E0. injection E0 as <-. rewrite Dc. reflexivity.
Qed.
Lemma loose_none f : ready f loose -> dimn f 0 = 2%nat -> MeshSpec.comp (f_deg f) 0 = 1%Z -> f_order f = (0, 1, 2)%nat ->
  evaluate f (V3 edge 0 0) = None /\ apply_point f (V3 edge 0 0) = None.
Proof.
  intros Rd D0 Dg Or. pose proof (ready_core f loose Rd) as C. assert (Sh : m_shape (f_mesh f) = Some loose) by apply Rd.
  assert (L : toLocalCoord loose (V3 edge 0 0) = V3 edge 0 0) by exact (cube_local (V3 edge 0 0)). split.
  - unfold evaluate. rewrite Sh. cbn [bind]. rewrite L, Or, loose_nested by assumption. reflexivity.
  - unfold apply_point. rewrite Sh. cbn [bind]. change (isPointIncluded loose (V3 edge 0 0)) with (isPointIncluded cube (V3 edge 0 0)).
    rewrite cube_included. 2:{ intros i Hi. assert (T : 0 < tol < / 1000) by exact tol_pos. change Shape.tol with tol. three Hi; cbn [vent vx vy vz]; unfold edge; lra. }
    pose proof (co_built _ _ C) as Bu. rewrite Bu. cbn [negb orb]. unfold evaluate_point. rewrite Sh. cbn [bind]. rewrite L, loose_nested by assumption. reflexivity.
Qed.
Lemma loop_none {A B} (F : A -> option B) l a : In a l -> F a = None -> forall r, loop (fun a r => do d <- F a; Some (r ++ [d])) l r = None.
Proof.
  intros I Fa. induction l as [|b l IH]; intros r; [destruct I|]. cbn [loop]. destruct I as [->|I]; [rewrite Fa; reflexivity|]. destruct (F b); [|reflexivity]. cbn [bind]. apply IH, I.
Qed.
Lemma execute_none G f s g id : ready f s -> f_geo f = Some g -> good_geo (G g) -> affected s (G g) id -> evaluate f (coords (p_verts (ge_patch (G g))) id) = None -> ffd_execute G f = None.
Proof.
  intros Rd Fg Gg A E. pose proof (ready_core f s Rd) as C. unfold ffd_execute. rewrite Fg. cbn [bind]. rewrite (co_built _ _ C). cbn [bind]. unfold apply_list. rewrite Fg, (co_built _ _ C). cbn [negb].
  destruct Rd as [_ Sh]. rewrite Sh. cbn [bind]. unfold evaluate_list. destruct (recover_all f (f_displ f)); [|reflexivity]. cbn [bind]. destruct (recover_all f (f_weights f)); [|reflexivity]. cbn [bind].
  rewrite (loop_none (fun id => evaluate f (coords (p_verts (ge_patch (G g))) id)) _ id); [reflexivity|apply listed_affected; assumption|exact E].
Qed.
Lemma loose_execute : exists f (G : geometries), ready f loose /\ (forall k, good_geo (G k)) /\ spaced f loose /\ positive_weights f /\ length (f_displ f) = nodes f /\
  (forall id q, In (id, q) (p_verts (ge_patch (G 0%nat))) -> affected loose (G 0%nat) id -> isPointIncluded loose q = true) /\
  ffd_execute G (prepared f (f_displ f) true no_field 0) = None.
Proof.
  destruct loose_ex as (f & Rd & Or & LD & D0 & Dg & Wp & Sp). exists f, (fun _ => strip_geo edge). assert (T : 0 < tol < / 1000) by exact tol_pos.
  assert (Ed : - / 2 - Shape.tol < edge <= 0) by (change Shape.tol with tol; unfold edge; lra).
  split; [exact Rd|]. split; [intros _; apply strip_good; lra|]. split; [exact Sp|]. split; [exact Wp|]. split; [exact LD|]. split.
  - intros id q I A. apply (strip_affected edge id Ed) in A. change (isPointIncluded cube q = true). apply cube_included. change Shape.tol with tol in *.
    cbn in I. repeat (destruct I as [I|I]; [injection I as <- <-; intros i Hi; three Hi; cbn [vent vx vy vz]; first [lia | lra]|]). destruct I.
  - destruct (loose_none f Rd D0 Dg Or) as [E _].
    assert (Rd' : ready (prepared f (f_displ f) true no_field 0) loose).
    { destruct Rd as ((f0 & f1 & R & B & Tu) & Sh). split; [|exact Sh]. exists f0, f1. split; [exact R|]. split; [exact B|]. unfold prepared. apply tuned_geo, tuned_filter, tuned_global, tuned_displ, Tu. }
    assert (E' : evaluate (prepared f (f_displ f) true no_field 0) (V3 edge 0 0) = None).
    { destruct (loose_none _ Rd' D0 Dg Or) as [E' _]. exact E'. }
    apply (execute_none _ _ loose 0%nat 0%nat Rd' eq_refl); [apply strip_good; lra| |exact E']. apply (strip_affected edge 0 Ed). lia.
Qed.

(** ** Weights and displacements *)
Lemma cube_ready : exists f, ready f cube /\ (forall i, (i < 3)%nat -> dim (f_mesh f) i = want 3 3 3 i) /\ (forall i, (i < 3)%nat -> MeshSpec.comp (f_deg f) i = 2%Z) /\
  spaced f cube /\ positive_weights f /\ length (f_displ f) = nodes f.
Proof.
  destruct (cube_ex 3 3 3 (2, 2, 2)%Z) as (f & B & Rd & Dm & Dg & Sp & Wp & LD); try lia. exists f. split; [exact Rd|]. split; [exact Dm|]. split; [|auto].
  intros i Hi. rewrite Dg by exact Hi. three Hi; reflexivity.
Qed.
Lemma nodes_pos f s : core f s -> (0 < getNNodes (f_lat f))%Z.
Proof.
  intros C. destruct (numbers (f_lat f) s (co_good _ _ C)) as (_ & Nu & _). destruct (Nu 0%Z) as (d & _ & Rd); [|lia].
  split; [lia|]. fold (f_mesh f). unfold num_points. destruct (co_curve _ _ C 0%nat ltac:(lia)) as (e0 & D0 & _). destruct (co_curve _ _ C 1%nat ltac:(lia)) as (e1 & D1 & _). destruct (co_curve _ _ C 2%nat ltac:(lia)) as (e2 & D2 & _).
  unfold dimn in *. nia.
Qed.
Lemma weight_lost : exists f f1 f2 f3 d, ready f cube /\ setNodalWeight f 2 0 = Some f1 /\ build f1 = Some (true, f2) /\ accessDOFFromGrid (f_lat f2) 0 = Some d /\ zget (f_weights f2) d = Some 2 /\
  build f2 = Some (true, f3) /\ f_lat f3 = f_lat f2 /\ zget (f_weights f3) d = Some 1.
Proof.
  destruct cube_ready as (f & Rd & Dm & _). pose proof (ready_core f cube Rd) as C. assert (Np : (0 < num_points (f_mesh f))%Z) by (unfold num_points; rewrite !Dm by lia; reflexivity).
  destruct (ready_weights f cube [(0%Z, 2)] Rd) as (f1 & f2 & W & B & Rd2 & L2 & _ & _ & Ww). { intros i w [E|[]]. injection E as <- <-. lia. }
  cbn [weigh] in W. destruct (setNodalWeight f 2 0) as [f1'|] eqn:E1; [|discriminate]. apply (f_equal (fun o => match o with Some p => p | None => f end)) in W. subst f1'.
  destruct (numbers (f_lat f) cube (co_good _ _ C)) as (_ & Nu & _). destruct (Nu 0%Z) as (d & Ed & Rd0); [fold (f_mesh f); lia|].
  destruct (ready_weights f2 cube [] Rd2) as (f2' & f3 & W3 & B3 & _ & L3 & _ & _ & Ww3). { intros i w []. } cbn [weigh] in W3. apply (f_equal (fun o => match o with Some p => p | None => f end)) in W3. subst f2'.
  exists f, f1, f2, f3, d. split; [exact Rd|]. split; [exact E1|]. split; [exact B|]. split; [rewrite L2; exact Ed|]. split; [rewrite Ww by exact Rd0; cbn [last_weight]; rewrite Ed, Z.eqb_refl; reflexivity|].
  split; [exact B3|]. split; [exact L3|]. rewrite Ww3 by (rewrite L2; exact Rd0). reflexivity.
Qed.
Lemma short_none G f s g fl : ready f s -> ffd_execute G (prepared f [] true fl g) = None.
Proof.
  intros Rd. pose proof (ready_core f s Rd) as C. pose proof (like_core f _ s (prepared_like f [] true fl g) C) as C'. unfold ffd_execute. change (f_geo (prepared f [] true fl g)) with (Some g). cbn [bind].
  rewrite (co_built _ _ C'). cbn [bind]. unfold apply_list. change (f_geo (prepared f [] true fl g)) with (Some g). rewrite (co_built _ _ C'). cbn [negb]. destruct Rd as [_ Sh]. change (f_mesh (prepared f [] true fl g)) with (f_mesh f). rewrite Sh. cbn [bind].
  unfold evaluate_list. change (f_displ (prepared f [] true fl g)) with (@nil vec). assert (R : recover_all (prepared f [] true fl g) (@nil vec) = None); [|rewrite R; reflexivity].
  unfold recover_all. change (f_mesh (prepared f [] true fl g)) with (f_mesh f). destruct (getDimension (f_mesh f)) as [[a b] c] eqn:Dm.
  assert (Np : num_points (f_mesh f) = (a * b * c)%Z) by (unfold num_points, MeshSpec.dim; rewrite Dm; reflexivity).
  assert (P : (0 < a * b * c)%Z).
  { rewrite <- Np. unfold num_points. destruct (co_curve _ _ C 0%nat ltac:(lia)) as (e0 & D0 & _). destruct (co_curve _ _ C 1%nat ltac:(lia)) as (e1 & D1 & _). destruct (co_curve _ _ C 2%nat ltac:(lia)) as (e2 & D2 & _). unfold dimn in *. nia. }
  destruct (Z.to_nat (a * b * c)) as [|n] eqn:En; [lia|]. cbn [seq loop]. unfold recover. destruct (zget (l_map (f_lat (prepared f [] true fl g))) (Z.of_nat 0)) as [d|]; [|reflexivity]. cbn [bind].
  unfold zget. destruct (Z.ltb d 0); [reflexivity|]. destruct (Z.to_nat d); reflexivity.
Qed.
(** ** The default cylinder: the azimuth is periodic *)
Lemma round_ready : exists f, ready f (new_shape CYLINDER) /\ ShapeSpec.solid (new_shape CYLINDER) /\ spaced f (new_shape CYLINDER) /\ positive_weights f /\ coord_type (new_shape CYLINDER) 1 = PERIODIC /\ length (f_displ f) = nodes f.
Proof.
  assert (P := PI_RGT_0). assert (P2 := PI2_1). assert (So : ShapeSpec.solid (new_shape CYLINDER)) by (intros i Hi; three Hi; cbn; lra).
  destruct (ffd_ex CYLINDER (new_shape CYLINDER) 3 5 2 (2, 2, 1)%Z) as (f & B & Rd & Dm & Dg & Sp & Wp & LD).
  - apply reach_new.
  - exact So.
  - intros i Hi. three Hi; cbn; lia.
  - intros i Hi _. three Hi; cbn; lra.
  - exists f. split; [exact Rd|]. split; [exact So|]. split; [exact Sp|]. split; [exact Wp|]. split; [reflexivity|exact LD].
Qed.
Lemma round_box : in_box (new_shape CYLINDER) (toWorldCoord (new_shape CYLINDER) (V3 (/ 2) 1 0)).
Proof.
  assert (P := PI_RGT_0). assert (P2 := PI2_1). destruct (reach_good _ _ (reach_new CYLINDER)) as (F & G & _).
  assert (I : in_param (new_shape CYLINDER) (V3 (/ 2) 1 0)) by (intros i Hi; three Hi; cbn; lra).
  unfold in_box. rewrite local_world_local; [exact I|exact F|exact G|intros i Hi; three Hi; cbn; lra|exact I|]. unfold singular. cbn. lra.
Qed.
