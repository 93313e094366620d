(** Concrete shapes and geometries: they meet the hypotheses of the theorems of ShapeProps, or
    show that the code does not have a property. *)
From Coq Require Import Reals List Arith ZArith Bool Lia Lra Psatz Permutation.
From Verif Require Import Vec Shape ShapeSpec ShapeProofs ShapeCoord ShapeSel ShapeSelSpec ShapeSelProofs.
Import ListNotations.
Open Scope R_scope.

Lemma pi_big : 2 < PI.
Proof. pose proof PI2_1. lra. Qed.
Lemma pi_4 : PI <= 4.
Proof. exact PI_4. Qed.

(** A sector of cylinder: radius 1, angle 1/2, height 1. *)
Definition sector : shape := Sh CYLINDER vzero (V3 1 (/ 2) 1) vzero ident ident (V3 1 1 1) CLAMPED PERIODIC CLAMPED.
Lemma sector_is : setSpan (new_shape CYLINDER) (V3 1 (/ 2) 1) = sector.
Proof.
  pose proof pi_big. unfold setSpan, checkSpan. cbn [s_kind new_shape vabs vx vy vz]. rewrite atan_1_4.
  rewrite (Rabs_right 1) by lra. rewrite (Rabs_right (/ 2)) by lra. rewrite Rmin_left by lra.
  destruct (Rlt_dec (/ 2) (2 * PI)); [reflexivity|lra].
Qed.
Lemma sector_reach : reach CYLINDER sector.
Proof. eapply reach_call; [apply reach_new|]. instantiate (1 := OpSpan (V3 1 (/ 2) 1)). cbn [call]. rewrite sector_is. reflexivity. Qed.
Lemma sector_solid : solid sector.
Proof. intros i Hi. three Hi; cbn; lra. Qed.
Lemma sector_world b : toWorldCoord sector (basicToLocal sector b) =
  V3 (vx b * cos (vy b / 2)) (vx b * sin (vy b / 2)) (vz b - / 2).
Proof.
  unfold toWorldCoord, basicToLocal, getLocalOrigin. cbn [s_kind sector s_span s_scaling s_inf s_inv s_origin vadd cmul vx vy vz vzero].
  replace ((vy b * / 2 + 0) * 1 + 0) with (vy b / 2) by (unfold Rdiv; ring).
  apply vec_ext; unfold dots, dot, ident, vzero; cbn [row0 row1 row2 vadd vx vy vz]; ring.
Qed.
Lemma sector_in x z : 0 < x <= 1 -> - / 2 <= z <= / 2 -> isPointIncluded sector (V3 x 0 z) = true.
Proof.
  intros X Z. destruct (reach_good _ _ sector_reach) as (F & G & _).
  assert (E : V3 x 0 z = toWorldCoord sector (basicToLocal sector (V3 x 0 (z + / 2)))).
  { rewrite sector_world. cbn [vx vy vz]. replace (0 / 2) with 0 by field. rewrite cos_0, sin_0. apply vec_ext; cbn; ring. }
  rewrite E. apply regular_included; try assumption.
  - exact sector_solid.
  - intros i Hi. three Hi; cbn; lra.
  - pose proof pi_big. unfold singular, basicToLocal. cbn. intros [H0|H0]; lra.
Qed.

(** Angles of the corners of a box. *)
Lemma angle_up x y : 0 < x <= y -> PI / 4 <= angle y x.
Proof.
  intros H. unfold angle, atan2. destruct (Rlt_dec 0 x); [|lra].
  assert (A : PI / 4 <= atan (y / x)).
  { rewrite <- atan_1. destruct (Req_dec x y) as [->|N]; [right; f_equal; field; lra|]. left. apply atan_increasing.
    apply Rmult_lt_reg_r with x; [lra|]. replace (y / x * x) with y by (field; lra). lra. }
  pose proof pi_big. unfold getSign. destruct (Rlt_dec _ 0); lra.
Qed.
Lemma angle_down x y : 0 < x -> y < 0 -> PI <= angle y x.
Proof.
  intros X Y. unfold angle, atan2. destruct (Rlt_dec 0 x); [|lra].
  assert (A : atan (y / x) < 0).
  { rewrite <- atan_0. apply atan_increasing. unfold Rdiv. assert (0 < / x) by (apply Rinv_0_lt_compat; lra). nra. }
  pose proof (atan_bound (y / x)). unfold getSign. destruct (Rlt_dec _ 0); lra.
Qed.

(** Cell 1 is a small triangle in the sector; cell 2 a large one across it. *)
Definition fan : patch := Patch
  [(10, V3 (3 / 4) 0 0); (11, V3 (4 / 5) 0 0); (12, V3 (3 / 4) 0 (/ 4)); (20, V3 (/ 2) (-1) 0); (21, V3 1 (-1) 0); (22, V3 1 1 (/ 4))]%nat
  [(1, [10; 11; 12]); (2, [20; 21; 22])]%nat.
Definition fan_skd : skd :=
  SNode (V3 (/ 2) (-1) 0) (V3 1 1 (/ 4)) []
    (SNode (V3 (3 / 4) 0 0) (V3 (4 / 5) 0 (/ 4)) [1%nat] NoChild NoChild)
    (SNode (V3 (/ 2) (-1) 0) (V3 1 1 (/ 4)) [2%nat] NoChild NoChild).
Definition fan_kd : kd :=
  KNode (V3 (3 / 4) 0 0) 10
    (KNode (V3 (/ 2) (-1) 0) 20 KNil (KNode (V3 (3 / 4) 0 (/ 4)) 12 KNil KNil))
    (KNode (V3 (4 / 5) 0 0) 11 (KNode (V3 1 (-1) 0) 21 KNil KNil) (KNode (V3 1 1 (/ 4)) 22 KNil KNil)).
Definition fan_geo : geo := Geo fan true fan_skd fan_kd.
Ltac no_dup := repeat (constructor; [cbn; lia|]); constructor.
Lemma fan_good : good_geo fan_geo.
Proof.
  split; [|split].
  - split; [|split]; cbn [fan_geo ge_patch fan p_verts p_cells map fst].
    + no_dup.
    + no_dup.
    + intros c vs [H|[H|[]]]; injection H as <- <-; (split; [discriminate|]); cbn; intuition lia.
  - split; [cbn; reflexivity|].
    assert (C1 : forall b t, in_aabb (V3 (3 / 4) 0 0) b t -> in_aabb (V3 (4 / 5) 0 0) b t -> in_aabb (V3 (3 / 4) 0 (/ 4)) b t ->
                 cell_all fan 1 (fun p => in_aabb p b t)).
    { intros b t A B C vs v p Hc Hv Hp. destruct Hc as [Hc|[Hc|[]]]; [|discriminate]. injection Hc as <-.
      destruct Hv as [<-|[<-|[<-|[]]]]; unfold at_point in Hp; cbn in Hp;
        repeat (destruct Hp as [Hp|Hp]; [first [discriminate | injection Hp as <-; assumption]|]); destruct Hp. }
    assert (C2 : forall b t, in_aabb (V3 (/ 2) (-1) 0) b t -> in_aabb (V3 1 (-1) 0) b t -> in_aabb (V3 1 1 (/ 4)) b t ->
                 cell_all fan 2 (fun p => in_aabb p b t)).
    { intros b t A B C vs v p Hc Hv Hp. destruct Hc as [Hc|[Hc|[]]]; [discriminate|]. injection Hc as <-.
      destruct Hv as [<-|[<-|[<-|[]]]]; unfold at_point in Hp; cbn in Hp;
        repeat (destruct Hp as [Hp|Hp]; [first [discriminate | injection Hp as <-; assumption]|]); destruct Hp. }
    cbn [fan_geo ge_patch ge_skd fan_skd boxes leaves app]. split; [|split; [split; [|auto]|split; [|auto]]].
    + intros c [<-|[<-|[]]]; [apply C1|apply C2]; intros i Hi; three Hi; cbn; lra.
    + intros c [<-|[]]; apply C1; intros i Hi; three Hi; cbn; lra.
    + intros c [<-|[]]; apply C2; intros i Hi; three Hi; cbn; lra.
  - split.
    + cbn [fan_geo ge_patch ge_kd fan_kd kd_points fan p_verts app].
      apply NoDup_Permutation.
      * apply (NoDup_map_inv fst). cbn. no_dup.
      * apply (NoDup_map_inv fst). cbn. no_dup.
      * intros x; cbn; tauto.
    + cbn [fan_geo ge_kd fan_kd kd_sorted kd_points app Nat.modulo Nat.divmod snd Nat.sub].
      repeat split; intros i q H; cbn in H;
        repeat (destruct H as [H|H]; [injection H as <- <-; cbn; lra|]); destruct H.
Qed.

Lemma fan_cell : In 1%nat (includeGeometryPatch sector fan).
Proof.
  unfold includeGeometryPatch. apply filter_In. split; [left; reflexivity|].
  unfold cellIncluded. apply fold_and. split; [reflexivity|].
  intros v [<-|[<-|[<-|[]]]]; cbn [coords fan p_verts Nat.eqb]; apply sector_in; lra.
Qed.
(** The box of the root is discarded: all its corners are beyond the angle of the sector. *)
Lemma sector_basic_y x y z : x <> 0 -> vy (localToBasic sector (toLocalCoord sector (V3 x y z))) = 2 * from_mark (angle y x) 0.
Proof.
  intros X. unfold localToBasic, toLocalCoord, getLocalOrigin. cbn [s_kind sector s_span s_scaling s_inf s_sdr s_origin].
  assert (E : dots (vsub (V3 x y z) vzero) ident = V3 x y z) by (apply vec_ext; unfold dots, dot, ident; cbn; ring).
  rewrite E. cbn [vx vy vz]. destruct (Req_EM_T x 0) as [N|_]; [contradiction|].
  unfold cdiv, vadd, vscale. cbn [vx vy vz vzero]. field.
Qed.
Lemma from_mark_0 t : 0 <= t < 2 * PI -> from_mark t 0 = t.
Proof. intros H. unfold from_mark. cbn zeta. destruct (Rlt_dec (t - 0) 0); [lra|]. destruct (Rlt_dec (2 * PI) (t - 0)); lra. Qed.
Lemma sector_beyond x y z : 0 < x -> y < 0 \/ x <= y -> 1 < vy (localToBasic sector (toLocalCoord sector (V3 x y z))).
Proof.
  intros X Y. rewrite sector_basic_y by lra. assert (N : x <> 0 \/ y <> 0) by (left; lra).
  destruct (angle_ok x y N) as (_ & _ & B). rewrite from_mark_0 by exact B. pose proof pi_big.
  destruct Y as [Y|Y]; [pose proof (angle_down x y X Y)|pose proof (angle_up x y (conj X Y))]; lra.
Qed.
Lemma fan_root_out b t c l r : b = V3 (/ 2) (-1) 0 -> t = V3 1 1 (/ 4) -> skd_candidates sector (SNode b t c l r) = [].
Proof.
  intros -> ->. cbn [skd_candidates]. unfold intersectShapeAABBox, sector at 1. cbn [s_kind].
  assert (H : roundAABB sector (V3 (/ 2) (-1) 0) (V3 1 1 (/ 4)) = false).
  { unfold roundAABB. destruct (Rlt_dec _ 0); [reflexivity|].
    match goal with |- (if Rlt_dec 1 ?m then _ else _) = _ => assert (L : 1 < m) end.
    { set (l' := map vy _). pose proof (lmin_in big l') as I. destruct I as [E|I].
      - rewrite <- E. unfold big. assert (10 ^ 1 <= 10 ^ 18) by (apply Rle_pow; [lra|lia]). lra.
      - unfold l' in I at 2. rewrite map_map in I. apply in_map_iff in I. destruct I as (v & E & I). fold l' in E. rewrite <- E.
        pose proof pi_big as P. clear E l'.
        cbn [corners vx vy vz In] in I.
        repeat (destruct I as [I|I]; [rewrite <- I; apply sector_beyond; lra|]).
        destruct I. }
    destruct (Rlt_dec 1 _); [reflexivity|contradiction]. }
  rewrite H. reflexivity.
Qed.
Lemma fan_missed : ~ In 1%nat (includeGeometry sector (Some fan_geo)).
Proof.
  cbn [includeGeometry fan_geo ge_skd_ok ge_patch ge_skd]. unfold searchBvTreeMatches, fan_skd.
  rewrite fan_root_out by reflexivity. intros [].
Qed.

(** A wedge with turned axes. *)
Definition turned : mat := M3 (V3 (3 / 5) (4 / 5) 0) (V3 (- (4 / 5)) (3 / 5) 0) (V3 0 0 1).
Lemma norm_1 v : dot v v = 1 -> norm v = 1.
Proof. intros H. unfold norm. rewrite H. apply sqrt_1. Qed.
Lemma turned_set s : setRefSystem s (row0 turned) (row1 turned) (row2 turned) = Changed (with_frame s turned).
Proof.
  unfold setRefSystem, turned. cbn [row0 row1 row2].
  rewrite !norm_1 by (unfold dot; cbn; field). destruct (Rlt_dec 0 1); [|lra].
  rewrite !vdivs_1 by reflexivity.
  match goal with |- (if Rlt_dec _ ?v then _ else _) = _ => replace v with 0 end.
  - destruct (Rlt_dec (/ 1000) 0); [lra|reflexivity].
  - unfold dot; cbn. replace (3 / 5 * - (4 / 5) + 4 / 5 * (3 / 5) + 0 * 0) with 0 by field.
    replace (- (4 / 5) * 0 + 3 / 5 * 0 + 0 * 1) with 0 by field. replace (3 / 5 * 0 + 4 / 5 * 0 + 0 * 1) with 0 by field. rewrite Rabs_R0. ring.
Qed.
Lemma turned_inverse : inverse turned = transpose turned.
Proof.
  unfold inverse, turned, det, transpose. cbn [row0 row1 row2 vx vy vz]. f_equal; apply vec_ext; cbn [vx vy vz]; field.
Qed.
Definition tilted (k : kind) : shape := with_frame (new_shape k) turned.
Lemma tilted_reach k : reach k (tilted k).
Proof. eapply reach_call; [apply reach_new|]. instantiate (1 := OpFrame (row0 turned) (row1 turned) (row2 turned)). exact (turned_set _). Qed.
Lemma tilted_solid k : solid (tilted k).
Proof. pose proof pi_big. intros i Hi. destruct k; three Hi; cbn; lra. Qed.

Definition slab : patch := Patch [(10, V3 (-29 / 50) (14 / 25) 0); (20, V3 (-3 / 5) (-1) 0); (21, V3 (-11 / 20) (3 / 5) 0)]%nat [(1, [10]); (2, [20; 21])]%nat.
Definition slab_skd : skd :=
  SNode (V3 (-3 / 5) (-1) 0) (V3 (-11 / 20) (3 / 5) 0) []
    (SNode (V3 (-29 / 50) (14 / 25) 0) (V3 (-29 / 50) (14 / 25) 0) [1%nat] NoChild NoChild)
    (SNode (V3 (-3 / 5) (-1) 0) (V3 (-11 / 20) (3 / 5) 0) [2%nat] NoChild NoChild).
Definition slab_kd : kd := KNode (V3 (-29 / 50) (14 / 25) 0) 10 (KNode (V3 (-3 / 5) (-1) 0) 20 KNil KNil) (KNode (V3 (-11 / 20) (3 / 5) 0) 21 KNil KNil).
Definition slab_geo : geo := Geo slab true slab_skd slab_kd.
Lemma slab_good : good_geo slab_geo.
Proof.
  split; [|split].
  - split; [|split]; cbn [slab_geo ge_patch slab p_verts p_cells map fst].
    + no_dup.
    + no_dup.
    + intros c vs [H|[H|[]]]; injection H as <- <-; (split; [discriminate|]); cbn; intuition lia.
  - split; [cbn; reflexivity|].
    assert (C1 : forall b t, in_aabb (V3 (-29 / 50) (14 / 25) 0) b t -> cell_all slab 1 (fun p => in_aabb p b t)).
    { intros b t A vs v p Hc Hv Hp. destruct Hc as [Hc|[Hc|[]]]; [|discriminate]. injection Hc as <-.
      destruct Hv as [<-|[]]; unfold at_point in Hp; cbn in Hp;
        repeat (destruct Hp as [Hp|Hp]; [first [discriminate | injection Hp as <-; assumption]|]); destruct Hp. }
    assert (C2 : forall b t, in_aabb (V3 (-3 / 5) (-1) 0) b t -> in_aabb (V3 (-11 / 20) (3 / 5) 0) b t ->
                 cell_all slab 2 (fun p => in_aabb p b t)).
    { intros b t A B vs v p Hc Hv Hp. destruct Hc as [Hc|[Hc|[]]]; [discriminate|]. injection Hc as <-.
      destruct Hv as [<-|[<-|[]]]; unfold at_point in Hp; cbn in Hp;
        repeat (destruct Hp as [Hp|Hp]; [first [discriminate | injection Hp as <-; assumption]|]); destruct Hp. }
    cbn [slab_geo ge_patch ge_skd slab_skd boxes leaves app]. split; [|split; [split; [|auto]|split; [|auto]]].
    + intros c [<-|[<-|[]]]; [apply C1|apply C2]; intros i Hi; three Hi; cbn; lra.
    + intros c [<-|[]]; apply C1; intros i Hi; three Hi; cbn; lra.
    + intros c [<-|[]]; apply C2; intros i Hi; three Hi; cbn; lra.
  - split.
    + cbn [slab_geo ge_patch ge_kd slab_kd kd_points slab p_verts app]. reflexivity.
    + cbn [slab_geo ge_kd slab_kd kd_sorted kd_points app Nat.modulo Nat.divmod snd Nat.sub].
      repeat split; intros i q H; cbn in H;
        repeat (destruct H as [H|H]; [injection H as <- <-; cbn; lra|]); destruct H.
Qed.
Lemma tilted_along v : along (tilted WEDGE) (row0 turned) v = 3 / 5 * vx v + 4 / 5 * vy v /\
  along (tilted WEDGE) (row1 turned) v = - (4 / 5) * vx v + 3 / 5 * vy v /\ along (tilted WEDGE) (row2 turned) v = vz v.
Proof. unfold along, dot, vsub; cbn. repeat split; ring. Qed.
Lemma slab_cell : cell_all slab 1 (inside (tilted WEDGE)) /\ In 1%nat (includeGeometryPatch (tilted WEDGE) slab).
Proof.
  assert (I : inside (tilted WEDGE) (V3 (-29 / 50) (14 / 25) 0)).
  { exists (V3 (/ 10) (8 / 9) (/ 2)). split; [intros i Hi; three Hi; cbn; lra|].
    unfold toWorldCoord, basicToLocal, getLocalOrigin, tilted, with_frame. cbn [s_kind new_shape s_scaling s_inv s_origin].
    rewrite turned_inverse. unfold turned, transpose, dots, dot, cmul, vadd. apply vec_ext; cbn; field. }
  assert (C : cell_all slab 1 (inside (tilted WEDGE))).
  { intros vs v p Hc Hv Hp. destruct Hc as [Hc|[Hc|[]]]; [|discriminate]. injection Hc as <-.
    destruct Hv as [<-|[]]; unfold at_point in Hp; cbn in Hp;
      repeat (destruct Hp as [Hp|Hp]; [first [discriminate | injection Hp as <-; assumption]|]); destruct Hp. }
  split; [exact C|]. unfold includeGeometryPatch. apply filter_In. split; [left; reflexivity|].
  destruct (reach_good _ _ (tilted_reach WEDGE)) as (F & G & _).
  apply cellIncluded_iff; [apply slab_good|left; reflexivity|].
  intros vs v p H1 H2 H3. apply inside_included; auto using tilted_solid; try constructor. exact (C vs v p H1 H2 H3).
Qed.
Lemma slab_missed : ~ In 1%nat (includeGeometry (tilted WEDGE) (Some slab_geo)).
Proof.
  cbn [includeGeometry slab_geo ge_skd_ok ge_patch ge_skd]. unfold searchBvTreeMatches, slab_skd. cbn [skd_candidates].
  assert (H : intersectShapeAABBox (tilted WEDGE) (V3 (-3 / 5) (-1) 0) (V3 (-11 / 20) (3 / 5) 0) = false).
  { unfold intersectShapeAABBox. change (s_kind (tilted WEDGE)) with WEDGE. cbn iota. unfold wedgeAABB.
    destruct (Rlt_dec _ (lmin _ _)); [reflexivity|]. destruct (Rlt_dec (lmax _ _) _); [reflexivity|].
    set (proj := map _ (map _ _)).
    assert (P0 : forall f : vec -> R, f (hd vzero proj) :: map f (tl proj) = map f proj) by reflexivity.
    assert (PP : forall f : vec -> R, map f proj = map (fun v => f (V3 (vx v) (vy v) 0)) (corners (V3 (-3 / 5) (-1) 0) (V3 (-11 / 20) (3 / 5) 0))).
    { intros f. unfold proj. rewrite !map_map. apply map_ext. intros v. f_equal. apply vec_ext; unfold dot; cbn; ring. }
    assert (Hx : lmax (vx (hd vzero proj)) (map vx (tl proj)) <= -11 / 20).
    { pose proof (lmax_in (vx (hd vzero proj)) (map vx (tl proj))) as I. rewrite P0, PP in I. apply in_map_iff in I. destruct I as (v & <- & I).
      cbn [corners In vx vy vz] in I. repeat (destruct I as [I|I]; [rewrite <- I; cbn [vx]; lra|]). destruct I. }
    assert (Ly : lmin (vy (hd vzero proj)) (map vy (tl proj)) <= -1).
    { apply lmin_le. rewrite P0, PP. left. reflexivity. }
    assert (Hy : 3 / 5 <= lmax (vy (hd vzero proj)) (map vy (tl proj))).
    { apply lmax_ge. rewrite P0, PP. do 2 right. left. reflexivity. }
    set (hx := lmax (vx (hd vzero proj)) (map vx (tl proj))) in *. set (lx := lmin (vx (hd vzero proj)) (map vx (tl proj))).
    set (hy := lmax (vy (hd vzero proj)) (map vy (tl proj))) in *. set (ly := lmin (vy (hd vzero proj)) (map vy (tl proj))) in *.
    clearbody hx lx hy ly.
    apply not_true_is_false. intros Inc. pose proof (proj1 (included_iff _ _) Inc 0%nat ltac:(lia)) as I0.
    rewrite wedge_basic in I0 by reflexivity. cbn [vent vx] in I0.
    change (s_sdr (tilted WEDGE)) with turned in I0. change (vx (s_scaling (tilted WEDGE))) with 1 in I0.
    rewrite (proj1 (tilted_along _)) in I0. cbn [vadd nearest vx vy vz] in I0.
    change (vx (s_origin (tilted WEDGE))) with 0 in I0. change (vy (s_origin (tilted WEDGE))) with 0 in I0.
    change (vx vzero) with 0 in I0. change (vy vzero) with 0 in I0.
    assert (HX : Rmin hx (Rmax 0 lx) <= -11 / 20) by (eapply Rle_trans; [apply Rmin_l|exact Hx]).
    assert (HY : Rmin hy (Rmax 0 ly) = 0) by (rewrite Rmax_left by lra; apply Rmin_right; lra).
    rewrite HY in I0. pose proof tol_pos. set (X := Rmin hx _) in *.
    replace ((3 / 5 * (X + 0) + 4 / 5 * (0 + 0)) / 1) with (3 / 5 * X) in I0 by field. lra. }
  rewrite H. intros [].
Qed.

(** Points of a turned cylinder: one vertex (the cloud has one cell). *)
Definition lone : patch := Patch [(5, V3 (9 / 10) 0 0)]%nat [(5, [5])]%nat.
Definition lone_geo : geo := Geo lone true (SNode (V3 (9 / 10) 0 0) (V3 (9 / 10) 0 0) [5%nat] NoChild NoChild) (KNode (V3 (9 / 10) 0 0) 5 KNil KNil).
Lemma lone_good : good_geo lone_geo.
Proof.
  split; [|split].
  - split; [no_dup|]. split; [no_dup|]. intros c vs [H|[]]. injection H as <- <-. split; [discriminate|]. cbn. tauto.
  - split; [reflexivity|]. cbn [lone_geo ge_skd ge_patch boxes leaves]. split; [|auto].
    intros c [<-|[]] vs v p Hc Hv Hp. destruct Hc as [Hc|[]]. injection Hc as <-. destruct Hv as [<-|[]].
    destruct Hp as [Hp|[]]. injection Hp as <-. intros i Hi. three Hi; cbn; lra.
  - split; [reflexivity|]. cbn. tauto.
Qed.
Lemma tilted_world b : toWorldCoord (tilted CYLINDER) (basicToLocal (tilted CYLINDER) b) =
  let r := vx b in let t := vy b * (2 * PI) in
  V3 (3 / 5 * (r * cos t) - 4 / 5 * (r * sin t)) (4 / 5 * (r * cos t) + 3 / 5 * (r * sin t)) (vz b - / 2).
Proof.
  unfold toWorldCoord, basicToLocal, getLocalOrigin, tilted, with_frame.
  cbn [s_kind new_shape s_span s_scaling s_inf s_inv s_origin vadd cmul vx vy vz vzero].
  rewrite turned_inverse. replace ((vy b * (2 * PI) + 0) * 1 + 0) with (vy b * (2 * PI)) by ring.
  unfold turned, transpose, dots, dot, vzero. apply vec_ext; cbn [row0 row1 row2 vx vy vz vadd]; ring.
Qed.
Lemma lone_inside : inside (tilted CYLINDER) (V3 (9 / 10) 0 0) /\ In 5%nat (includeCloudPatch (tilted CYLINDER) lone).
Proof.
  destruct (reach_good _ _ (tilted_reach CYLINDER)) as (F & G & _).
  assert (I : isPointIncluded (tilted CYLINDER) (V3 (9 / 10) 0 0) = true /\ inside (tilted CYLINDER) (V3 (9 / 10) 0 0)).
  { assert (U : unit_cube (basic (tilted CYLINDER) (V3 (9 / 10) 0 0))).
    { destruct (cyl_basic (tilted CYLINDER) (V3 (9 / 10) 0 0) G (tilted_solid CYLINDER) eq_refl eq_refl) as (X & Y & Z).
      assert (R : radius2 (tilted CYLINDER) (V3 (9 / 10) 0 0) = 9 / 10 * (9 / 10)) by (unfold radius2, along, dot, vsub; cbn; field).
      rewrite R, sqrt_square in X by lra. intros i Hi. three Hi; cbn [vent].
      - rewrite X. cbn. lra.
      - exact Y.
      - rewrite Z. unfold along, dot, vsub; cbn. lra. }
    split; [apply unit_included; exact U|]. exists (basic (tilted CYLINDER) (V3 (9 / 10) 0 0)). split; [exact U|].
    unfold basic. rewrite local_basic_local by (auto using tilted_solid). symmetry. apply world_local_world; auto using tilted_solid.
    intros [N _]. discriminate. }
  split; [apply I|]. unfold includeCloudPatch. apply in_map_iff. exists (5%nat, V3 (9 / 10) 0 0). split; [reflexivity|].
  apply filter_In. split; [left; reflexivity|]. apply I.
Qed.
Lemma lone_missed : ~ In 5%nat (includeCloudPoints (tilted CYLINDER) (Some lone_geo)).
Proof.
  cbn [includeCloudPoints lone_geo is_empty ge_patch lone p_verts p_cells ge_kd].
  unfold searchKdTreeMatches. cbn [kd_candidates].
  assert (H : in_box (V3 (9 / 10) 0 0) (fst (bbox (tilted CYLINDER))) (snd (bbox (tilted CYLINDER))) = false).
  { apply not_true_is_false. rewrite in_box_iff. intros H. pose proof (proj2 (H 0%nat ltac:(lia))) as L. revert L.
    apply Rlt_not_le. unfold bbox. cbn [snd vent vx].
    set (l := map vx _). pose proof (lmax_in (- big) l) as I. destruct I as [E|I].
    - rewrite <- E. unfold big. assert (10 ^ 1 <= 10 ^ 18) by (apply Rle_pow; [lra|lia]). lra.
    - unfold l in I at 2. rewrite map_map in I. apply in_map_iff in I. destruct I as (b & E & I). rewrite <- E. clear E l.
      rewrite tilted_world. cbn [vx]. cbv zeta.
      assert (Q : (vx b = 0 \/ vx b = 1) /\ (vy b = 0 \/ vy b = / 4 \/ vy b = / 2 \/ vy b = 3 / 4 \/ vy b = 1)).
      { cbn [samples tilted with_frame s_kind new_shape seq flat_map map app In] in I. unfold samples in I.
        cbn [seq flat_map map app In] in I.
        repeat (destruct I as [I|I]; [rewrite <- I; cbn [vx vy INR]; split; lra|]). destruct I. }
      destruct Q as [[-> | ->] Q].
      + lra.
      + destruct Q as [-> |[-> |[-> |[-> | ->]]]].
        * replace (0 * (2 * PI)) with 0 by ring. rewrite cos_0, sin_0. lra.
        * replace (/ 4 * (2 * PI)) with (PI / 2) by field. rewrite cos_PI2, sin_PI2. lra.
        * replace (/ 2 * (2 * PI)) with PI by field. rewrite cos_PI, sin_PI. lra.
        * replace (3 / 4 * (2 * PI)) with (3 * (PI / 2)) by field. rewrite cos_3PI2, sin_3PI2. lra.
        * replace (1 * (2 * PI)) with (2 * PI) by ring. rewrite cos_2PI, sin_2PI. lra. }
  rewrite H. destruct (Nat.ltb _ _); destruct (Nat.eqb _ _); intros [].
Qed.

(** A triangle in the unit cube: its three vertices are selected, but it has only one cell. *)
Definition tri : patch := Patch [(0, vzero); (1, V3 (/ 4) 0 0); (2, V3 0 (/ 4) 0)]%nat [(0, [0; 1; 2])]%nat.
Definition tri_geo : geo := Geo tri true (SNode vzero (V3 (/ 4) (/ 4) 0) [0%nat] NoChild NoChild)
  (KNode vzero 0 KNil (KNode (V3 (/ 4) 0 0) 1 KNil (KNode (V3 0 (/ 4) 0) 2 KNil KNil))).
Lemma tri_good : good_geo tri_geo.
Proof.
  split; [|split].
  - split; [no_dup|]. split; [no_dup|]. intros c vs [H|[]]. injection H as <- <-. split; [discriminate|]. cbn. intuition lia.
  - split; [reflexivity|]. cbn [tri_geo ge_skd ge_patch boxes leaves]. split; [|auto].
    intros c [<-|[]] vs v p Hc Hv Hp. destruct Hc as [Hc|[]]. injection Hc as <-.
    destruct Hp as [Hp|[Hp|[Hp|[]]]]; injection Hp as <- <-; intros i Hi; three Hi; cbn; lra.
  - split; [reflexivity|]. cbn [tri_geo ge_kd kd_sorted kd_points app Nat.modulo Nat.divmod snd Nat.sub].
    repeat split; intros i q H; cbn in H;
      repeat (destruct H as [H|H]; [injection H as <- <-; cbn; lra|]); destruct H.
Qed.
Lemma cube_inside p : (forall i, (i < 3)%nat -> - / 2 <= vent p i <= / 2) -> inside (new_shape CUBE) p.
Proof.
  intros H. exists (V3 (vx p + / 2) (vy p + / 2) (vz p + / 2)). split.
  - intros i Hi. pose proof (H i Hi). three Hi; cbn [vent vx vy vz] in *; lra.
  - unfold toWorldCoord, basicToLocal, getLocalOrigin. cbn [new_shape s_kind s_scaling s_inv s_origin].
    unfold dots, dot, cmul, vadd, ident, vzero. apply vec_ext; cbn; ring.
Qed.
Lemma cube_solid : solid (new_shape CUBE).
Proof. intros i Hi. three Hi; cbn; lra. Qed.
Lemma tri_excluded : excludeCloudPoints (new_shape CUBE) (Some tri_geo) = BadSize.
Proof.
  destruct (reach_good _ _ (reach_new CUBE)) as (F & G & _).
  assert (I : forall i p, at_point tri i p -> In i (includeCloudPoints (new_shape CUBE) (Some tri_geo))).
  { intros i p H. apply cloud_complete with (p := p); auto using tri_good, cube_solid; [discriminate|].
    apply cube_inside. destruct H as [H|[H|[H|[]]]]; injection H as <- <-; intros j Hj; three Hj; cbn; lra. }
  assert (L : (length [0; 1; 2] <= length (includeCloudPoints (new_shape CUBE) (Some tri_geo)))%nat).
  { apply NoDup_incl_length; [no_dup|]. intros i [<-|[<-|[<-|[]]]]; eapply I; cbn; eauto. }
  unfold excludeCloudPoints. cbn [tri_geo is_empty ge_patch tri p_verts p_cells map fst].
  unfold difference. cbn [length]. fold tri. fold tri_geo.
  change (Geo _ _ _ _) with tri_geo.
  destruct (Nat.ltb 1 _) eqn:E; [reflexivity|]. apply Nat.ltb_ge in E. cbn [length] in L. lia.
Qed.

(** The axis of a sector with mark 1 is not included. *)
Definition marked : shape := Sh CYLINDER vzero (V3 1 (/ 2) 1) (V3 0 1 0) ident ident (V3 1 1 1) CLAMPED PERIODIC CLAMPED.
Lemma marked_is : setInfLimits sector 1 1 = marked.
Proof.
  pose proof pi_big. unfold setInfLimits. cbn [Z.ltb Z.compare orb sector s_kind checkInfLimits Z.eqb Pos.eqb].
  rewrite (Rmax_right 0 1) by lra. rewrite Rmin_right by lra.
  unfold setSpan, checkSpan, getSpan. cbn [s_kind sector vabs vx vy vz s_scaling s_span cmul s_inf]. rewrite atan_1_4.
  replace (1 * / 2) with (/ 2) by ring. replace (1 * 1) with 1 by ring.
  rewrite (Rabs_right 1) by lra. rewrite (Rabs_right (/ 2)) by lra. rewrite Rmin_left by lra.
  destruct (Rlt_dec (/ 2) (2 * PI)); [reflexivity|lra].
Qed.
Lemma marked_reach : reach CYLINDER marked.
Proof. eapply reach_call; [apply sector_reach|]. instantiate (1 := OpInf 1 1). cbn [call]. rewrite marked_is. reflexivity. Qed.
Lemma marked_solid : solid marked.
Proof. intros i Hi. three Hi; cbn; lra. Qed.
Lemma marked_axis : inside marked vzero /\ isPointIncluded marked vzero = false.
Proof.
  split.
  - exists (V3 0 0 (/ 2)). split; [intros i Hi; three Hi; cbn; lra|].
    unfold toWorldCoord, basicToLocal, getLocalOrigin. cbn [marked s_kind s_scaling s_inv s_origin s_inf s_span].
    unfold dots, dot, cmul, vadd, ident, vzero. apply vec_ext; cbn; ring.
  - apply not_true_is_false. intros Inc. pose proof (proj1 (included_iff _ _) Inc 1%nat ltac:(lia)) as I. revert I.
    unfold basic, localToBasic, toLocalCoord, getLocalOrigin. cbn [marked s_kind s_scaling s_inv s_origin s_inf s_span s_sdr].
    assert (E : dots (vsub vzero vzero) ident = vzero) by (apply vec_ext; unfold dots, dot, ident; cbn; ring).
    rewrite E. cbn [vzero vx vy vz]. destruct (Req_EM_T 0 0) as [_|N]; [|lra].
    pose proof pi_big. unfold from_mark. cbv zeta. destruct (Rlt_dec (0 - 1) 0); [|lra].
    destruct (Rlt_dec (2 * PI) (2 * PI + (0 - 1))); [lra|].
    unfold cdiv, vadd, vscale. cbn [vent vx vy vz]. pose proof tol_pos.
    replace (((2 * PI + (0 - 1)) / 1 + -1 * 0) / / 2) with (4 * PI - 2) by field. lra.
Qed.

(** The wedge does not come back from the plane through its edge. *)
Lemma wedge_edge : toWorldCoord (new_shape WEDGE) (toLocalCoord (new_shape WEDGE) (V3 1 1 0)) <> V3 1 1 0.
Proof.
  intros H. apply (f_equal vy) in H. revert H.
  unfold toWorldCoord, toLocalCoord. cbn [new_shape s_kind s_scaling s_inv s_origin s_inf s_span s_sdr].
  assert (E : cdiv (dots (vsub (V3 1 1 0) vzero) ident) (V3 1 1 1) = V3 1 1 0) by (apply vec_ext; unfold cdiv, dots, dot, ident; cbn; field).
  rewrite E. cbn [vx vy vz]. unfold dots, dot, cmul, vadd, ident. cbn [row0 row1 row2 vx vy vz vzero]. lra.
Qed.
(** The axis of a cylinder does not keep its angle. *)
Lemma cyl_axis : in_param (new_shape CYLINDER) (V3 0 PI 0) /\
  toLocalCoord (new_shape CYLINDER) (toWorldCoord (new_shape CYLINDER) (V3 0 PI 0)) <> V3 0 PI 0.
Proof.
  pose proof pi_big. split; [intros i Hi; three Hi; cbn; lra|].
  assert (E : toWorldCoord (new_shape CYLINDER) (V3 0 PI 0) = vzero).
  { unfold toWorldCoord. cbn [new_shape s_kind s_scaling s_inv s_origin s_inf s_span s_sdr].
    unfold dots, dot, cmul, vadd, ident, vzero. apply vec_ext; cbn; ring. }
  rewrite E. intros Q. apply (f_equal vy) in Q. revert Q.
  unfold toLocalCoord. cbn [new_shape s_kind s_scaling s_inv s_origin s_inf s_span s_sdr].
  assert (D : dots (vsub vzero vzero) ident = vzero) by (apply vec_ext; unfold dots, dot, ident; cbn; ring).
  rewrite D. cbn [vzero vx vy vz]. destruct (Req_EM_T 0 0) as [_|N]; [|lra].
  rewrite from_mark_0 by lra. unfold cdiv. cbn [vx vy vz]. lra.
Qed.
