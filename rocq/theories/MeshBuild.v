(** Sizes, flags, copies and changes of shape of the structured meshes. *)
From Coq Require Import Reals List Arith ZArith Bool Lia Lra Permutation.
From Verif Require Import Vec Shape ShapeSpec ShapeProofs Mesh MeshSpec MeshProofs MeshInterp.
Import ListNotations.
Open Scope R_scope.

(* ------------------------------------------------------------------ build *)
Lemma build_is m s : m_shape m = Some s ->
  mesh_build m = (true, Me (Some s) (build_axis (a_n (m_x m)) (min_points (s_kind s) 0) (vx (s_span s)) (vx (getLocalOrigin s)))
                   (build_axis (a_n (m_y m)) (min_points (s_kind s) 1) (vy (s_span s)) (vy (getLocalOrigin s)))
                   (build_axis (a_n (m_z m)) (min_points (s_kind s) 2) (vz (s_span s)) (vz (getLocalOrigin s))) (m_t m) true).
Proof. intros E. unfold mesh_build. rewrite E, setmin. reflexivity. Qed.

Lemma build_facts m0 s : m_shape m0 = Some s ->
  let m := snd (mesh_build m0) in
  fst (mesh_build m0) = true /\ m_built m = true /\ m_shape m = Some s /\
  (forall i, (i < 3)%nat -> dim m i = Z.max (dim m0 i) (min_points (s_kind s) i)) /\
  (forall i j k, getLocalPoint m i j k =
     if (Z.leb 0 i && Z.ltb i (dim m 0) && (Z.leb 0 j && Z.ltb j (dim m 1)) && (Z.leb 0 k && Z.ltb k (dim m 2)))%bool
     then Some (V3 (division s 0 (dim m 0 - 1) (IZR i)) (division s 1 (dim m 1 - 1) (IZR j)) (division s 2 (dim m 2 - 1) (IZR k)))
     else None) /\
  (forall i j k, getLocalCCell m i j k =
     if (Z.leb 0 i && Z.ltb i (dim m 0 - 1) && (Z.leb 0 j && Z.ltb j (dim m 1 - 1)) && (Z.leb 0 k && Z.ltb k (dim m 2 - 1)))%bool
     then Some (V3 (division s 0 (dim m 0 - 1) (IZR i + / 2)) (division s 1 (dim m 1 - 1) (IZR j + / 2)) (division s 2 (dim m 2 - 1) (IZR k + / 2)))
     else None) /\
  (forall i, (i < 3)%nat -> vent (getSpacing m) i * IZR (dim m i - 1) = vent (mesh_getSpan m) i).
Proof.
  intros E m. unfold m. rewrite (build_is m0 s E). cbn [fst snd]. clear m. set (m := Me _ _ _ _ _ _).
  split; [reflexivity|]. split; [reflexivity|]. split; [reflexivity|].
  pose proof (min_ge (s_kind s) 0) as G0. pose proof (min_ge (s_kind s) 1) as G1. pose proof (min_ge (s_kind s) 2) as G2.
  assert (D : forall i, (i < 3)%nat -> dim m i = Z.max (dim m0 i) (min_points (s_kind s) i)).
  { intros i Hi. three Hi; cbn; lia. }
  split; [exact D|].
  assert (N0 : a_n (m_x m) = (dim m 0 - 1)%Z) by (cbn; lia). assert (N1 : a_n (m_y m) = (dim m 1 - 1)%Z) by (cbn; lia). assert (N2 : a_n (m_z m) = (dim m 2 - 1)%Z) by (cbn; lia).
  assert (P0 : (1 <= dim m 0 - 1)%Z) by (rewrite (D 0%nat) by lia; lia).
  assert (P1 : (1 <= dim m 1 - 1)%Z) by (rewrite (D 1%nat) by lia; lia).
  assert (P2 : (1 <= dim m 2 - 1)%Z) by (rewrite (D 2%nat) by lia; lia).
  assert (X0 : a_d (m_x m) = vx (s_span s) / IZR (dim m 0 - 1)) by (rewrite <- N0; reflexivity).
  assert (X1 : a_d (m_y m) = vy (s_span s) / IZR (dim m 1 - 1)) by (rewrite <- N1; reflexivity).
  assert (X2 : a_d (m_z m) = vz (s_span s) / IZR (dim m 2 - 1)) by (rewrite <- N2; reflexivity).
  assert (Q0 : 1 <= IZR (dim m 0 - 1)) by (apply IZR_le; assumption).
  assert (Q1 : 1 <= IZR (dim m 1 - 1)) by (apply IZR_le; assumption).
  assert (Q2 : 1 <= IZR (dim m 2 - 1)) by (apply IZR_le; assumption).
  assert (C : forall a b, (Z.leb 0 a && Z.leb a (b - 1) = Z.leb 0 a && Z.ltb a b)%bool) by (intros a b; destruct (Z.leb_spec a (b - 1)), (Z.ltb_spec a b); try lia; reflexivity).
  split; [|split].
  - intros i j k. unfold getLocalPoint.
    replace (zget (a_edge (m_x m)) i) with (if (Z.leb 0 i && Z.ltb i (dim m 0))%bool then Some (division s 0 (dim m 0 - 1) (IZR i)) else None);
      [|change (m_x m) with (build_axis (a_n (m_x m0)) (min_points (s_kind s) 0) (vx (s_span s)) (vx (getLocalOrigin s))); rewrite build_edge by assumption;
        change (build_axis (a_n (m_x m0)) (min_points (s_kind s) 0) (vx (s_span s)) (vx (getLocalOrigin s))) with (m_x m); rewrite N0, X0, C; unfold division; cbn [vent];
        destruct (_ && _)%bool; [f_equal; field; lra|reflexivity]].
    replace (zget (a_edge (m_y m)) j) with (if (Z.leb 0 j && Z.ltb j (dim m 1))%bool then Some (division s 1 (dim m 1 - 1) (IZR j)) else None);
      [|change (m_y m) with (build_axis (a_n (m_y m0)) (min_points (s_kind s) 1) (vy (s_span s)) (vy (getLocalOrigin s))); rewrite build_edge by assumption;
        change (build_axis (a_n (m_y m0)) (min_points (s_kind s) 1) (vy (s_span s)) (vy (getLocalOrigin s))) with (m_y m); rewrite N1, X1, C; unfold division; cbn [vent];
        destruct (_ && _)%bool; [f_equal; field; lra|reflexivity]].
    replace (zget (a_edge (m_z m)) k) with (if (Z.leb 0 k && Z.ltb k (dim m 2))%bool then Some (division s 2 (dim m 2 - 1) (IZR k)) else None);
      [|change (m_z m) with (build_axis (a_n (m_z m0)) (min_points (s_kind s) 2) (vz (s_span s)) (vz (getLocalOrigin s))); rewrite build_edge by assumption;
        change (build_axis (a_n (m_z m0)) (min_points (s_kind s) 2) (vz (s_span s)) (vz (getLocalOrigin s))) with (m_z m); rewrite N2, X2, C; unfold division; cbn [vent];
        destruct (_ && _)%bool; [f_equal; field; lra|reflexivity]].
    destruct (Z.leb 0 i && Z.ltb i (dim m 0))%bool; destruct (Z.leb 0 j && Z.ltb j (dim m 1))%bool; destruct (Z.leb 0 k && Z.ltb k (dim m 2))%bool; reflexivity.
  - intros i j k. unfold getLocalCCell.
    replace (zget (a_node (m_x m)) i) with (if (Z.leb 0 i && Z.ltb i (dim m 0 - 1))%bool then Some (division s 0 (dim m 0 - 1) (IZR i + / 2)) else None);
      [|change (m_x m) with (build_axis (a_n (m_x m0)) (min_points (s_kind s) 0) (vx (s_span s)) (vx (getLocalOrigin s))); rewrite build_node by assumption;
        change (build_axis (a_n (m_x m0)) (min_points (s_kind s) 0) (vx (s_span s)) (vx (getLocalOrigin s))) with (m_x m); rewrite N0, X0; unfold division; cbn [vent]; replace 0.5 with (/ 2) by lra;
        destruct (_ && _)%bool; [f_equal; field; lra|reflexivity]].
    replace (zget (a_node (m_y m)) j) with (if (Z.leb 0 j && Z.ltb j (dim m 1 - 1))%bool then Some (division s 1 (dim m 1 - 1) (IZR j + / 2)) else None);
      [|change (m_y m) with (build_axis (a_n (m_y m0)) (min_points (s_kind s) 1) (vy (s_span s)) (vy (getLocalOrigin s))); rewrite build_node by assumption;
        change (build_axis (a_n (m_y m0)) (min_points (s_kind s) 1) (vy (s_span s)) (vy (getLocalOrigin s))) with (m_y m); rewrite N1, X1; unfold division; cbn [vent]; replace 0.5 with (/ 2) by lra;
        destruct (_ && _)%bool; [f_equal; field; lra|reflexivity]].
    replace (zget (a_node (m_z m)) k) with (if (Z.leb 0 k && Z.ltb k (dim m 2 - 1))%bool then Some (division s 2 (dim m 2 - 1) (IZR k + / 2)) else None);
      [|change (m_z m) with (build_axis (a_n (m_z m0)) (min_points (s_kind s) 2) (vz (s_span s)) (vz (getLocalOrigin s))); rewrite build_node by assumption;
        change (build_axis (a_n (m_z m0)) (min_points (s_kind s) 2) (vz (s_span s)) (vz (getLocalOrigin s))) with (m_z m); rewrite N2, X2; unfold division; cbn [vent]; replace 0.5 with (/ 2) by lra;
        destruct (_ && _)%bool; [f_equal; field; lra|reflexivity]].
    destruct (Z.leb 0 i && Z.ltb i (dim m 0 - 1))%bool; destruct (Z.leb 0 j && Z.ltb j (dim m 1 - 1))%bool; destruct (Z.leb 0 k && Z.ltb k (dim m 2 - 1))%bool; reflexivity.
  - intros i Hi. change (mesh_getSpan m) with (getSpan s). unfold getSpacing. change (mesh_getScaling m) with (s_scaling s). rewrite X0, X1, X2.
    unfold getSpan, cmul. three Hi; cbn [vent vx vy vz]; field; lra.
Qed.
Lemma coords_list m : (forall i, (i < 3)%nat -> (0 < dim m i)%Z) ->
  Z.of_nat (length (mesh_getLocalCoords m)) = num_points m /\
  (forall i j k, point_index m (i, j, k) -> zget (mesh_getLocalCoords m) (accessPointIndex m i j k) = Some (getLocalPoint m i j k)).
Proof.
  intros D. assert (P : points m = num_points m) by reflexivity.
  assert (0 <= points m)%Z. { rewrite P. unfold num_points. pose proof (D 0%nat ltac:(lia)). pose proof (D 1%nat ltac:(lia)). pose proof (D 2%nat ltac:(lia)). nia. }
  split.
  - unfold mesh_getLocalCoords, all_of. rewrite map_length, seq_length. rewrite Z2Nat.id by assumption. exact P.
  - intros i j k I. destruct (proj1 (points_bijection m) i j k I) as [R B]. unfold mesh_getLocalCoords, all_of. rewrite zget_map_seq.
    rewrite Z2Nat.id by assumption. rewrite P. destruct (Z.leb_spec 0 (accessPointIndex m i j k)); [|lia]. destruct (Z.ltb_spec (accessPointIndex m i j k) (num_points m)); [|lia].
    cbn [andb]. rewrite Z2Nat.id by lia. unfold getLocalPointN. rewrite B. reflexivity.
Qed.
Lemma centroids_list m : (forall i, (i < 3)%nat -> (1 < dim m i)%Z) ->
  Z.of_nat (length (getLocalCellCentroids m)) = num_cells m /\
  (forall i j k, cell_index m (i, j, k) -> zget (getLocalCellCentroids m) (accessCellIndex m i j k) = Some (getLocalCCell m i j k)).
Proof.
  intros D. assert (P : cells m = num_cells m). { unfold cells, num_cells. destruct (dim_eqs m) as (-> & -> & ->). f_equal; [f_equal|]; lia. }
  assert (0 <= cells m)%Z. { rewrite P. unfold num_cells. pose proof (D 0%nat ltac:(lia)). pose proof (D 1%nat ltac:(lia)). pose proof (D 2%nat ltac:(lia)).
    set (a := (dim m 0 - 1)%Z) in *. set (b := (dim m 1 - 1)%Z) in *. set (c := (dim m 2 - 1)%Z) in *. assert (0 <= a * b)%Z by nia. nia. }
  split.
  - unfold getLocalCellCentroids, all_of. rewrite map_length, seq_length. rewrite Z2Nat.id by assumption. exact P.
  - intros i j k I. destruct (proj1 (cells_bijection m) i j k I) as [R B]. unfold getLocalCellCentroids, all_of. rewrite zget_map_seq.
    rewrite Z2Nat.id by assumption. rewrite P. destruct (Z.leb_spec 0 (accessCellIndex m i j k)); [|lia]. destruct (Z.ltb_spec (accessCellIndex m i j k) (num_cells m)); [|lia].
    cbn [andb]. rewrite Z2Nat.id by lia. unfold getLocalCCellN. rewrite B. reflexivity.
Qed.

(* ------------------------------------------------------------------ corners of a cell *)
Lemma neighs_ok m i j k : cell_index m (i, j, k) ->
  length (getCellNeighs m i j k) = 8%nat /\ NoDup (getCellNeighs m i j k) /\
  forall n, In n (getCellNeighs m i j k) <-> (0 <= n < num_points m)%Z /\ exists a b c, pointCoords m n = (a, b, c) /\
     (i <= a <= i + 1)%Z /\ (j <= b <= j + 1)%Z /\ (k <= c <= k + 1)%Z.
Proof.
  intros C. split; [reflexivity|]. apply cell_index_iff in C.
  destruct (points_bijection m) as [F G].
  assert (D : forall i, (i < 3)%nat -> (0 < dim m i)%Z). { destruct (dim_eqs m) as (D0 & D1 & D2). intros n Hn. three Hn; lia. }
  specialize (G D).
  assert (P : forall a b c, (i <= a <= i + 1)%Z -> (j <= b <= j + 1)%Z -> (k <= c <= k + 1)%Z -> point_index m (a, b, c)) by (intros; apply point_index_iff; lia).
  split.
  - apply (NoDup_map_inv (pointCoords m)). unfold getCellNeighs. cbn [map].
    rewrite !(fun a b c I => proj2 (F a b c I)) by (apply P; lia).
    repeat (apply NoDup_cons; [cbn [In]; intros HH; repeat (destruct HH as [HH|HH]; [injection HH; lia|]); exact HH|]). apply NoDup_nil.
  - intros n. split.
    + assert (K : forall a b c, (i <= a <= i + 1)%Z -> (j <= b <= j + 1)%Z -> (k <= c <= k + 1)%Z ->
         (0 <= accessPointIndex m a b c < num_points m)%Z /\ exists a' b' c', pointCoords m (accessPointIndex m a b c) = (a', b', c') /\
         (i <= a' <= i + 1)%Z /\ (j <= b' <= j + 1)%Z /\ (k <= c' <= k + 1)%Z).
      { intros a b c A B E. destruct (F a b c (P a b c A B E)) as [R Q]. split; [exact R|]. exists a, b, c. auto. }
      intros I. unfold getCellNeighs in I. cbn [In] in I.
      destruct I as [<-|[<-|[<-|[<-|[<-|[<-|[<-|[<-|[]]]]]]]]]; apply K; lia.
    + intros (R & a & b & c & E & A & B & Q). destruct (G n R) as [_ X]. rewrite E in X. subst n.
      assert (A' : a = i \/ a = (i + 1)%Z) by lia. assert (B' : b = j \/ b = (j + 1)%Z) by lia. assert (C' : c = k \/ c = (k + 1)%Z) by lia.
      unfold getCellNeighs. cbn [In]. destruct A' as [-> | ->], B' as [-> | ->], C' as [-> | ->]; tauto.
Qed.

(* ------------------------------------------------------------------ the flag of built meshes *)
Definition synced (m : mesh) : Prop := m_built m = true -> mesh_build m = (true, m).
Lemma axis_again n lim sp o : build_axis (a_n (build_axis n lim sp o)) lim sp o = build_axis n lim sp o.
Proof. unfold build_axis at 2. cbn [a_n]. unfold build_axis. replace (Z.max (Z.max n (lim - 1)) (lim - 1)) with (Z.max n (lim - 1)) by lia. reflexivity. Qed.
Lemma build_again m : mesh_build (snd (mesh_build m)) = mesh_build m.
Proof.
  destruct (m_shape m) as [s|] eqn:E.
  - rewrite (build_is m s E). cbn [snd]. erewrite build_is; [|reflexivity]. cbn [m_x m_y m_z m_t].
    rewrite !axis_again. reflexivity.
  - unfold mesh_build at 2 3. rewrite E. cbn [snd]. unfold mesh_build. rewrite E. reflexivity.
Qed.
Lemma build_synced m : (m_shape m = None -> m_built m = false) -> synced (snd (mesh_build m)).
Proof.
  intros N B. rewrite build_again. destruct (m_shape m) as [s|] eqn:E; [rewrite (build_is m s E) in *; reflexivity|].
  unfold mesh_build in *. rewrite E in *. cbn [snd] in B |- *. rewrite N in B by reflexivity. discriminate.
Qed.
Lemma reshape_synced m s s' : m_shape m = Some s -> synced m -> s_kind s' = s_kind s -> s_span s' = s_span s -> synced (with_shape m (Some s')).
Proof.
  intros E S K L B. change (m_built m = true) in B. specialize (S B). rewrite (build_is m s E) in S.
  rewrite (build_is _ s') by reflexivity. cbn [with_shape m_x m_y m_z m_t]. unfold getLocalOrigin in *. rewrite K, L.
  destruct m as [sh x y z t b]. cbn [m_x m_y m_z m_t m_built m_shape with_shape] in *. injection S as _ S0 S1 S2 _. rewrite S0, S1, S2, B. reflexivity.
Qed.
Lemma inf_keeps_span k s v d : reach k s -> d <> 2%Z -> s_kind (setInfLimits s v d) = s_kind s /\ s_span (setInfLimits s v d) = s_span s.
Proof.
  intros R D. destruct (reach_good k s R) as (_ & G & K). subst k. unfold setInfLimits.
  destruct (_ || _)%bool; [auto|]. destruct (checkInfLimits (s_kind s) v d) as [w|] eqn:C; [|auto].
  unfold good_sizes in G. pose proof PI_RGT_0. unfold checkInfLimits in C.
  destruct s as [k og span inf sdr inv scal c0 c1 c2]; cbn [s_kind s_span s_inf s_scaling] in *. destruct k; try discriminate.
  - destruct G as ((G0 & G1 & G2 & G3 & _) & _). unfold setSpan, checkSpan, setScaling, getSpan, cmul; cbn [s_kind s_span s_scaling s_inf vx vy vz vabs setCoordinateType].
    rewrite atan_1_4, G2. rewrite Rmult_1_l. rewrite (Rabs_right (vy span)) by lra. rewrite Rmin_left by lra.
    destruct span as [a b c]; cbn [vx vy vz] in *. subst. destruct (Rlt_dec _ _); split; reflexivity.
  - destruct G as ((G0 & G1 & G2 & G3 & _ & _ & G4 & G5) & _). unfold setSpan, checkSpan, setScaling, getSpan, cmul; cbn [s_kind s_span s_scaling s_inf vx vy vz vabs setCoordinateType].
    rewrite G1, G2, !Rmult_1_l. rewrite (Rabs_right (vy span)) by lra. rewrite (Rmin_left _ (2 * PI)) by lra.
    rewrite (Rabs_right (vz span)) by lra. destruct (Z.eqb_spec d 2); [contradiction|].
    rewrite Rmin_left by lra. destruct span as [a b c]; cbn [vx vy vz] in *. subst. destruct (Rlt_dec _ _); split; reflexivity.
Qed.
Lemma ref1_frame s l a s' : setRefSystem1 s l a = Changed s' -> exists m, s' = with_frame s m.
Proof.
  intros C. unfold setRefSystem1 in C. destruct (_ || _)%bool; [discriminate|]. destruct (Rlt_dec 0 (norm a)); [|discriminate].
  cbn zeta in C. destruct (Req_EM_T _ 0); [discriminate|]. destruct (Req_EM_T _ 0); [discriminate|].
  injection C as <-. eexists. reflexivity.
Qed.
Lemma spacing_dims_some m h k m' : spacing_dims m h k = Some m' -> exists a b c, m' = snd (mesh_build (setDimension m a b c)) /\
  spacing_dim (vx (mesh_getSpan m)) (vx h) (min_points k 0) = Some a /\ spacing_dim (vy (mesh_getSpan m)) (vy h) (min_points k 1) = Some b /\
  spacing_dim (vz (mesh_getSpan m)) (vz h) (min_points k 2) = Some c.
Proof.
  intros E. unfold spacing_dims in E. rewrite setmin in E.
  destruct (spacing_dim (vx _) _ _) as [a|] eqn:A; [|discriminate]. destruct (spacing_dim (vy _) _ _) as [b|] eqn:B; [|discriminate].
  destruct (spacing_dim (vz _) _ _) as [c|] eqn:C; [|discriminate]. injection E as <-. exists a, b, c. auto.
Qed.
Lemma not_built_synced m : m_built m = false -> synced m.
Proof. intros E B. congruence. Qed.
Lemma call_synced m o m' : minv m -> synced m -> no_polar o -> mcall m o = Some m' -> synced m'.
Proof.
  intros [I N] S P E. destruct o; cbn [mcall] in E.
  - injection E as <-. unfold mesh_setOrigin. destruct (m_shape m) as [s|] eqn:Q.
    + apply (reshape_synced m s); auto.
    + apply not_built_synced. apply N; reflexivity.
  - injection E as <-. apply not_built_synced. reflexivity.
  - unfold mesh_setInfLimits in E. destruct (m_shape m) as [s|] eqn:Q.
    + injection E as <-. destruct (I s eq_refl) as [k R]. destruct (inf_keeps_span k s v dir R) as [A B]; [intros ->; exact P|].
      apply (reshape_synced m s); auto.
    + apply not_built_synced. destruct (N eq_refl) as [B _].
      destruct (Z.eqb dir 0); [injection E as <-; exact B|]. destruct (Z.eqb dir 1); [injection E as <-; exact B|].
      destruct (Z.eqb dir 2); [injection E as <-; exact B|discriminate].
  - unfold mesh_setRefSystem in E. destruct (m_shape m) as [s|] eqn:Q.
    + destruct (setRefSystem s a0 a1 a2) as [s'| |] eqn:C; [|injection E as <-; exact S|discriminate]. injection E as <-.
      destruct (setRefSystem_changed _ _ _ _ _ C) as (_ & _ & _ & -> & _). apply (reshape_synced m s); auto.
    + injection E as <-. apply not_built_synced. apply N; reflexivity.
  - unfold mesh_setRefSystem1 in E. destruct (m_shape m) as [s|] eqn:Q.
    + destruct (setRefSystem1 s label a) as [s'| |] eqn:C; [|injection E as <-; exact S|discriminate]. injection E as <-.
      destruct (ref1_frame _ _ _ _ C) as [f ->]. apply (reshape_synced m s); auto.
    + destruct (N eq_refl) as [B _]. apply not_built_synced. destruct (setRefSystem1 _ label a); [injection E as <-; exact B|injection E as <-; exact B|discriminate].
  - injection E as <-. apply not_built_synced. reflexivity.
  - injection E as <-. unfold mesh_setCoordType. destruct (m_shape m) as [s|] eqn:Q; [|exact S]. apply (reshape_synced m s); auto.
  - injection E as <-. apply not_built_synced. reflexivity.
  - injection E as <-. apply not_built_synced. reflexivity.
  - injection E as <-. apply build_synced. intros Q. apply N, Q.
  - injection E as <-. apply not_built_synced. reflexivity.
  - injection E as <-. apply build_synced. reflexivity.
  - unfold setMeshSpacing in E. apply spacing_dims_some in E. destruct E as (a & b & c & -> & _). apply build_synced. reflexivity.
  - injection E as <-. apply build_synced. reflexivity.
  - unfold setMeshCopySpacing in E. apply spacing_dims_some in E. destruct E as (a & b & c & -> & _). apply build_synced. reflexivity.
Qed.
Lemma flag_ok m : mreach no_polar m -> m_built m = true -> mesh_build m = (true, m).
Proof.
  intros H. change (synced m). induction H as [|m o m' H IH Po A E|a b Ha IHa Hb IHb].
  - apply not_built_synced. reflexivity.
  - exact (call_synced m o m' (mreach_inv _ _ H) IH Po E).
  - unfold mesh_assign, mesh_swap, mesh_copy. destruct (m_shape b) as [s|] eqn:E; [exact IHb|]. apply not_built_synced.
    destruct (mreach_inv _ _ Hb) as [_ N]. apply N. exact E.
Qed.

(* ------------------------------------------------------------------ setMesh *)
Lemma setMesh_ok junk m o sp k d0 d1 d2 :
  let m' := setMesh junk m o sp k d0 d1 d2 in
  m_built m' = true /\ mesh_getShapeType m' = k /\ mesh_getOrigin m' = o /\
  vx (mesh_getSpan m') = Rabs (vx sp) /\
  vy (mesh_getSpan m') = (match k with CYLINDER | SPHERE => Rmin (Rabs (vy sp)) (2 * PI) | _ => Rabs (vy sp) end) /\
  vz (mesh_getSpan m') = (match k with SPHERE => Rmin (Rabs (vz sp)) (PI - vz (mesh_getInfLimits m')) | _ => Rabs (vz sp) end) /\
  dim m' 0 = Z.max d0 (min_points k 0) /\ dim m' 1 = Z.max d1 (min_points k 1) /\ dim m' 2 = Z.max d2 (min_points k 2).
Proof.
  intros m'. unfold m', setMesh. destruct (setShape_shape junk (with_shape m None) k) as (s & E & R).
  set (m1 := mesh_setShape junk (with_shape m None) k) in *.
  assert (E2 : m_shape (setDimension (mesh_setSpan (mesh_setOrigin m1 o) sp) d0 d1 d2) = Some (setSpan (setOrigin s o) sp)).
  { unfold mesh_setOrigin. rewrite E. unfold mesh_setSpan. cbn [m_shape with_shape]. reflexivity. }
  destruct (span_ok k (setOrigin s o) sp (reach_setOrigin k s o R)) as (A0 & A1 & A2 & A3 & A4 & A5 & A6 & A7).
  destruct (build_facts _ _ E2) as (_ & B & S & D & _). cbn zeta in B, S, D.
  unfold mesh_getShapeType, mesh_getOrigin, mesh_getSpan, mesh_getInfLimits. rewrite S. rewrite A7 in D.
  split; [exact B|]. split; [exact A7|]. split; [exact A3|]. split; [exact A0|]. split; [exact A1|]. split; [rewrite A4; exact A2|].
  rewrite !D by lia. repeat split; (f_equal; cbn; lia).
Qed.

(* ------------------------------------------------------------------ spacing *)
Lemma spacing_dim_ok span h lim d : spacing_dim span h lim = Some d ->
  (h = 0 -> d = lim) /\ (h <> 0 -> IZR (d - 1) - / 2 <= span / h < IZR (d - 1) + / 2).
Proof.
  unfold spacing_dim. destruct (Req_EM_T h 0) as [->|N].
  - intros E. injection E as <-. split; [reflexivity|]. intros X. contradiction.
  - destruct (to_int _) as [z|] eqn:T; [|discriminate]. intros E. injection E as <-. split; [intros X; contradiction|]. intros _.
    replace (z + 1 - 1)%Z with z by lia. apply round_ok. exact T.
Qed.
Lemma spacing_ok m s h k m' : m_shape m = Some s -> s_kind s = k -> spacing_dims m h k = Some m' ->
  m_built m' = true /\ m_shape m' = Some s /\
  forall i, (i < 3)%nat -> exists d, dim m' i = Z.max d (min_points k i) /\
    (vent h i = 0 -> d = min_points k i) /\
    (vent h i <> 0 -> IZR (d - 1) - / 2 <= vent (mesh_getSpan m') i / vent h i < IZR (d - 1) + / 2).
Proof.
  intros E K H. apply spacing_dims_some in H. destruct H as (a & b & c & -> & A & B & C).
  destruct (build_facts (setDimension m a b c) s E) as (_ & F & S & D & _). cbn zeta in F, S, D.
  split; [exact F|]. split; [exact S|]. assert (G : mesh_getSpan (snd (mesh_build (setDimension m a b c))) = mesh_getSpan m) by (unfold mesh_getSpan; rewrite S, E; reflexivity).
  rewrite G. apply spacing_dim_ok in A. apply spacing_dim_ok in B. apply spacing_dim_ok in C.
  intros i Hi. pose proof (D i Hi) as Di. rewrite K in Di. three Hi; cbn [vent].
  - exists a. rewrite Di. split; [f_equal; cbn; lia|exact A].
  - exists b. rewrite Di. split; [f_equal; cbn; lia|exact B].
  - exists c. rewrite Di. split; [f_equal; cbn; lia|exact C].
Qed.
Lemma setMeshSpacing_ok junk m o sp k h m' : setMeshSpacing junk m o sp k h = Some m' ->
  m_built m' = true /\ mesh_getShapeType m' = k /\ mesh_getOrigin m' = o /\
  vx (mesh_getSpan m') = Rabs (vx sp) /\
  vy (mesh_getSpan m') = (match k with CYLINDER | SPHERE => Rmin (Rabs (vy sp)) (2 * PI) | _ => Rabs (vy sp) end) /\
  vz (mesh_getSpan m') = (match k with SPHERE => Rmin (Rabs (vz sp)) (PI - vz (mesh_getInfLimits m')) | _ => Rabs (vz sp) end) /\
  forall i, (i < 3)%nat -> exists d, dim m' i = Z.max d (min_points k i) /\
    (vent h i = 0 -> d = min_points k i) /\
    (vent h i <> 0 -> IZR (d - 1) - / 2 <= vent (mesh_getSpan m') i / vent h i < IZR (d - 1) + / 2).
Proof.
  unfold setMeshSpacing. destruct (setShape_shape junk (with_shape m None) k) as (s & E & R).
  set (m1 := mesh_setShape junk (with_shape m None) k) in *. intros H.
  assert (E2 : m_shape (mesh_setSpan (mesh_setOrigin m1 o) sp) = Some (setSpan (setOrigin s o) sp)).
  { unfold mesh_setOrigin. rewrite E. unfold mesh_setSpan. cbn [m_shape with_shape]. reflexivity. }
  destruct (span_ok k (setOrigin s o) sp (reach_setOrigin k s o R)) as (A0 & A1 & A2 & A3 & A4 & A5 & A6 & A7).
  destruct (spacing_ok _ _ _ _ _ E2 A7 H) as (B & S & D).
  split; [exact B|]. unfold mesh_getShapeType, mesh_getOrigin, mesh_getInfLimits. rewrite S.
  split; [exact A7|]. split; [exact A3|]. unfold mesh_getSpan in *. rewrite S in *.
  split; [exact A0|]. split; [exact A1|]. split; [rewrite A4; exact A2|exact D].
Qed.
Lemma setMeshCopySpacing_ok m s h m' : setMeshCopySpacing m s h = Some m' ->
  m_built m' = true /\ m_shape m' = Some s /\
  forall i, (i < 3)%nat -> exists d, dim m' i = Z.max d (min_points (s_kind s) i) /\
    (vent h i = 0 -> d = min_points (s_kind s) i) /\
    (vent h i <> 0 -> IZR (d - 1) - / 2 <= vent (getSpan s) i / vent h i < IZR (d - 1) + / 2).
Proof.
  unfold setMeshCopySpacing. intros H. destruct (spacing_ok (mesh_setShapeCopy (with_shape m None) (Some s)) s h (s_kind s) m' eq_refl eq_refl H) as (B & S & D).
  split; [exact B|]. split; [exact S|]. unfold mesh_getSpan in D. rewrite S in D. exact D.
Qed.

(* ------------------------------------------------------------------ changes of shape *)
Lemma reach_within k s : reach k s -> orthonormal_within (/ 1000) (s_sdr s).
Proof.
  intros H. induction H as [|s o s' H IH C].
  - split.
    + intros i Hi. destruct k; cbn [new_shape s_sdr]; three Hi; unfold axis_dot, sum3; cbn; ring.
    + replace (s_sdr (new_shape k)) with ident by (destruct k; reflexivity). unfold axis_dot, sum3; cbn [ment vent ident row0 row1 row2 vx vy vz].
      match goal with |- Rabs ?a + Rabs ?b + Rabs ?c <= _ => replace a with 0 by ring; replace b with 0 by ring; replace c with 0 by ring end. rewrite Rabs_R0. lra.
  - assert (SS : forall x sp, s_sdr (setSpan x sp) = s_sdr x).
    { intros x sp. unfold setSpan, checkSpan, setScaling. destruct (s_kind x) eqn:K; cbn; rewrite ?K; try destruct (Rlt_dec _ _); cbn; rewrite ?K; reflexivity. }
    assert (SI : forall x v d, s_sdr (setInfLimits x v d) = s_sdr x).
    { intros x v d. unfold setInfLimits. destruct (_ || _)%bool; [reflexivity|]. destruct (checkInfLimits _ _ _); [|reflexivity]. rewrite SS. reflexivity. }
    destruct o as [v|v|v d|v|a b c|l a|t d]; cbn [call] in C.
    + injection C as <-. exact IH.
    + injection C as <-. rewrite SS. exact IH.
    + injection C as <-. rewrite SI. exact IH.
    + injection C as <-. unfold setInfLimits3. rewrite !SI. exact IH.
    + apply setRefSystem_changed in C. apply C.
    + destruct (ref1_changed _ _ _ _ C) as (_ & _ & O & _). split.
      * intros i Hi. rewrite O by assumption. unfold delta. rewrite Nat.eqb_refl. reflexivity.
      * rewrite !O by lia. unfold delta. cbn [Nat.eqb]. rewrite Rabs_R0. lra.
    + injection C as <-. exact IH.
Qed.
Lemma same_frame s m : orthonormal_within (/ 1000) m -> setRefSystem s (row0 m) (row1 m) (row2 m) = Changed (with_frame s m).
Proof.
  intros [U W]. destruct m as [a b c]. destruct (axis_dot_rows a b c) as (E0 & E1 & E2 & E3 & E4 & E5).
  assert (N0 : norm a = 1) by (unfold norm; rewrite <- E0, (U 0%nat) by lia; apply sqrt_1).
  assert (N1 : norm b = 1) by (unfold norm; rewrite <- E1, (U 1%nat) by lia; apply sqrt_1).
  assert (N2 : norm c = 1) by (unfold norm; rewrite <- E2, (U 2%nat) by lia; apply sqrt_1).
  cbn [row0 row1 row2]. unfold setRefSystem. rewrite N0, N1, N2. rewrite !(vdivs_1 _ 1) by reflexivity.
  destruct (Rlt_dec 0 1); [|lra]. rewrite E3, E4, E5 in W. destruct (Rlt_dec _ _); [lra|]. reflexivity.
Qed.
Definition polar_max : R := (0.5 - / 10 ^ 12) * (2 * PI).
Lemma polar_inf s : reach SPHERE s -> vz (s_inf s) <= polar_max.
Proof.
  assert (PM : 0 <= polar_max) by (unfold polar_max; pose proof PI_RGT_0; apply Rmult_le_pos; lra).
  intros H. induction H as [|s o s' H IH C]; [exact PM|].
  destruct (reach_good _ _ H) as (_ & _ & K).
  assert (SS : forall x sp, s_inf (setSpan x sp) = s_inf x).
  { intros x sp. unfold setSpan, checkSpan, setScaling. destruct (s_kind x) eqn:Q; cbn; rewrite ?Q; try destruct (Rlt_dec _ _); cbn; rewrite ?Q; reflexivity. }
  assert (SK : forall x sp, s_kind (setSpan x sp) = s_kind x).
  { intros x sp. unfold setSpan, checkSpan, setScaling. destruct (s_kind x) eqn:Q; cbn; rewrite ?Q; try destruct (Rlt_dec _ _); cbn; rewrite ?Q; reflexivity. }
  assert (SI : forall x v d, s_kind x = SPHERE -> vz (s_inf x) <= polar_max -> vz (s_inf (setInfLimits x v d)) <= polar_max /\ s_kind (setInfLimits x v d) = SPHERE).
  { intros x v d KX L. unfold setInfLimits. destruct (_ || _)%bool; [auto|]. rewrite KX. unfold checkInfLimits.
    destruct (Z.eqb d 0) eqn:D0; [rewrite SS, SK; cbn; apply Z.eqb_eq in D0; subst d; auto|].
    destruct (Z.eqb d 1) eqn:D1; [rewrite SS, SK; cbn; apply Z.eqb_eq in D1; subst d; auto|].
    destruct (Z.eqb d 2) eqn:D2; [|auto]. rewrite SS, SK. cbn [s_inf vz s_kind]. split; [apply Rmin_l|reflexivity]. }
  destruct o as [v|v|v d|v|a b c|l a|t d]; cbn [call] in C.
  - injection C as <-. exact IH.
  - injection C as <-. rewrite SS. exact IH.
  - injection C as <-. apply SI; assumption.
  - injection C as <-. unfold setInfLimits3. apply SI; apply SI; apply SI; assumption.
  - destruct (setRefSystem_changed _ _ _ _ _ C) as (_ & _ & _ & -> & _). exact IH.
  - destruct (ref1_frame _ _ _ _ C) as [m ->]. exact IH.
  - injection C as <-. exact IH.
Qed.

Lemma setSpan_rest x sp : s_inf (setSpan x sp) = s_inf x /\ s_kind (setSpan x sp) = s_kind x /\ s_origin (setSpan x sp) = s_origin x.
Proof. unfold setSpan, checkSpan, setScaling. destruct (s_kind x) eqn:Q; cbn; rewrite ?Q; try destruct (Rlt_dec _ _); cbn; rewrite ?Q; auto. Qed.
Lemma setInf_rest x v d : s_kind (setInfLimits x v d) = s_kind x /\ s_origin (setInfLimits x v d) = s_origin x.
Proof.
  unfold setInfLimits. destruct (_ || _)%bool; [auto|]. destruct (checkInfLimits _ _ _); [|auto].
  match goal with |- context [setSpan ?a ?b] => destruct (setSpan_rest a b) as (_ & -> & ->) end. auto.
Qed.
Lemma cyl_inf s : reach CYLINDER s -> vz (s_inf s) = 0.
Proof.
  intros H. induction H as [|s o s' H IH C]; [reflexivity|].
  destruct (reach_good _ _ H) as (_ & _ & K).
  assert (SI : forall x v d, s_kind x = CYLINDER -> vz (s_inf x) = 0 -> vz (s_inf (setInfLimits x v d)) = 0).
  { intros x v d KX L. unfold setInfLimits. destruct (_ || _)%bool; [auto|]. rewrite KX. unfold checkInfLimits.
    destruct (Z.eqb d 0) eqn:D0; [rewrite (proj1 (setSpan_rest _ _)); cbn; apply Z.eqb_eq in D0; subst d; auto|].
    destruct (Z.eqb d 1) eqn:D1; [rewrite (proj1 (setSpan_rest _ _)); cbn; apply Z.eqb_eq in D1; subst d; auto|]. exact L. }
  destruct o as [v|v|v d|v|a b c|l a|t d]; cbn [call] in C.
  - injection C as <-. exact IH.
  - injection C as <-. rewrite (proj1 (setSpan_rest _ _)). exact IH.
  - injection C as <-. apply SI; assumption.
  - injection C as <-. unfold setInfLimits3. apply SI; [rewrite !(proj1 (setInf_rest _ _ _)); exact K|]. apply SI; [rewrite (proj1 (setInf_rest _ _ _)); exact K|]. apply SI; assumption.
  - destruct (setRefSystem_changed _ _ _ _ _ C) as (_ & _ & _ & -> & _). exact IH.
  - destruct (ref1_frame _ _ _ _ C) as [m ->]. exact IH.
  - injection C as <-. exact IH.
Qed.
Lemma setInf_val x v d w : good_sizes x -> (0 <= d <= 2)%Z -> checkInfLimits (s_kind x) v d = Some w ->
  s_inf (setInfLimits x v d) = V3 (if Z.eqb d 0 then w else vx (s_inf x)) (if Z.eqb d 1 then w else vy (s_inf x)) (if Z.eqb d 2 then w else vz (s_inf x)) /\
  (s_kind x = CYLINDER -> getSpan (setInfLimits x v d) = getSpan x) /\
  (s_kind x = SPHERE -> getSpan (setInfLimits x v d) = V3 (vx (getSpan x)) (vy (getSpan x)) (Rmin (vz (getSpan x)) (PI - (if Z.eqb d 2 then w else vz (s_inf x))))).
Proof.
  intros G D C. unfold setInfLimits. replace ((d <? 0)%Z || (2 <? d)%Z)%bool with false by (symmetry; apply orb_false_iff; lia). rewrite C.
  pose proof (good_span x G) as (S0 & S1 & S2 & S3 & S4). cbn zeta.
  set (t := Sh _ _ _ _ _ _ _ _ _ _). pose proof (span_idem t (getSpan x) (fun _ _ => I)) as (A0 & A1 & A2 & A3). cbn zeta in A0, A1, A2, A3.
  change (s_kind t) with (s_kind x) in A1, A2. rewrite Rabs_right in A0, A1, A2 by (apply Rle_ge; assumption).
  split; [exact A3|]. split; intros K; rewrite K in A1, A2; rewrite Rmin_left in A1 by (apply S3; auto); apply vec_ext; cbn [vx vy vz]; auto.
Qed.
Lemma reach_inf3 k x v : reach k x -> good_sizes (setInfLimits x v 0) /\ good_sizes (setInfLimits (setInfLimits x v 0) v 1).
Proof. intros R. split; apply (reach_good k); repeat apply reach_setInf; exact R. Qed.
Lemma getSpan_frame s m : getSpan (with_frame s m) = getSpan s. Proof. reflexivity. Qed.
Lemma setShape_keeps j m s k k0 : m_shape m = Some s -> reach k0 s ->
  let m' := mesh_setShape j m k in
  m_built m' = false /\ mesh_getShapeType m' = k /\ mesh_getOrigin m' = mesh_getOrigin m /\ mesh_getRefSystem m' = mesh_getRefSystem m /\
  (k = k0 -> mesh_getSpan m' = mesh_getSpan m /\ mesh_getInfLimits m' = mesh_getInfLimits m).
Proof.
  intros E R m'. unfold m', mesh_setShape. rewrite E. cbn [t_seto t_sets t_seti t_setr t_o t_s t_i t_r].
  rewrite (same_frame _ (s_sdr s) (reach_within k0 s R)).
  unfold mesh_getShapeType, mesh_getOrigin, mesh_getRefSystem, mesh_getSpan, mesh_getInfLimits. rewrite E. cbn [m_built m_shape].
  split; [reflexivity|].
  set (s0 := setSpan (setOrigin (new_shape k) (s_origin s)) (getSpan s)).
  assert (K0 : s_kind s0 = k) by (unfold s0; rewrite (proj1 (proj2 (setSpan_rest _ _))); destruct k; reflexivity).
  assert (R0 : reach k s0) by (apply reach_setSpan, reach_setOrigin, reach_new).
  split; [cbn [with_frame s_kind]; rewrite !(proj1 (setInf_rest _ _ _)); exact K0|].
  split; [cbn [with_frame s_origin]; rewrite !(proj2 (setInf_rest _ _ _)); unfold s0; rewrite (proj2 (proj2 (setSpan_rest _ _))); reflexivity|].
  split; [reflexivity|]. intros <-.
  destruct (reach_good k s R) as (_ & G & K). pose proof (good_span s G) as (S0 & S1 & S2 & S3 & S4).
  pose proof (span_ok k (setOrigin (new_shape k) (s_origin s)) (getSpan s) (reach_setOrigin _ _ _ (reach_new k))) as (A0 & A1 & A2 & _ & A4 & _). cbn zeta in A0, A1, A2, A4. fold s0 in A0, A1, A2, A4.
  rewrite Rabs_right in A0, A1, A2 by (apply Rle_ge; assumption). cbn [vent] in A0, A1, A2.
  assert (I0 : s_inf s0 = vzero) by (rewrite A4; destruct k; reflexivity). clear A4.
  rewrite getSpan_frame. cbn [with_frame s_inf].
  destruct (reach_good k s0 R0) as (_ & G0 & _).
  pose proof (reach_setInf _ _ (vx (s_inf s)) 0 R0) as R1. destruct (reach_good k _ R1) as (_ & G1 & K1).
  pose proof (reach_setInf _ _ (vy (s_inf s)) 1 R1) as R2. destruct (reach_good k _ R2) as (_ & G2 & K2).
  destruct k.
  - assert (ID : forall v d, setInfLimits s0 v d = s0) by (intros v d; unfold setInfLimits; rewrite K0; cbn [checkInfLimits]; destruct (_ || _)%bool; reflexivity). rewrite !ID. clear R1 G1 K1 R2 G2 K2. (* CUBE *)
    unfold good_sizes in G. rewrite K in G. destruct G as [[_ I] _]. split; [apply vec_ext; assumption|]. rewrite I0, I. reflexivity.
  - set (s1 := setInfLimits s0 (vx (s_inf s)) 0) in *. set (s2 := setInfLimits s1 (vy (s_inf s)) 1) in *.
    destruct (setInf_val s0 (vx (s_inf s)) 0 (Rmax 0 (vx (s_inf s))) G0 ltac:(lia) ltac:(rewrite K0; reflexivity)) as (B1 & B2 & _). fold s1 in B1, B2.
    destruct (setInf_val s1 (vy (s_inf s)) 1 (Rmin (2 * PI) (Rmax 0 (vy (s_inf s)))) G1 ltac:(lia) ltac:(rewrite K1; reflexivity)) as (C1 & C2 & _). fold s2 in C1, C2.
    assert (E3 : setInfLimits s2 (vz (s_inf s)) 2 = s2) by (unfold setInfLimits; rewrite K2; reflexivity). rewrite E3.
    specialize (B2 K0). specialize (C2 K1). rewrite C2, B2. cbn [Z.eqb] in B1, C1. rewrite C1, B1, I0. cbn [vx vy vz vzero].
    pose proof (cyl_inf s R) as Z. unfold good_sizes in G. rewrite K in G. destruct G as ((_ & _ & _ & _ & P & Q) & _).
    rewrite Rmin_left in A1 by (apply S3; auto).
    rewrite (Rmax_right 0 (vx (s_inf s))) by lra. rewrite (Rmax_right 0 (vy (s_inf s))) by lra. rewrite Rmin_right by lra.
    split; apply vec_ext; auto.
  - set (s1 := setInfLimits s0 (vx (s_inf s)) 0) in *. set (s2 := setInfLimits s1 (vy (s_inf s)) 1) in *.
    destruct (setInf_val s0 (vx (s_inf s)) 0 (Rmax 0 (vx (s_inf s))) G0 ltac:(lia) ltac:(rewrite K0; reflexivity)) as (B1 & _ & B2). fold s1 in B1, B2.
    destruct (setInf_val s1 (vy (s_inf s)) 1 (Rmin (2 * PI) (Rmax 0 (vy (s_inf s)))) G1 ltac:(lia) ltac:(rewrite K1; reflexivity)) as (C1 & _ & C2). fold s2 in C1, C2.
    destruct (setInf_val s2 (vz (s_inf s)) 2 (Rmin polar_max (Rmax 0 (vz (s_inf s)))) G2 ltac:(lia) ltac:(rewrite K2; reflexivity)) as (D1 & _ & D2).
    specialize (B2 K0). specialize (C2 K1). specialize (D2 K2). rewrite D2, C2, B2. cbn [Z.eqb] in B1, C1, D1. rewrite D1, C1, B1, I0. cbn [vx vy vz vzero Z.eqb].
    pose proof (polar_inf s R) as Z. unfold good_sizes in G. rewrite K in G. destruct G as ((_ & _ & _ & _ & P & Q & T & _) & _).
    rewrite Rmin_left in A1 by (apply S3; auto). specialize (S4 K).
    assert (L0 : vz (s_inf (setOrigin (new_shape SPHERE) (s_origin s))) = 0) by reflexivity. rewrite L0 in A2. rewrite Rmin_left in A2 by lra.
    rewrite (Rmax_right 0 (vx (s_inf s))) by lra. rewrite (Rmax_right 0 (vy (s_inf s))) by lra. rewrite (Rmax_right 0 (vz (s_inf s))) by lra.
    rewrite (Rmin_right (2 * PI)) by lra. rewrite (Rmin_right polar_max) by exact Z. rewrite A0, A1, A2.
    split; apply vec_ext; cbn [vx vy vz]; try reflexivity.
    cbn [Z.eqb Pos.eqb]. rewrite !(Rmin_left (vz (getSpan s)) (PI - 0)) by lra. apply Rmin_left. exact S4.
  - assert (ID : forall v d, setInfLimits s0 v d = s0) by (intros v d; unfold setInfLimits; rewrite K0; cbn [checkInfLimits]; destruct (_ || _)%bool; reflexivity). rewrite !ID. clear R1 G1 K1 R2 G2 K2. (* WEDGE *)
    unfold good_sizes in G. rewrite K in G. destruct G as [[_ I] _]. split; [apply vec_ext; assumption|]. rewrite I0, I. reflexivity.
Qed.
Lemma setShape_junk j j' m k : m_shape m <> None \/ t_sets (m_t m) = true \/ k <> CYLINDER -> mesh_setShape j m k = mesh_setShape j' m k.
Proof.
  intros H. unfold mesh_setShape. destruct (m_shape m) as [s|] eqn:E; [reflexivity|].
  destruct (t_sets (m_t m)) eqn:T; [reflexivity|]. destruct k; try reflexivity. destruct H as [H|[H|H]]; congruence.
Qed.
