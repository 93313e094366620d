(** Proofs about the structured meshes. *)
From Coq Require Import Reals List Arith ZArith Bool Lia Lra.
From Verif Require Import Vec Shape ShapeSpec ShapeProofs ShapeCoord Mesh MeshSpec.
Import ListNotations.
Open Scope R_scope.

(* ------------------------------------------------------------------ index maps *)
Lemma split_index n a b : (0 < b)%Z -> (0 <= n < a * b)%Z ->
  (0 <= Z.quot n b < a /\ 0 <= Z.rem n b < b /\ n = b * Z.quot n b + Z.rem n b)%Z.
Proof.
  intros Hb Hn. rewrite Z.quot_div_nonneg, Z.rem_mod_nonneg by lia.
  pose proof (Z.mod_pos_bound n b Hb). pose proof (Z.div_mod n b ltac:(lia)).
  split; [|lia]. split; [apply Z.div_pos; lia|]. apply Z.div_lt_upper_bound; lia.
Qed.
Lemma join_index b q r : (0 <= r < b)%Z -> (0 <= q)%Z -> (Z.quot (b * q + r) b = q /\ Z.rem (b * q + r) b = r)%Z.
Proof.
  intros Hr Hq. assert (0 <= b * q)%Z by nia.
  rewrite Z.quot_div_nonneg, Z.rem_mod_nonneg by lia. rewrite (Z.mul_comm b q).
  rewrite Z.div_add_l, Z.div_small by lia. rewrite (Z.add_comm (q * b)), Z.mod_add, Z.mod_small by lia. lia.
Qed.
Lemma index3 b c i j k : (0 <= i)%Z -> (0 <= j < b)%Z -> (0 <= k < c)%Z ->
  let n := (b * c * i + c * j + k)%Z in
  Z.rem n c = k /\ Z.rem (Z.quot n c) b = j /\ Z.quot (Z.quot n c) b = i.
Proof.
  intros Hi Hj Hk n. assert (E : n = (c * (b * i + j) + k)%Z) by (unfold n; ring). rewrite E.
  assert (0 <= b * i)%Z by nia.
  destruct (join_index c (b * i + j) k) as [Q R]; [lia|lia|]. rewrite Q, R.
  destruct (join_index b i j) as [Q' R']; [lia|lia|]. auto.
Qed.
Lemma index3_range a b c i j k : (0 <= i < a)%Z -> (0 <= j < b)%Z -> (0 <= k < c)%Z ->
  (0 <= b * c * i + c * j + k < a * b * c)%Z.
Proof. intros. assert (0 <= c * j /\ c * j <= c * (b - 1))%Z by nia. assert (0 <= b * c)%Z by nia. nia. Qed.
Lemma index3_back a b c n : (0 < b)%Z -> (0 < c)%Z -> (0 <= n < a * b * c)%Z ->
  let k := Z.rem n c in let j := Z.rem (Z.quot n c) b in let i := Z.quot (Z.quot n c) b in
  (0 <= i < a /\ 0 <= j < b /\ 0 <= k < c /\ b * c * i + c * j + k = n)%Z.
Proof.
  intros Hb Hc Hn k j i. destruct (split_index n (a * b) c Hc Hn) as (Q & K & E).
  destruct (split_index (Z.quot n c) a b Hb Q) as (I & J & E').
  unfold i, j, k. repeat split; try tauto; try lia; nia.
Qed.

Lemma dim_eqs m : dim m 0 = (a_n (m_x m) + 1)%Z /\ dim m 1 = (a_n (m_y m) + 1)%Z /\ dim m 2 = (a_n (m_z m) + 1)%Z.
Proof. repeat split. Qed.
Lemma point_index_iff m i j k : point_index m (i, j, k) <->
  (0 <= i <= a_n (m_x m) /\ 0 <= j <= a_n (m_y m) /\ 0 <= k <= a_n (m_z m))%Z.
Proof.
  destruct (dim_eqs m) as (D0 & D1 & D2). split.
  - intros H. pose proof (H 0%nat ltac:(lia)) as A. pose proof (H 1%nat ltac:(lia)) as B. pose proof (H 2%nat ltac:(lia)) as C.
    rewrite D0 in A. rewrite D1 in B. rewrite D2 in C. cbn [comp] in *. lia.
  - intros (A & B & C) n Hn. three Hn; cbn [comp]; rewrite ?D0, ?D1, ?D2; lia.
Qed.
Lemma cell_index_iff m i j k : cell_index m (i, j, k) <->
  (0 <= i < a_n (m_x m) /\ 0 <= j < a_n (m_y m) /\ 0 <= k < a_n (m_z m))%Z.
Proof.
  destruct (dim_eqs m) as (D0 & D1 & D2). split.
  - intros H. pose proof (H 0%nat ltac:(lia)) as A. pose proof (H 1%nat ltac:(lia)) as B. pose proof (H 2%nat ltac:(lia)) as C.
    rewrite D0 in A. rewrite D1 in B. rewrite D2 in C. cbn [comp] in *. lia.
  - intros (A & B & C) n Hn. three Hn; cbn [comp]; rewrite ?D0, ?D1, ?D2; lia.
Qed.

Lemma points_bijection m :
  (forall i j k, point_index m (i, j, k) -> (0 <= accessPointIndex m i j k < num_points m)%Z /\ pointCoords m (accessPointIndex m i j k) = (i, j, k)) /\
  ((forall i, (i < 3)%nat -> (0 < dim m i)%Z) ->
   forall n, (0 <= n < num_points m)%Z -> point_index m (pointCoords m n) /\
     let '(i, j, k) := pointCoords m n in accessPointIndex m i j k = n).
Proof.
  destruct (dim_eqs m) as (D0 & D1 & D2). unfold num_points. rewrite D0, D1, D2. split.
  - intros i j k H. apply point_index_iff in H. destruct H as (A & B & C). unfold accessPointIndex, pointCoords.
    split; [apply index3_range; lia|].
    destruct (index3 (a_n (m_y m) + 1) (a_n (m_z m) + 1) i j k) as (K & J & I); [lia|lia|lia|].
    cbn zeta. rewrite I, J, K. reflexivity.
  - intros P n Hn. pose proof (P 1%nat ltac:(lia)) as B. pose proof (P 2%nat ltac:(lia)) as C. rewrite D1 in B. rewrite D2 in C.
    destruct (index3_back (a_n (m_x m) + 1) (a_n (m_y m) + 1) (a_n (m_z m) + 1) n B C Hn) as (I & J & K & E).
    unfold pointCoords, accessPointIndex. split; [apply point_index_iff; lia|exact E].
Qed.
Lemma cells_bijection m :
  (forall i j k, cell_index m (i, j, k) -> (0 <= accessCellIndex m i j k < num_cells m)%Z /\ cellCoords m (accessCellIndex m i j k) = (i, j, k)) /\
  ((forall i, (i < 3)%nat -> (1 < dim m i)%Z) ->
   forall n, (0 <= n < num_cells m)%Z -> cell_index m (cellCoords m n) /\
     let '(i, j, k) := cellCoords m n in accessCellIndex m i j k = n).
Proof.
  destruct (dim_eqs m) as (D0 & D1 & D2). unfold num_cells. rewrite D0, D1, D2.
  replace (a_n (m_x m) + 1 - 1)%Z with (a_n (m_x m)) by lia. replace (a_n (m_y m) + 1 - 1)%Z with (a_n (m_y m)) by lia.
  replace (a_n (m_z m) + 1 - 1)%Z with (a_n (m_z m)) by lia. split.
  - intros i j k H. apply cell_index_iff in H. destruct H as (A & B & C). unfold accessCellIndex, cellCoords.
    split; [apply index3_range; lia|].
    destruct (index3 (a_n (m_y m)) (a_n (m_z m)) i j k) as (K & J & I); [lia|lia|lia|].
    cbn zeta. rewrite I, J, K. reflexivity.
  - intros P n Hn. pose proof (P 1%nat ltac:(lia)) as B. pose proof (P 2%nat ltac:(lia)) as C. rewrite D1 in B. rewrite D2 in C.
    destruct (index3_back (a_n (m_x m)) (a_n (m_y m)) (a_n (m_z m)) n) as (I & J & K & E); [lia|lia|lia|].
    unfold cellCoords, accessCellIndex. split; [apply cell_index_iff; lia|exact E].
Qed.

(* ------------------------------------------------------------------ built axes *)
Lemma zget_map_seq {A} (f : nat -> A) n i : zget (map f (seq 0 n)) i =
  if (Z.leb 0 i && Z.ltb i (Z.of_nat n))%bool then Some (f (Z.to_nat i)) else None.
Proof.
  unfold zget. destruct (Z.ltb_spec i 0) as [N|N].
  - destruct (Z.leb_spec 0 i); [lia|reflexivity].
  - destruct (Z.leb_spec 0 i); [|lia]. cbn [andb]. destruct (Z.ltb_spec i (Z.of_nat n)).
    + rewrite nth_error_map. replace (nth_error (seq 0 n) (Z.to_nat i)) with (Some (Z.to_nat i)); [reflexivity|].
      symmetry. rewrite (nth_error_nth' _ 0%nat) by (rewrite seq_length; lia). rewrite seq_nth by lia. reflexivity.
    + rewrite nth_error_map. replace (nth_error (seq 0 n) (Z.to_nat i)) with (@None nat); [reflexivity|].
      symmetry. apply nth_error_None. rewrite seq_length. lia.
Qed.
Lemma firstn_seq n m s : (n <= m)%nat -> firstn n (seq s m) = seq s n.
Proof.
  revert m s. induction n as [|n IH]; intros m s H; [reflexivity|].
  destruct m as [|m]; [lia|]. cbn. rewrite IH by lia. reflexivity.
Qed.
Lemma INR_to_nat i : (0 <= i)%Z -> INR (Z.to_nat i) = IZR i.
Proof. intros. rewrite INR_IZR_INZ, Z2Nat.id by assumption. reflexivity. Qed.

Lemma build_edge n lim sp o i : (2 <= lim)%Z -> let a := build_axis n lim sp o in
  zget (a_edge a) i = if (Z.leb 0 i && Z.leb i (a_n a))%bool then Some (o + IZR i * a_d a) else None.
Proof.
  intros L a. assert (A : (1 <= a_n a)%Z) by (unfold a; cbn; lia). unfold a at 1. unfold build_axis. cbn [a_edge]. rewrite zget_map_seq.
  fold (a_n a). change (Z.max n (lim - 1)) with (a_n a).
  destruct (Z.leb_spec 0 i); cbn [andb]; [|reflexivity].
  destruct (Z.ltb_spec i (Z.of_nat (Z.to_nat (a_n a + 1)))), (Z.leb_spec i (a_n a)); try lia; [|reflexivity].
  rewrite INR_to_nat by assumption. reflexivity.
Qed.
Lemma build_node n lim sp o i : (2 <= lim)%Z -> let a := build_axis n lim sp o in
  zget (a_node a) i = if (Z.leb 0 i && Z.ltb i (a_n a))%bool then Some (o + (IZR i + 0.5) * a_d a) else None.
Proof.
  intros L a. assert (A : (1 <= a_n a)%Z) by (unfold a; cbn; lia). unfold a at 1. unfold build_axis. cbn [a_node].
  rewrite firstn_map, firstn_seq, map_map by lia. rewrite zget_map_seq.
  change (Z.max n (lim - 1)) with (a_n a).
  destruct (Z.leb_spec 0 i); cbn [andb]; [|reflexivity].
  destruct (Z.ltb_spec i (Z.of_nat (Z.to_nat (a_n a)))), (Z.ltb_spec i (a_n a)); try lia; [|reflexivity].
  rewrite INR_to_nat by assumption. change (sp / IZR (a_n a)) with (a_d a). f_equal. ring.
Qed.

(* ------------------------------------------------------------------ reachable meshes *)
Definition shape_ok (o : option shape) : Prop := forall s, o = Some s -> exists k, reach k s.
Definition temps_ok (t : temps) : Prop :=
  (t_seto t = false -> t_o t = vzero) /\ (t_sets t = false -> t_s t = V3 1 1 1) /\
  (t_seti t = false -> t_i t = vzero) /\ (t_setr t = false -> t_r t = ident).
Definition minv (m : mesh) : Prop :=
  shape_ok (m_shape m) /\ (m_shape m = None -> m_built m = false /\ temps_ok (m_t m)).

Lemma reach_setOrigin k s o : reach k s -> reach k (setOrigin s o).
Proof. intros H. exact (reach_call k s (OpOrigin o) _ H eq_refl). Qed.
Lemma reach_setSpan k s o : reach k s -> reach k (setSpan s o).
Proof. intros H. exact (reach_call k s (OpSpan o) _ H eq_refl). Qed.
Lemma reach_setInf k s o d : reach k s -> reach k (setInfLimits s o d).
Proof. intros H. exact (reach_call k s (OpInf o d) _ H eq_refl). Qed.
Lemma reach_setType k s o d : reach k s -> reach k (setCoordinateType s o d).
Proof. intros H. exact (reach_call k s (OpType o d) _ H eq_refl). Qed.

Lemma setShape_shape j m k : exists s, m_shape (mesh_setShape j m k) = Some s /\ reach k s.
Proof.
  unfold mesh_setShape. eexists. split; [reflexivity|].
  match goal with |- reach k (if ?b then _ else _) => destruct b end.
  - match goal with |- reach k (match setRefSystem ?s ?a ?b ?c with _ => _ end) =>
      assert (R : reach k s); [|destruct (setRefSystem s a b c) eqn:E; [exact (reach_call k s (OpFrame a b c) _ R E)|exact R|exact R]] end.
    match goal with |- reach k (if ?b then _ else _) => destruct b end;
      repeat apply reach_setInf; apply reach_setSpan, reach_setOrigin, reach_new.
  - match goal with |- reach k (if ?b then _ else _) => destruct b end;
      repeat apply reach_setInf; apply reach_setSpan, reach_setOrigin, reach_new.
Qed.
Lemma setShape_inv j m k : minv (mesh_setShape j m k).
Proof.
  destruct (setShape_shape j m k) as (s & E & R). split.
  - intros s' E'. exists k. congruence.
  - intros N. congruence.
Qed.
Lemma some_inv m s : m_shape m = Some s -> (exists k, reach k s) -> minv m.
Proof. intros E [k R]. split; [intros s' E'; exists k; congruence|congruence]. Qed.
Lemma build_shape m : m_shape (snd (mesh_build m)) = m_shape m.
Proof. unfold mesh_build. destruct (m_shape m) as [s|] eqn:E; [|exact E]. destruct (dimLimit (s_kind s)) as [[? ?] ?]. reflexivity. Qed.
Lemma build_inv m : minv m -> minv (snd (mesh_build m)).
Proof.
  intros H. destruct (m_shape m) as [s|] eqn:E.
  - apply some_inv with s; [rewrite build_shape; exact E|]. apply H. exact E.
  - unfold mesh_build. rewrite E. exact H.
Qed.
Lemma setOrigin_inv m o : minv m -> minv (mesh_setOrigin m o).
Proof.
  intros [S T]. unfold mesh_setOrigin. destruct (m_shape m) as [s|] eqn:E.
  - destruct (S s eq_refl) as [k R]. eapply some_inv; [reflexivity|]. exists k. apply reach_setOrigin, R.
  - destruct (T eq_refl) as (B & T0 & T1 & T2 & T3). split; cbn; rewrite E; [exact S|]. intros _. split; [exact B|].
    unfold temps_ok; cbn. split; [discriminate|]. auto.
Qed.
Lemma setSpan_inv m o : minv m -> minv (mesh_setSpan m o).
Proof.
  intros [S T]. unfold mesh_setSpan. destruct (m_shape m) as [s|] eqn:E.
  - destruct (S s eq_refl) as [k R]. eapply some_inv; [reflexivity|]. exists k. apply reach_setSpan, R.
  - destruct (T eq_refl) as (B & T0 & T1 & T2 & T3). split; cbn; rewrite E; [exact S|]. intros _. split; [reflexivity|].
    unfold temps_ok; cbn. split; [exact T0|]. split; [discriminate|]. auto.
Qed.
Lemma spacing_dims_inv m h k m' : minv m -> spacing_dims m h k = Some m' -> minv m' /\ m_shape m' = m_shape m.
Proof.
  intros H E. unfold spacing_dims in E. destruct (dimLimit k) as [[l0 l1] l2].
  destruct (spacing_dim _ _ l0); [|discriminate]. destruct (spacing_dim _ _ l1); [|discriminate]. destruct (spacing_dim _ _ l2); [|discriminate].
  injection E as <-. split; [|rewrite build_shape; reflexivity]. apply build_inv. destruct H as [S T]. split; [exact S|].
  intros N. destruct (T N). split; [reflexivity|assumption].
Qed.
Lemma setShapeCopy_inv m s : (exists k, reach k s) -> minv (mesh_setShapeCopy m (Some s)).
Proof. intros R. eapply some_inv; [reflexivity|exact R]. Qed.

Lemma mcall_inv m o m' : minv m ->
  (match o with MShapeCopy s | MMeshCopy s _ _ _ | MMeshCopySpacing s _ => exists k, reach k s | _ => True end) ->
  mcall m o = Some m' -> minv m'.
Proof.
  intros H A E. destruct o; cbn [mcall] in E.
  - injection E as <-. apply setOrigin_inv, H.
  - injection E as <-. apply setSpan_inv, H.
  - unfold mesh_setInfLimits in E. destruct H as [S T]. destruct (m_shape m) as [s|] eqn:N.
    + injection E as <-. destruct (S s eq_refl) as [k R]. eapply some_inv; [reflexivity|]. exists k. apply reach_setInf, R.
    + destruct (T eq_refl) as (B & T0 & T1 & T2 & T3).
      assert (G : forall i', minv (with_temps m (Te (t_seto (m_t m)) (t_sets (m_t m)) true (t_setr (m_t m)) (t_o (m_t m)) (t_s (m_t m)) i' (t_r (m_t m))))).
      { intros i'. split; cbn; rewrite N; [exact S|]. intros _. split; [exact B|]. unfold temps_ok; cbn.
        split; [exact T0|]. split; [exact T1|]. split; [discriminate|exact T3]. }
      destruct (Z.eqb dir 0); [injection E as <-; apply G|]. destruct (Z.eqb dir 1); [injection E as <-; apply G|].
      destruct (Z.eqb dir 2); [injection E as <-; apply G|discriminate].
  - unfold mesh_setRefSystem in E. destruct H as [S T]. destruct (m_shape m) as [s|] eqn:N.
    + destruct (S s eq_refl) as [k R]. destruct (setRefSystem s a0 a1 a2) eqn:F; [| |discriminate]; injection E as <-.
      * eapply some_inv; [reflexivity|]. exists k. exact (reach_call k s (OpFrame a0 a1 a2) _ R F).
      * eapply some_inv; [exact N|]. exists k. exact R.
    + injection E as <-. destruct (T eq_refl) as (B & T0 & T1 & T2 & T3). split; cbn; rewrite N; [exact S|]. intros _. split; [exact B|].
      unfold temps_ok; cbn. split; [exact T0|]. split; [exact T1|]. split; [exact T2|discriminate].
  - unfold mesh_setRefSystem1 in E. destruct H as [S T]. destruct (m_shape m) as [s|] eqn:N.
    + destruct (S s eq_refl) as [k R]. destruct (setRefSystem1 s label a) eqn:F; [| |discriminate]; injection E as <-.
      * eapply some_inv; [reflexivity|]. exists k. exact (reach_call k s (OpFrame1 label a) _ R F).
      * eapply some_inv; [exact N|]. exists k. exact R.
    + destruct (T eq_refl) as (B & T0 & T1 & T2 & T3).
      assert (G : forall r, minv (with_temps m (Te (t_seto (m_t m)) (t_sets (m_t m)) (t_seti (m_t m)) true (t_o (m_t m)) (t_s (m_t m)) (t_i (m_t m)) r))).
      { intros r. split; cbn; rewrite N; [exact S|]. intros _. split; [exact B|]. unfold temps_ok; cbn.
        split; [exact T0|]. split; [exact T1|]. split; [exact T2|discriminate]. }
      destruct (setRefSystem1 _ label a); [| |discriminate]; injection E as <-; apply G.
  - injection E as <-. destruct H as [S T]. split; [exact S|]. intros N. destruct (T N). split; [reflexivity|assumption].
  - injection E as <-. unfold mesh_setCoordType. destruct (m_shape m) as [s|] eqn:N; [|exact H].
    destruct (proj1 H s N) as [k R]. eapply some_inv; [reflexivity|]. exists k. apply reach_setType, R.
  - injection E as <-. apply setShape_inv.
  - injection E as <-. apply setShapeCopy_inv, A.
  - injection E as <-. apply build_inv, H.
  - injection E as <-. split; [intros s Q; discriminate|]. intros _. split; [reflexivity|]. repeat split.
  - injection E as <-. unfold setMesh. apply build_inv.
    assert (I : minv (mesh_setSpan (mesh_setOrigin (mesh_setShape junk (with_shape m None) k) o) sp)) by (apply setSpan_inv, setOrigin_inv, setShape_inv).
    destruct I as [S T]. split; [exact S|]. intros N. destruct (T N). split; [reflexivity|assumption].
  - apply (spacing_dims_inv _ _ _ _ ltac:(apply setSpan_inv, setOrigin_inv, setShape_inv) E).
  - injection E as <-. unfold setMeshCopy. apply build_inv. eapply some_inv; [reflexivity|exact A].
  - refine (proj1 (spacing_dims_inv _ _ _ _ _ E)). apply setShapeCopy_inv, A.
Qed.
Lemma assign_inv a b : minv a -> minv b -> minv (mesh_assign a b).
Proof.
  intros [Sa Ta] [Sb Tb]. unfold mesh_assign, mesh_swap, mesh_copy. destruct (m_shape b) as [s|] eqn:E; [split; cbn [fst]; rewrite E; assumption|].
  destruct (Tb eq_refl) as [B T]. cbn [fst]. split; [exact Sa|]. intros _. split; [exact B|exact T].
Qed.
Lemma mreach_inv P m : mreach P m -> minv m.
Proof.
  intros H. induction H as [|m o m' H IH Po A E|a b Ha IHa Hb IHb].
  - split; [intros s Q; discriminate|]. intros _. split; [reflexivity|]. repeat split.
  - exact (mcall_inv m o m' IH A E).
  - apply assign_inv; assumption.
Qed.

(* ------------------------------------------------------------------ what build leaves *)
Lemma setmin k : dimLimit k = (min_points k 0, min_points k 1, min_points k 2).
Proof. destruct k; reflexivity. Qed.
Lemma min_ge k i : (2 <= min_points k i)%Z.
Proof. destruct k, i as [|[|[|i]]]; cbn; lia. Qed.
Lemma build_some m m' : mesh_build m = (true, m') -> exists s, m_shape m = Some s /\
  m' = Me (Some s) (build_axis (a_n (m_x m)) (min_points (s_kind s) 0) (vx (s_span s)) (vx (getLocalOrigin s)))
                   (build_axis (a_n (m_y m)) (min_points (s_kind s) 1) (vy (s_span s)) (vy (getLocalOrigin s)))
                   (build_axis (a_n (m_z m)) (min_points (s_kind s) 2) (vz (s_span s)) (vz (getLocalOrigin s))) (m_t m) true.
Proof.
  unfold mesh_build. destruct (m_shape m) as [s|]; [|discriminate]. rewrite setmin. intros E. injection E as <-.
  exists s. split; reflexivity.
Qed.
Lemma span_pos k s i : reach k s -> solid s -> (i < 3)%nat -> 0 < vent (s_span s) i /\ 0 < vent (s_scaling s) i.
Proof.
  intros R S Hi. destruct (reach_good k s R) as (_ & G & _). pose proof (S i Hi) as N.
  unfold getSpan, cmul in N. unfold good_sizes in G.
  assert (A : 0 <= vent (s_span s) i /\ 0 <= vent (s_scaling s) i).
  { destruct (s_kind s); destruct G as (G & G0 & G1 & G2).
    - destruct G as [-> _]. three Hi; cbn; lra.
    - three Hi; cbn; lra.
    - three Hi; cbn; lra.
    - destruct G as [-> _]. three Hi; cbn; lra. }
  assert (B : vent (s_span s) i <> 0 /\ vent (s_scaling s) i <> 0).
  { split; intros Q; apply N; three Hi; cbn [vent vx vy vz] in *; rewrite Q; ring. }
  lra.
Qed.

(** One direction of a built mesh: n parts of the interval of length L that starts at o. *)
Record good_axis (a : axis) (n : Z) (o L : R) : Prop := GA {
  ga_n : a_n a = n; ga_1 : (1 <= n)%Z; ga_L : 0 < L; ga_d : a_d a = L / IZR n;
  ga_edge : forall i, zget (a_edge a) i = if (Z.leb 0 i && Z.leb i n)%bool then Some (o + IZR i * a_d a) else None;
  ga_node : forall i, zget (a_node a) i = if (Z.leb 0 i && Z.ltb i n)%bool then Some (o + (IZR i + 0.5) * a_d a) else None }.
Lemma build_good n lim sp o : (2 <= lim)%Z -> 0 < sp -> good_axis (build_axis n lim sp o) (Z.max n (lim - 1)) o sp.
Proof.
  intros L P. split; [reflexivity|lia|exact P|reflexivity| |].
  - intros i. apply build_edge; assumption.
  - intros i. apply build_node; assumption.
Qed.
Lemma built_axes m s : built_on m s -> (exists k, reach k s) /\ m_shape m = Some s /\ solid s /\ m_built m = true /\
  good_axis (m_x m) (dim m 0 - 1) (vx (getLocalOrigin s)) (vx (s_span s)) /\
  good_axis (m_y m) (dim m 1 - 1) (vy (getLocalOrigin s)) (vy (s_span s)) /\
  good_axis (m_z m) (dim m 2 - 1) (vz (getLocalOrigin s)) (vz (s_span s)).
Proof.
  intros ((m0 & R0 & B) & E & S). destruct (build_some m0 m B) as (s' & E0 & ->). cbn in E. injection E as ->.
  destruct (mreach_inv _ _ R0) as [Sh _]. destruct (Sh s E0) as [k R].
  split; [exists k; exact R|]. split; [reflexivity|]. split; [exact S|]. split; [reflexivity|].
  destruct (dim_eqs (Me (Some s) (build_axis (a_n (m_x m0)) (min_points (s_kind s) 0) (vx (s_span s)) (vx (getLocalOrigin s)))
                   (build_axis (a_n (m_y m0)) (min_points (s_kind s) 1) (vy (s_span s)) (vy (getLocalOrigin s)))
                   (build_axis (a_n (m_z m0)) (min_points (s_kind s) 2) (vz (s_span s)) (vz (getLocalOrigin s))) (m_t m0) true)) as (D0 & D1 & D2).
  rewrite D0, D1, D2. rewrite !Z.add_simpl_r.
  split; [|split]; apply build_good; try apply min_ge;
    [apply (span_pos k s 0 R S)|apply (span_pos k s 1 R S)|apply (span_pos k s 2 R S)]; lia.
Qed.

(* ------------------------------------------------------------------ conversions to int *)
Lemma floor_unique x z : IZR z <= x < IZR z + 1 -> Int_part x = z.
Proof.
  intros H. destruct (base_Int_part x) as [A B].
  assert (IZR (Int_part x) < IZR z + 1) by lra. assert (IZR z < IZR (Int_part x) + 1) by lra.
  rewrite <- plus_IZR in *. apply lt_IZR in H0. apply lt_IZR in H1. lia.
Qed.
Lemma to_int_some x z : to_int x = Some z -> IZR z <= x < IZR z + 1 /\ (- 2 ^ 31 <= z < 2 ^ 31)%Z.
Proof.
  unfold to_int. destruct (base_Int_part x) as [A B].
  destruct (Z.leb_spec (- 2 ^ 31) (Int_part x)); cbn [andb]; [|discriminate].
  destruct (Z.ltb_spec (Int_part x) (2 ^ 31)); [|discriminate]. intros E. injection E as <-. split; [lra|lia].
Qed.
Lemma to_int_is x z : IZR z <= x < IZR z + 1 -> (- 2 ^ 31 <= z < 2 ^ 31)%Z -> to_int x = Some z.
Proof.
  intros H Hz. unfold to_int. rewrite (floor_unique x z H).
  destruct (Z.leb_spec (- 2 ^ 31) z); [|lia]. destruct (Z.ltb_spec z (2 ^ 31)); [reflexivity|lia].
Qed.
Lemma to_int_range x : - 2 ^ 31 <= x < 2 ^ 31 -> exists z, to_int x = Some z.
Proof.
  intros H. exists (Int_part x). destruct (base_Int_part x) as [A B]. apply to_int_is; [lra|].
  rewrite (pow_IZR 2 31) in H. change (Z.of_nat 31) with 31%Z in H.
  split.
  - assert (IZR (- 2 ^ 31) < IZR (Int_part x) + 1) by (rewrite opp_IZR; lra). rewrite <- plus_IZR in H0. apply lt_IZR in H0. lia.
  - apply lt_IZR. lra.
Qed.

(* ------------------------------------------------------------------ one direction *)
Lemma ga_dpos a n o L : good_axis a n o L -> 0 < a_d a /\ IZR n * a_d a = L /\ 1 <= IZR n.
Proof.
  intros G. destruct G. assert (1 <= IZR n) by (apply IZR_le; assumption). rewrite ga_d0.
  split; [apply Rdiv_lt_0_compat; lra|]. split; [field; lra|assumption].
Qed.
Lemma quot_bounds p o d z : 0 < d -> IZR z <= (p - o) / d < IZR z + 1 -> o + IZR z * d <= p < o + (IZR z + 1) * d.
Proof.
  intros D [A B]. assert (E : p = o + (p - o) / d * d) by (field; lra). set (q := (p - o) / d) in *. clearbody q. subst p. split; nra.
Qed.
Lemma quot_bounds' p o d z : 0 < d -> o + IZR z * d <= p < o + (IZR z + 1) * d -> IZR z <= (p - o) / d < IZR z + 1.
Proof.
  intros D [A B]. assert (E : p = o + (p - o) / d * d) by (field; lra). set (q := (p - o) / d) in *. clearbody q. subst p. split; nra.
Qed.

Lemma locate1_ok a n o L p i : good_axis a n o L -> locate1 a o p = Some i ->
  (0 <= i < n)%Z /\ (o <= p <= o + L -> o + IZR i * a_d a <= p <= o + IZR (i + 1) * a_d a).
Proof.
  intros G E. destruct (ga_dpos _ _ _ _ G) as (D & N & N1). pose proof (ga_1 _ _ _ _ G). unfold locate1 in E. rewrite (ga_n _ _ _ _ G) in E.
  destruct (to_int _) as [z|] eqn:T; [|discriminate]. apply to_int_some in T. destruct T as [T _].
  injection E as <-. split; [lia|]. intros P. apply (quot_bounds _ _ _ _ D) in T.
  assert (Z0 : (0 <= z)%Z) by (assert (-1 < IZR z) by nra; apply lt_IZR in H0; lia).
  destruct (Z.le_gt_cases z (n - 1)) as [Q|Q].
  - rewrite Z.max_r, Z.min_r by lia. rewrite plus_IZR. lra.
  - rewrite Z.max_r, Z.min_l by lia.
    assert (IZR n <= IZR z) by (apply IZR_le; lia).
    replace (n - 1 + 1)%Z with n by lia. rewrite minus_IZR. nra.
Qed.
Lemma locate1_some a n o L p : good_axis a n o L -> - 2 ^ 31 <= (p - o) / (L / IZR n) < 2 ^ 31 -> exists i, locate1 a o p = Some i.
Proof.
  intros G H. unfold locate1. rewrite (ga_d _ _ _ _ G). destruct (to_int_range _ H) as [z ->]. eexists; reflexivity.
Qed.

(** Indices, weight and the value of the interpolated coordinate. *)
Lemma clip_range x : 0 <= clip01 x <= 1.
Proof. unfold clip01, Rmax, Rmin. destruct (Rle_dec 1 x); destruct (Rle_dec _ _); lra. Qed.
Lemma clip_id x : 0 <= x <= 1 -> clip01 x = x.
Proof. unfold clip01, Rmax, Rmin. intros. destruct (Rle_dec 1 x); destruct (Rle_dec _ _); lra. Qed.

Lemma point_stencil_ok a n o L p i0 ip w : good_axis a n o L -> point_stencil a o p = Some (i0, ip, w) ->
  (0 <= i0 <= n)%Z /\ (0 <= ip <= n)%Z /\ 0 <= w <= 1 /\
  (o <= p <= o + L -> (1 - w) * (o + IZR i0 * a_d a) + w * (o + IZR ip * a_d a) = p /\
                      o + IZR i0 * a_d a <= p <= o + IZR (i0 + 1) * a_d a /\ (ip = (i0 + 1)%Z \/ (w = 0 /\ ip = i0))) /\
  (forall i, (0 <= i <= n)%Z -> p = o + IZR i * a_d a -> i0 = i /\ w = 0).
Proof.
  intros G E. destruct (ga_dpos _ _ _ _ G) as (D & N & N1). pose proof (ga_1 _ _ _ _ G) as Hn. unfold point_stencil in E. rewrite (ga_n _ _ _ _ G) in E.
  destruct (to_int _) as [z|] eqn:T; [|discriminate]. apply to_int_some in T. destruct T as [T _].
  apply (quot_bounds _ _ _ _ D) in T.
  set (c := Z.max 0 (Z.min n z)) in *. assert (C : (0 <= c <= n)%Z) by lia.
  rewrite (ga_edge _ _ _ _ G) in E. destruct (Z.leb_spec 0 c); [|lia]. destruct (Z.leb_spec c n); [|lia]. cbn [andb] in E.
  injection E as <- <- <-. split; [exact C|]. split; [destruct (Rle_dec _ _); lia|]. split; [apply clip_range|].
  assert (IN : o <= p <= o + L -> c = z).
  { intros P. assert (0 <= z)%Z by (assert (A : -1 < IZR z) by nra; apply lt_IZR in A; lia).
    assert (z <= n)%Z by (assert (A : IZR z < IZR n + 1) by nra; rewrite <- plus_IZR in A; apply lt_IZR in A; lia). lia. }
  assert (Q : (p - (o + IZR c * a_d a)) / a_d a = (p - o) / a_d a - IZR c) by (field; lra).
  split.
  - intros P. pose proof (IN P) as EC. clear IN. clearbody c. subst c. destruct (Rle_dec _ _) as [Le|]; [|lra].
    assert (W : 0 <= (p - (o + IZR z * a_d a)) / a_d a <= 1).
    { rewrite Q. pose proof (quot_bounds' p o (a_d a) z D T). lra. }
    rewrite Rabs_right by lra. rewrite clip_id by exact W.
    set (w := (p - (o + IZR z * a_d a)) / a_d a) in *.
    assert (PW : p = o + IZR z * a_d a + w * a_d a) by (unfold w; field; lra).
    destruct (Z.eq_dec z n) as [->|NE].
    + rewrite Z.min_r by lia. assert (w = 0) by nra. rewrite PW at 2. split; [nra|]. split; [|right; split; [assumption|reflexivity]].
      rewrite plus_IZR. nra.
    + rewrite Z.min_l by lia. split; [rewrite plus_IZR; nra|]. split; [rewrite plus_IZR; nra|left; reflexivity].
  - intros i Hi P. assert (IZR i <= IZR n) by (apply IZR_le; lia). assert (0 <= IZR i) by (apply IZR_le; lia).
    assert (Ez : z = i).
    { assert (A : IZR z < IZR i + 1) by nra. assert (B : IZR i < IZR z + 1) by nra.
      rewrite <- plus_IZR in A, B. apply lt_IZR in A. apply lt_IZR in B. lia. }
    assert (c = i) by lia. split; [assumption|]. rewrite Q, P, H3.
    replace ((o + IZR i * a_d a - o) / a_d a - IZR i) with 0 by (field; lra). rewrite Rabs_R0. apply clip_id. lra.
Qed.
Lemma point_stencil_some a n o L p : good_axis a n o L -> - 2 ^ 31 <= (p - o) / (L / IZR n) < 2 ^ 31 ->
  exists t, point_stencil a o p = Some t.
Proof.
  intros G H. pose proof (ga_1 _ _ _ _ G). unfold point_stencil. rewrite (ga_n _ _ _ _ G). rewrite <- (ga_d _ _ _ _ G) in H.
  destruct (to_int_range _ H) as [z ->]. rewrite (ga_edge _ _ _ _ G).
  destruct (Z.leb_spec 0 (Z.max 0 (Z.min n z))); [|lia]. destruct (Z.leb_spec (Z.max 0 (Z.min n z)) n); [|lia]. eexists; reflexivity.
Qed.

Lemma cell_stencil_ok a n o L p i0 ip w c : good_axis a n o L -> locate1 a o p = Some i0 -> cell_stencil a i0 p = Some (c, ip, w) ->
  c = i0 /\ (0 <= i0 < n)%Z /\ (0 <= ip < n)%Z /\ 0 <= w <= 1 /\
  (o + 0.5 * a_d a <= p <= o + (IZR n - 0.5) * a_d a ->
     (1 - w) * (o + (IZR i0 + 0.5) * a_d a) + w * (o + (IZR ip + 0.5) * a_d a) = p) /\
  (forall i, (0 <= i < n)%Z -> p = o + (IZR i + 0.5) * a_d a -> i0 = i /\ w = 0).
Proof.
  intros G L1 E. destruct (ga_dpos _ _ _ _ G) as (D & N & N1). pose proof (ga_1 _ _ _ _ G) as Hn.
  pose proof L1 as L2. destruct (locate1_ok _ _ _ _ _ _ G L1) as [I IN]. unfold cell_stencil in E. rewrite (ga_n _ _ _ _ G) in E.
  rewrite (ga_node _ _ _ _ G) in E. destruct (Z.leb_spec 0 i0); [|lia]. destruct (Z.ltb_spec i0 n); [|lia]. cbn [andb] in E.
  injection E as <- <- <-. split; [reflexivity|]. split; [exact I|]. split; [destruct (Rlt_dec _ _); lia|]. split; [apply clip_range|].
  assert (Q : p = o + (IZR i0 + 0.5) * a_d a + (p - (o + (IZR i0 + 0.5) * a_d a)) / a_d a * a_d a) by (field; lra).
  set (w := (p - (o + (IZR i0 + 0.5) * a_d a)) / a_d a) in *. split.
  - intros P. assert (B : o <= p <= o + L) by (rewrite <- N; nra). specialize (IN B). rewrite plus_IZR in IN.
    assert (W : -0.5 <= w <= 0.5) by (split; nra).
    destruct (Rlt_dec _ p) as [Lt|Ge].
    + assert (0 < w) by nra. rewrite Rabs_right by lra. rewrite clip_id by lra.
      assert (NE : i0 <> (n - 1)%Z).
      { intros ->. rewrite minus_IZR in *. nra. }
      rewrite Z.min_l by lia. rewrite plus_IZR. nra.
    + assert (w <= 0) by nra. rewrite Rabs_left1 by lra. rewrite clip_id by lra.
      destruct (Z.eq_dec i0 0) as [->|NE].
      * change (Z.max 0 (0 - 1)) with 0%Z. nra.
      * rewrite Z.max_r by lia. rewrite minus_IZR. nra.
  - intros i Hi P.
    assert (Ei : i0 = i).
    { unfold locate1 in L2. rewrite (ga_n _ _ _ _ G) in L2. destruct (to_int _) as [z|] eqn:T; [|discriminate]. apply to_int_some in T. destruct T as [T _].
      apply (quot_bounds _ _ _ _ D) in T.
      assert (A : IZR z < IZR i + 1) by nra. assert (B : IZR i < IZR z + 1) by nra.
      rewrite <- plus_IZR in A, B. apply lt_IZR in A. apply lt_IZR in B. injection L2 as <-. lia. }
    split; [exact Ei|]. assert (w = 0) by (unfold w; rewrite P, Ei; field; lra). rewrite H1, Rabs_R0. apply clip_id. lra.
Qed.
