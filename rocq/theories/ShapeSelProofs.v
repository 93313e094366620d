(** Proofs about the selections of points and cells. *)
From Coq Require Import Reals List Arith ZArith Bool Lia Lra Psatz Permutation Sorted.
From Verif Require Import Vec Shape ShapeSpec ShapeProofs ShapeCoord ShapeSel ShapeSelSpec.
Import ListNotations.
Open Scope R_scope.

(* ------------------------------------------------------------------ the inclusion test *)
Lemma in_range_iff x : in_range x = true <-> - tol < x < 1 + tol.
Proof.
  unfold in_range. destruct (Rlt_dec (-1 * tol) x); [destruct (Rlt_dec x (1 + tol))|]; split; intros; try discriminate; try reflexivity; lra.
Qed.
Definition basic (s : shape) (p : vec) : vec := localToBasic s (toLocalCoord s p).
Lemma included_iff s p : isPointIncluded s p = true <-> forall i, (i < 3)%nat -> - tol < vent (basic s p) i < 1 + tol.
Proof.
  unfold isPointIncluded. fold (basic s p). rewrite !andb_true_iff, !in_range_iff. split.
  - intros ((A & B) & C) i Hi. three Hi; assumption.
  - intros H. repeat split; try apply (H 0%nat); try apply (H 1%nat); try apply (H 2%nat); lia.
Qed.
Lemma tol_pos : 0 < tol < / 1000.
Proof. unfold tol. split; [apply Rinv_0_lt_compat; lra|]. apply Rinv_lt_contravar; lra. Qed.
Lemma dbl_max_big : 2 < dbl_max.
Proof.
  unfold dbl_max. assert (/ 2 ^ 52 < 1) by (rewrite <- Rinv_1; apply Rinv_lt_contravar; lra).
  assert (2 ^ 2 <= 2 ^ 1023) by (apply Rle_pow; [lra|lia]). nra.
Qed.

Lemma included_not_edge s p : isPointIncluded s p = true -> good_sizes s -> solid s -> ~ edge_plane s p.
Proof.
  intros H G S (K & E). destruct (solid_scal s G S) as ((SX & SY & SZ) & _).
  apply included_iff with (i := 1%nat) in H; [|lia].
  unfold basic, localToBasic, toLocalCoord, getLocalOrigin in H. rewrite K in H. cbv zeta in E.
  set (w := vsub p (s_origin s)) in *. destruct E as [E1 E2].
  change (dot w (row0 (s_sdr s)) = vx (s_scaling s)) in E1.
  change (dot w (row1 (s_sdr s)) <> 0) in E2.
  unfold cdiv, dots in H. cbn [vx vy vz] in H. rewrite E1 in H.
  replace (vx (s_scaling s) / vx (s_scaling s)) with 1 in H by (field; exact SX).
  replace (1 - 1) with 0 in H by ring. rewrite Rabs_R0 in H.
  destruct (Rlt_dec 0 0) as [L|L]; [lra|].
  destruct (Rlt_dec 0 (Rabs (dot w (row1 (s_sdr s)) / vy (s_scaling s)))) as [L'|L'].
  - cbn [vent vsub vx vy vz] in H. pose proof tol_pos. pose proof dbl_max_big. lra.
  - apply L'. apply Rabs_pos_lt. unfold Rdiv. apply Rmult_integral_contrapositive_currified; [exact E2|].
    apply Rinv_neq_0_compat. exact SY.
Qed.

Lemma included_near s p : good_frame s -> good_sizes s -> solid s -> isPointIncluded s p = true -> inside_within tol s p.
Proof.
  intros F G S H. pose proof (included_not_edge s p H G S) as E.
  exists (basic s p). split; [intros i Hi; apply (proj1 (included_iff s p) H i Hi)|].
  unfold basic. rewrite local_basic_local by assumption. symmetry. apply world_local_world; assumption.
Qed.

(** The basic coordinates of a point of the volume are in the unit cube. *)
Lemma polar_radius0 r t : 0 <= r -> sqrt (r * cos t * (r * cos t) + r * sin t * (r * sin t)) = r.
Proof.
  intros [H|H]; [apply polar_radius; exact H|]. subst r. replace (0 * cos t * (0 * cos t) + 0 * sin t * (0 * sin t)) with 0 by ring. apply sqrt_0.
Qed.
Lemma turn_frac t m : 0 <= t < 2 * PI -> 0 <= m <= 2 * PI -> 0 <= from_mark t m / (2 * PI) <= 1.
Proof.
  intros A B. destruct (from_mark_ok t m A B) as [C _]. pose proof PI_RGT_0.
  assert (0 < / (2 * PI)) by (apply Rinv_0_lt_compat; lra). assert (2 * PI * / (2 * PI) = 1) by (apply Rinv_r; lra).
  unfold Rdiv. split; nra.
Qed.
Lemma inside_basic s p : good_frame s -> good_sizes s -> solid s -> whole_turn s -> inside s p -> unit_cube (basic s p).
Proof.
  intros [D I] G S W (b & Hb & ->). destruct (solid_scal s G S) as ((SX & SY & SZ) & PX & PY & PZ).
  pose proof (proj1 (basic_param s b G S) Hb) as P. pose proof (basic_local_basic s b G S) as BL.
  pose proof (P 0%nat ltac:(lia)) as P0. pose proof (P 1%nat ltac:(lia)) as P1. pose proof (P 2%nat ltac:(lia)) as P2.
  set (q := basicToLocal s b) in *.
  pose proof PI_RGT_0 as PI0.
  unfold basic, toWorldCoord, toLocalCoord, whole_turn, getLocalOrigin in *. destruct (s_kind s) eqn:K.
  - rewrite vsub_vadd, I, dots_inverse by exact D. rewrite cdiv_cmul by assumption. rewrite BL. exact Hb.
  - unfold good_sizes in G. rewrite K in G. destruct G as [(G1 & G2 & G3 & G4 & G5 & G6) (G7 & G8 & G9)].
    rewrite vsub_vadd, I, dots_inverse by exact D. cbn [vx vy vz cmul vent] in *.
    rewrite G3, Rmult_1_r. set (r := vx q * vx (s_scaling s) + vx (s_inf s)) in *.
    assert (Hr : 0 <= r) by (unfold r; nra). rewrite (polar_radius0 r _ Hr).
    set (t := vy q + vy (s_inf s)).
    assert (Core : forall u a, u = r -> 0 <= a < 2 * PI ->
       unit_cube (localToBasic s (cdiv (V3 (u - vx (s_inf s)) (from_mark a (vy (s_inf s))) (vz q * vz (s_scaling s))) (s_scaling s)))).
    { intros u a -> Ha. pose proof (turn_frac a _ Ha G6) as T.
      assert (X : (r - vx (s_inf s)) / vx (s_scaling s) = vx q) by (unfold r; field; exact SX).
      assert (Z : vz q * vz (s_scaling s) / vz (s_scaling s) = vz q) by (field; exact SZ).
      intros i Hi. unfold localToBasic, getLocalOrigin. rewrite K. unfold cdiv, vadd, vscale. cbn [vx vy vz].
      rewrite X, Z, W, G3. three Hi; cbn [vent vx vy vz]; [lra| |lra].
      replace ((from_mark a (vy (s_inf s)) / 1 + -1 * 0) / (2 * PI)) with (from_mark a (vy (s_inf s)) / (2 * PI)) by (field; lra). exact T. }
    destruct (Req_EM_T _ 0) as [X|X]; [destruct (Req_EM_T _ 0) as [Y|Y]|].
    + apply Core; [|lra]. rewrite <- (polar_radius0 r t Hr), X, Y. replace (0 * 0 + 0 * 0) with 0 by ring. symmetry. apply sqrt_0.
    + apply Core; [reflexivity|]. apply angle_ok. right; exact Y.
    + apply Core; [reflexivity|]. apply angle_ok. left; exact X.
  - unfold good_sizes in G. rewrite K in G. destruct G as [(G1 & G2 & G3 & G4 & G5 & G6 & G7 & G8) (G9 & G10 & G11)].
    rewrite vsub_vadd, I, dots_inverse by exact D. cbn [vx vy vz cmul vent] in *.
    rewrite G2, G3, !Rmult_1_r. set (r := vx q * vx (s_scaling s) + vx (s_inf s)) in *.
    assert (Hr : 0 <= r) by (unfold r; nra).
    set (t := vy q + vy (s_inf s)) in *. set (f := vz q + vz (s_inf s)) in *.
    assert (Hf : 0 <= f <= PI) by (unfold f; lra).
    assert (Nr : norm (V3 (r * cos t * sin f) (r * sin t * sin f) (r * cos f)) = r).
    { rewrite norm_sqrt. cbn [vx vy vz]. pose proof (sin2_cos2 t) as Q1. pose proof (sin2_cos2 f) as Q2. unfold Rsqr in *.
      transitivity (sqrt (r²)); [f_equal; unfold Rsqr|apply sqrt_Rsqr; exact Hr].
      transitivity (r * r * (sin f * sin f) * (sin t * sin t + cos t * cos t) + r * r * (cos f * cos f)); [ring|].
      rewrite Q1. transitivity (r * r * (sin f * sin f + cos f * cos f)); [ring|]. rewrite Q2; ring. }
    rewrite Nr.
    assert (Core : forall a z, 0 <= a / (2 * PI) <= 1 -> 0 <= z / vz (s_span s) <= 1 ->
       unit_cube (localToBasic s (cdiv (V3 (r - vx (s_inf s)) a z) (s_scaling s)))).
    { intros a z Ha Hz.
      assert (X : (r - vx (s_inf s)) / vx (s_scaling s) = vx q) by (unfold r; field; exact SX).
      intros i Hi. unfold localToBasic, getLocalOrigin. rewrite K. unfold cdiv, vadd, vscale. cbn [vx vy vz].
      rewrite X, W, G2, G3. three Hi; cbn [vent vx vy vz].
      - lra.
      - replace ((a / 1 + -1 * 0) / (2 * PI)) with (a / (2 * PI)) by (field; lra). exact Ha.
      - replace ((z / 1 + -1 * 0) / vz (s_span s)) with (z / vz (s_span s)) by (field; exact PZ). exact Hz. }
    assert (Fr : 0 <= vz q / vz (s_span s) <= 1).
    { assert (0 < vz (s_span s)) by lra. assert (0 < / vz (s_span s)) by (apply Rinv_0_lt_compat; lra).
      assert (vz (s_span s) * / vz (s_span s) = 1) by (apply Rinv_r; lra). unfold Rdiv; split; nra. }
    destruct (Rlt_dec 0 r) as [R|R].
    + apply Core.
      * apply turn_frac; [|exact G6]. destruct (Req_EM_T _ 0) as [X|X]; [destruct (Req_EM_T _ 0) as [Y|Y]|].
        -- lra.
        -- apply angle_ok. right; exact Y.
        -- apply angle_ok. left; exact X.
      * replace (r * cos f / r) with (cos f) by (field; lra). rewrite acos_cos by exact Hf.
        replace (f - vz (s_inf s)) with (vz q) by (unfold f; ring). exact Fr.
    + assert (H : r = 0) by lra. clearbody r. apply Core.
      * match goal with |- 0 <= ?a / _ <= 1 => replace a with 0 by (rewrite H; unfold dots, dot; cbn [vx vy vz]; ring) end. unfold Rdiv; split; lra.
      * match goal with |- 0 <= ?a / _ <= 1 => replace a with 0 by (rewrite H; unfold dots, dot; cbn [vx vy vz]; ring) end. unfold Rdiv; split; lra.
  - rewrite vsub_vadd, I, dots_inverse by exact D. rewrite cdiv_cmul by assumption. cbn [vx vy vz].
    assert (Q : q = vadd b (V3 0 0 (- / 2))) by (unfold q, basicToLocal, getLocalOrigin; rewrite K; reflexivity).
    assert (Core : forall y, 0 <= y <= 1 -> unit_cube (localToBasic s (V3 (vx q) y (vz q)))).
    { intros y Hy i Hi. pose proof (Hb 0%nat ltac:(lia)) as B0. pose proof (Hb 2%nat ltac:(lia)) as B2. cbn [vent] in B0, B2.
      unfold localToBasic, getLocalOrigin. rewrite K, Q. three Hi; cbn [vent vsub vadd vx vy vz]; lra. }
    pose proof (Hb 1%nat ltac:(lia)) as B1. cbn [vent] in B1.
    destruct (Rlt_dec 0 (Rabs (1 - vx q))) as [A|A].
    + apply Core. replace (vy q * (1 - vx q) / (1 - vx q)) with (vy b).
      * exact B1.
      * rewrite Q; cbn [vadd vx vy vz]. field. intros Z. rewrite Q in A. cbn [vadd vx] in A.
        replace (1 - (vx b + 0)) with 0 in A by lra. rewrite Rabs_R0 in A. lra.
    + assert (X : 1 - vx q = 0) by (destruct (Req_dec (1 - vx q) 0) as [Z|Z]; [exact Z|apply Rabs_pos_lt in Z; contradiction]).
      rewrite X, Rmult_0_r, Rabs_R0. destruct (Rlt_dec 0 0); [lra|]. apply Core. lra.
Qed.

Lemma unit_included s p : unit_cube (basic s p) -> isPointIncluded s p = true.
Proof. intros H. apply included_iff. intros i Hi. pose proof (H i Hi). pose proof tol_pos. lra. Qed.
Lemma inside_included s p : good_frame s -> good_sizes s -> solid s -> whole_turn s -> inside s p -> isPointIncluded s p = true.
Proof. intros. apply unit_included. apply inside_basic; assumption. Qed.
(** Regular parameters do not need the whole turn. *)
Lemma regular_included s b : good_frame s -> good_sizes s -> solid s -> unit_cube b -> ~ singular s (basicToLocal s b) ->
  isPointIncluded s (toWorldCoord s (basicToLocal s b)) = true.
Proof.
  intros F G S Hb N. apply unit_included. unfold basic. rewrite local_world_local; try assumption.
  - rewrite basic_local_basic by assumption. exact Hb.
  - apply basic_param; assumption.
Qed.

(* ------------------------------------------------------------------ one by one selections *)
Lemma filter_split {A} (f : A -> bool) l : Permutation (filter f l ++ filter (fun x => negb (f x)) l) l.
Proof.
  induction l as [|x r IH]; cbn; [constructor|]. destruct (f x); cbn.
  - constructor. exact IH.
  - etransitivity; [symmetry; apply Permutation_middle|]. constructor. exact IH.
Qed.
Lemma patch_cells_split s g : split_of (includeGeometryPatch s g) (excludeGeometryPatch s g) (map fst (p_cells g)).
Proof. apply filter_split. Qed.
Lemma patch_verts_split s g : split_of (includeCloudPatch s g) (excludeCloudPatch s g) (map fst (p_verts g)).
Proof.
  unfold split_of, includeCloudPatch, excludeCloudPatch. rewrite <- map_app. apply Permutation_map.
  etransitivity; [|exact (filter_split (fun '(_, v) => isPointIncluded s v) (p_verts g))]. apply Permutation_app_head.
  erewrite filter_ext; [reflexivity|]. intros [i v]; reflexivity.
Qed.
Lemma cloud_split s l n : Permutation (cloud s true l n ++ cloud s false l n) (seq n (length l)).
Proof.
  revert n. induction l as [|v r IH]; intros n; cbn; [constructor|].
  destruct (isPointIncluded s v); cbn.
  - constructor. apply IH.
  - etransitivity; [symmetry; apply Permutation_middle|]. constructor. apply IH.
Qed.
Lemma cloud_in s keep l n i : In i (cloud s keep l n) <-> exists v, nth_error l (i - n) = Some v /\ (n <= i)%nat /\ isPointIncluded s v = keep.
Proof.
  revert n. induction l as [|v r IH]; intros n; cbn [cloud].
  - split; [intros []|]. intros (v & H & _). destruct (i - n)%nat; discriminate.
  - assert (T : In i (cloud s keep r (S n)) <-> exists w, nth_error r (i - S n) = Some w /\ (S n <= i)%nat /\ isPointIncluded s w = keep) by apply IH.
    assert (E : (exists w, nth_error (v :: r) (i - n) = Some w /\ (n <= i)%nat /\ isPointIncluded s w = keep) <->
                (i = n /\ isPointIncluded s v = keep) \/ exists w, nth_error r (i - S n) = Some w /\ (S n <= i)%nat /\ isPointIncluded s w = keep).
    { split.
      - intros (w & H & L & K). destruct (Nat.eq_dec i n) as [->|Ne].
        + rewrite Nat.sub_diag in H. injection H as ->. left; auto.
        + right. exists w. replace (i - n)%nat with (S (i - S n)) in H by lia. split; [exact H|]. split; [lia|exact K].
      - intros [[-> K]|(w & H & L & K)].
        + exists v. rewrite Nat.sub_diag. repeat split; auto.
        + exists w. replace (i - n)%nat with (S (i - S n)) by lia. repeat split; auto. lia. }
    rewrite E. destruct (Bool.eqb (isPointIncluded s v) keep) eqn:B.
    + apply Bool.eqb_prop in B. cbn [In]. rewrite T. intuition (subst; auto).
    + apply Bool.eqb_false_iff in B. rewrite T. intuition.
Qed.

(* ------------------------------------------------------------------ sorted differences *)
Lemma insert_perm x l : Permutation (x :: l) (insert_sorted x l).
Proof.
  induction l as [|y r IH]; cbn; [reflexivity|]. destruct (Nat.leb x y); [reflexivity|].
  etransitivity; [apply perm_swap|]. constructor. exact IH.
Qed.
Lemma sort_perm l : Permutation l (sort l).
Proof.
  induction l as [|x r IH]; cbn; [constructor|]. etransitivity; [constructor; exact IH|]. apply insert_perm.
Qed.
Lemma insert_SS x l : StronglySorted le l -> StronglySorted le (insert_sorted x l).
Proof.
  induction 1 as [|y r H IH F]; cbn; [repeat constructor|].
  destruct (Nat.leb x y) eqn:E.
  - apply Nat.leb_le in E. constructor; [constructor; assumption|]. constructor; [exact E|].
    eapply Forall_impl; [|exact F]. cbn; lia.
  - apply Nat.leb_gt in E. constructor; [exact IH|]. rewrite <- insert_perm. constructor; [lia|exact F].
Qed.
Lemma sort_SS l : StronglySorted le (sort l).
Proof. induction l as [|x r IH]; cbn; [constructor|]. apply insert_SS. exact IH. Qed.

Lemma diff_loop_ok : forall o i, StronglySorted le o -> StronglySorted le i -> NoDup o -> NoDup i -> incl i o ->
  exists l, diff_loop (length o - length i) o i = Sel l /\ Permutation (i ++ l) o.
Proof.
  induction o as [|x r IH]; intros i So Si No Ni Inc.
  - destruct i as [|y ir]; [|destruct (Inc y (or_introl eq_refl))]. exists []. split; [reflexivity|constructor].
  - apply StronglySorted_inv in So. destruct So as [Sr Fx]. apply NoDup_cons_iff in No. destruct No as [Nx Nr].
    assert (Keep : ~ In x i -> exists l, (match (length (x :: r) - length i)%nat with
                    | O => Overrun
                    | S n' => match diff_loop n' r i with Sel l => Sel (x :: l) | y => y end end) = Sel l /\ Permutation (i ++ l) (x :: r)).
    { intros Nin. assert (Inc' : incl i r).
      { intros y Hy. destruct (Inc y Hy) as [->|H]; [contradiction|exact H]. }
      assert (Len : (length i <= length r)%nat) by (apply NoDup_incl_length; assumption).
      destruct (IH i Sr Si Nr Ni Inc') as (l & E & P). exists (x :: l).
      replace (length (x :: r) - length i)%nat with (S (length r - length i)) by (cbn [length]; lia). rewrite E. split; [reflexivity|].
      etransitivity; [symmetry; apply Permutation_middle|]. constructor. exact P. }
    destruct i as [|y ir].
    + cbn [diff_loop]. apply Keep. intros [].
    + cbn [diff_loop]. destruct (Nat.eqb x y) eqn:E.
      * apply Nat.eqb_eq in E. subst y. apply StronglySorted_inv in Si. destruct Si as [Sir Fi].
        apply NoDup_cons_iff in Ni. destruct Ni as [Nxi Nir].
        destruct (IH ir Sr Sir Nr Nir) as (l & D & P).
        { intros y Hy. destruct (Inc y (or_intror Hy)) as [->|H]; [contradiction|exact H]. }
        exists l. cbn [length]. replace (S (length r) - S (length ir))%nat with (length r - length ir)%nat by lia.
        split; [exact D|]. cbn. constructor. exact P.
      * apply Nat.eqb_neq in E. apply Keep. intros [->|H]; [congruence|].
        apply StronglySorted_inv in Si. destruct Si as [_ Fi]. rewrite Forall_forall in Fi, Fx.
        destruct (Inc y (or_introl eq_refl)) as [->|Hy]; [congruence|].
        pose proof (Fi x H). pose proof (Fx y Hy). lia.
Qed.
Lemma difference_ok o i : NoDup o -> NoDup i -> incl i o ->
  exists l, difference o i = Sel l /\ split_of i l o.
Proof.
  intros No Ni Inc. unfold difference.
  assert (Len : (length i <= length o)%nat) by (apply NoDup_incl_length; assumption).
  replace (Nat.ltb (length o) (length i)) with false by (symmetry; apply Nat.ltb_ge; exact Len).
  pose proof (sort_perm o) as Po. pose proof (sort_perm i) as Pi.
  rewrite (Permutation_length Po), (Permutation_length Pi).
  destruct (diff_loop_ok (sort o) (sort i)) as (l & E & P); try apply sort_SS.
  - eapply Permutation_NoDup; [exact Po|exact No].
  - eapply Permutation_NoDup; [exact Pi|exact Ni].
  - intros x Hx. apply (Permutation_in _ Po). apply Inc. apply (Permutation_in _ (Permutation_sym Pi)). exact Hx.
  - exists l. split; [exact E|]. unfold split_of. rewrite Po, Pi. exact P.
Qed.
(** A wrong list is noticed: if an excluded list comes out right, the internals were originals. *)
Lemma difference_bad o i : NoDup o -> NoDup i -> ~ incl i o -> (forall l, difference o i <> Sel l) \/
  exists l, difference o i = Sel l /\ ~ split_of i l o.
Proof.
  intros _ _ N. destruct (difference o i) as [l| |] eqn:E; [right|left; discriminate|left; discriminate].
  exists l. split; [reflexivity|]. intros P. apply N. intros x Hx. apply (Permutation_in _ P). apply in_or_app. left; exact Hx.
Qed.

(* ------------------------------------------------------------------ tree of boxes *)
Lemma skd_candidates_sub s n : exists rest, Permutation (skd_candidates s n ++ rest) (leaves n).
Proof.
  induction n as [|b t cs l IHl r IHr]; cbn [skd_candidates leaves].
  - exists []. constructor.
  - destruct (intersectShapeAABBox s b t); [|exists (match l, r with NoChild, NoChild => cs | _, _ => leaves l ++ leaves r end); reflexivity].
    destruct IHl as [rl Pl]. destruct IHr as [rr Pr].
    assert (Go : Permutation ((skd_candidates s r ++ skd_candidates s l) ++ rr ++ rl) (leaves l ++ leaves r)).
    { rewrite <- Pl, <- Pr, <- !app_assoc.
      transitivity (skd_candidates s r ++ rr ++ skd_candidates s l ++ rl).
      - apply Permutation_app_head. rewrite !app_assoc. apply Permutation_app_tail. apply Permutation_app_comm.
      - rewrite (app_assoc (skd_candidates s r) rr). rewrite (app_assoc (skd_candidates s l) rl). rewrite Permutation_app_comm. rewrite <- app_assoc. reflexivity. }
    destruct l; destruct r; try (exists (rr ++ rl); exact Go). exists []. rewrite app_nil_r. reflexivity.
Qed.
Lemma NoDup_app_l {A} (l m : list A) : NoDup (l ++ m) -> NoDup l.
Proof. induction l as [|x r IH]; cbn; intros H; [constructor|]. apply NoDup_cons_iff in H. destruct H as [N H]. constructor; [|apply IH; exact H]. intros I; apply N; apply in_or_app; left; exact I. Qed.
Lemma include_incl s g : good_geo g -> incl (includeGeometry s (Some g)) (map fst (p_cells (ge_patch g))) /\ NoDup (includeGeometry s (Some g)).
Proof.
  intros ((_ & Nc & _) & (Pt & _) & _). unfold includeGeometry. destruct (ge_skd_ok g); [|split; [intros x []|constructor]].
  destruct (skd_candidates_sub s (ge_skd g)) as [rest P]. unfold searchBvTreeMatches. split.
  - intros x Hx. apply filter_In in Hx. destruct Hx as [Hx _]. apply (Permutation_in _ Pt). apply (Permutation_in _ P).
    apply in_or_app; left; exact Hx.
  - apply NoDup_filter. eapply NoDup_app_l. eapply Permutation_NoDup; [symmetry; exact P|].
    eapply Permutation_NoDup; [symmetry; exact Pt|exact Nc].
Qed.
Lemma geo_cells_split s g : good_geo g -> exists l, excludeGeometry s (Some g) = Sel l /\ split_of (includeGeometry s (Some g)) l (map fst (p_cells (ge_patch g))).
Proof.
  intros H. destruct (include_incl s g H) as [I N]. destruct H as ((_ & Nc & _) & _).
  unfold excludeGeometry. apply difference_ok; assumption.
Qed.

(** Boxes. *)
Definition qc1 (g : R -> R) : Prop := forall a b x, a <= x <= b -> g x <= Rmax (g a) (g b).
Definition qc (f : vec -> R) : Prop :=
  (forall y z, qc1 (fun x => f (V3 x y z))) /\ (forall x z, qc1 (fun y => f (V3 x y z))) /\ (forall x y, qc1 (fun z => f (V3 x y z))).
Lemma qc1_quad al be ga : 0 <= al -> qc1 (fun x => al * x * x + be * x + ga).
Proof.
  intros Ha a b x Hx. destruct (Rle_dec (al * x * x + be * x + ga) (Rmax (al * a * a + be * a + ga) (al * b * b + be * b + ga))) as [L|L]; [exact L|].
  exfalso. apply Rnot_le_lt in L.
  assert (L1 : al * a * a + be * a + ga < al * x * x + be * x + ga) by (eapply Rle_lt_trans; [apply Rmax_l|exact L]).
  assert (L2 : al * b * b + be * b + ga < al * x * x + be * x + ga) by (eapply Rle_lt_trans; [apply Rmax_r|exact L]).
  destruct (Req_dec x a) as [->|Na]; [lra|]. destruct (Req_dec x b) as [->|Nb]; [lra|].
  assert (A : 0 < (x - a) * (al * (x + a) + be)) by lra.
  assert (B : 0 < (x - b) * (al * (x + b) + be)) by lra.
  assert (A' : 0 < al * (x + a) + be) by (apply Rmult_lt_reg_l with (x - a); lra).
  assert (B' : al * (x + b) + be < 0) by nra.
  nra.
Qed.
Lemma pick1 (g : R -> R) a b x : qc1 g -> a <= x <= b -> g x <= g a \/ g x <= g b.
Proof. intros Q H. pose proof (Q a b x H) as M. unfold Rmax in M. destruct (Rle_dec (g a) (g b)); auto. Qed.
Lemma qc_corner f p b t : qc f -> in_aabb p b t -> exists c, In c (corners b t) /\ f p <= f c.
Proof.
  intros (Q0 & Q1 & Q2) H.
  pose proof (H 0%nat ltac:(lia)) as H0. pose proof (H 1%nat ltac:(lia)) as H1. pose proof (H 2%nat ltac:(lia)) as H2.
  cbn [vent] in *. destruct p as [x y z]; cbn [vx vy vz] in *.
  destruct (pick1 _ _ _ x (Q0 y z) H0) as [A|A];
    (destruct (pick1 _ _ _ y (Q1 (vx b) z) H1) as [B|B]; destruct (pick1 _ _ _ y (Q1 (vx t) z) H1) as [B'|B'];
     destruct (pick1 _ _ _ z (Q2 (vx b) (vy b)) H2) as [C|C]; destruct (pick1 _ _ _ z (Q2 (vx b) (vy t)) H2) as [C'|C'];
     destruct (pick1 _ _ _ z (Q2 (vx t) (vy b)) H2) as [D|D]; destruct (pick1 _ _ _ z (Q2 (vx t) (vy t)) H2) as [D'|D'];
     cbn beta in *; eexists; (split; [|first [eapply Rle_trans; [exact A|eapply Rle_trans; [exact B|exact C]]
                                       |eapply Rle_trans; [exact A|eapply Rle_trans; [exact B|exact C']]
                                       |eapply Rle_trans; [exact A|eapply Rle_trans; [exact B'|exact D]]
                                       |eapply Rle_trans; [exact A|eapply Rle_trans; [exact B'|exact D']]]];
        cbn; auto 20)).
Qed.
Lemma lmin_le start l x : In x (start :: l) -> lmin start l <= x.
Proof.
  unfold lmin. revert start x. induction l as [|y r IH]; intros start x H; cbn [fold_left].
  - destruct H as [->|[]]. lra.
  - destruct H as [->|[->|H]].
    + eapply Rle_trans; [apply IH; left; reflexivity|apply Rmin_l].
    + eapply Rle_trans; [apply IH; left; reflexivity|apply Rmin_r].
    + apply IH. right; exact H.
Qed.
Lemma lmax_ge start l x : In x (start :: l) -> x <= lmax start l.
Proof.
  unfold lmax. revert start x. induction l as [|y r IH]; intros start x H; cbn [fold_left].
  - destruct H as [->|[]]. lra.
  - destruct H as [->|[->|H]].
    + eapply Rle_trans; [apply Rmax_l|apply IH; left; reflexivity].
    + eapply Rle_trans; [apply Rmax_r|apply IH; left; reflexivity].
    + apply IH. right; exact H.
Qed.
Lemma lmin_in start l : In (lmin start l) (start :: l).
Proof.
  unfold lmin. revert start. induction l as [|y r IH]; intros start; cbn [fold_left]; [left; reflexivity|].
  destruct (IH (Rmin start y)) as [E|E]; [|right; right; exact E]. rewrite <- E. unfold Rmin. destruct (Rle_dec start y); [left|right; left]; reflexivity.
Qed.
Lemma lmax_in start l : In (lmax start l) (start :: l).
Proof.
  unfold lmax. revert start. induction l as [|y r IH]; intros start; cbn [fold_left]; [left; reflexivity|].
  destruct (IH (Rmax start y)) as [E|E]; [|right; right; exact E]. rewrite <- E. unfold Rmax. destruct (Rle_dec start y); [right; left|left]; reflexivity.
Qed.
Lemma affine_qc (f : vec -> R) (a b c d : R) : (forall v, f v = a * vx v + b * vy v + c * vz v + d) -> qc f /\ qc (fun v => - f v).
Proof.
  intros E.
  split; repeat split; intros u w x y z H; rewrite ?E; cbn [vx vy vz];
    match goal with |- ?l <= Rmax ?m ?n => unfold Rmax; destruct (Rle_dec m n) as [L|L]; try apply Rnot_le_lt in L end.
  all: try (destruct (Rle_dec 0 a); nra). all: try (destruct (Rle_dec 0 b); nra). all: destruct (Rle_dec 0 c); nra.
Qed.

(** The maximum over the corners of a sum of squares of affine functions. *)
Lemma quad_qc (f : vec -> R) a0 b0 c0 d0 a1 b1 c1 d1 a2 b2 c2 d2 :
  (forall v, f v = (a0 * vx v + b0 * vy v + c0 * vz v + d0) * (a0 * vx v + b0 * vy v + c0 * vz v + d0) +
                   (a1 * vx v + b1 * vy v + c1 * vz v + d1) * (a1 * vx v + b1 * vy v + c1 * vz v + d1) +
                   (a2 * vx v + b2 * vy v + c2 * vz v + d2) * (a2 * vx v + b2 * vy v + c2 * vz v + d2)) -> qc f.
Proof.
  intros E. repeat split.
  - intros y z u w x H. rewrite !E; cbn [vx vy vz].
    assert (N : 0 <= a0 * a0 + a1 * a1 + a2 * a2) by nra.
    set (e0 := b0 * y + c0 * z + d0). set (e1 := b1 * y + c1 * z + d1). set (e2 := b2 * y + c2 * z + d2).
    pose proof (qc1_quad _ (2 * (a0 * e0 + a1 * e1 + a2 * e2)) (e0 * e0 + e1 * e1 + e2 * e2) N u w x H) as Q. cbn beta in Q.
    unfold e0, e1, e2 in Q. eapply Rle_trans; [|eapply Rle_trans; [exact Q|]]; [right; ring|].
    right. f_equal; ring.
  - intros y z u w x H. rewrite !E; cbn [vx vy vz].
    assert (N : 0 <= b0 * b0 + b1 * b1 + b2 * b2) by nra.
    set (e0 := a0 * y + c0 * z + d0). set (e1 := a1 * y + c1 * z + d1). set (e2 := a2 * y + c2 * z + d2).
    pose proof (qc1_quad _ (2 * (b0 * e0 + b1 * e1 + b2 * e2)) (e0 * e0 + e1 * e1 + e2 * e2) N u w x H) as Q. cbn beta in Q.
    unfold e0, e1, e2 in Q. eapply Rle_trans; [|eapply Rle_trans; [exact Q|]]; [right; ring|].
    right. f_equal; ring.
  - intros y z u w x H. rewrite !E; cbn [vx vy vz].
    assert (N : 0 <= c0 * c0 + c1 * c1 + c2 * c2) by nra.
    set (e0 := a0 * y + b0 * z + d0). set (e1 := a1 * y + b1 * z + d1). set (e2 := a2 * y + b2 * z + d2).
    pose proof (qc1_quad _ (2 * (c0 * e0 + c1 * e1 + c2 * e2)) (e0 * e0 + e1 * e1 + e2 * e2) N u w x H) as Q. cbn beta in Q.
    unfold e0, e1, e2 in Q. eapply Rle_trans; [|eapply Rle_trans; [exact Q|]]; [right; ring|].
    right. f_equal; ring.
Qed.

(** The coordinate of a point along an axis of the frame is affine. *)
Definition along (s : shape) (a : vec) (v : vec) : R := dot (vsub v (s_origin s)) a.
Lemma along_affine s a v : along s a v = vx a * vx v + vy a * vy v + vz a * vz v + - dot (s_origin s) a.
Proof. unfold along, dot, vsub; cbn; ring. Qed.
Lemma along_corners s a p b t : in_aabb p b t ->
  (exists c, In c (corners b t) /\ along s a p <= along s a c) /\ (exists c, In c (corners b t) /\ along s a c <= along s a p).
Proof.
  intros H. destruct (affine_qc (along s a) _ _ _ _ (along_affine s a)) as [Q1 Q2]. split.
  - apply qc_corner; assumption.
  - destruct (qc_corner _ p b t Q2 H) as (c & I & L). exists c. split; [exact I|]. cbn beta in L. lra.
Qed.

Lemma hd_tl_map (f : vec -> R) b t : hd 0 (map f (corners b t)) :: tl (map f (corners b t)) = map f (corners b t).
Proof. reflexivity. Qed.
Lemma corners_min (f : vec -> R) b t c : In c (corners b t) -> lmin (hd 0 (map f (corners b t))) (tl (map f (corners b t))) <= f c.
Proof. intros H. apply lmin_le. rewrite hd_tl_map. apply in_map. exact H. Qed.
Lemma corners_max (f : vec -> R) b t c : In c (corners b t) -> f c <= lmax (hd 0 (map f (corners b t))) (tl (map f (corners b t))).
Proof. intros H. apply lmax_ge. rewrite hd_tl_map. apply in_map. exact H. Qed.

Lemma overlap_ok s p b t a half : in_aabb p b t -> - half <= along s a p <= half ->
  overlap_axis s (map (fun v => vadd v (vscale (-1) (s_origin s))) (corners b t)) a half = true.
Proof.
  intros B H. destruct (along_corners s a p b t B) as [(c & Ic & Lc) (d & Id & Ld)].
  unfold overlap_axis. rewrite map_map.
  set (f := fun x => dot (vadd x (vscale (-1) (s_origin s))) a).
  assert (F : forall x, f x = along s a x) by (intros x; unfold f, along, dot, vsub, vadd, vscale; cbn; ring).
  pose proof (corners_min f b t d Id) as M. pose proof (corners_max f b t c Ic) as X. rewrite F in M, X.
  destruct (Rlt_dec half _); [lra|]. destruct (Rlt_dec _ (- half)); [lra|reflexivity].
Qed.

Lemma quot_half x k : 0 < k -> 0 <= x / k + / 2 <= 1 -> - (0.5 * k) <= x <= 0.5 * k.
Proof.
  intros K [A B]. assert (E : x = x / k * k) by (field; lra). set (q := x / k) in *. rewrite E. split; nra.
Qed.

Lemma cubeAABB_ok s p b t : good_sizes s -> solid s -> s_kind s = CUBE -> unit_cube (basic s p) -> in_aabb p b t -> cubeAABB s b t = true.
Proof.
  intros G S K U B. destruct (solid_scal s G S) as ((SX & SY & SZ) & _).
  assert (PS : 0 <= vx (s_scaling s) /\ 0 <= vy (s_scaling s) /\ 0 <= vz (s_scaling s)).
  { unfold good_sizes in G. rewrite K in G. tauto. }
  pose proof (U 0%nat ltac:(lia)) as U0. pose proof (U 1%nat ltac:(lia)) as U1. pose proof (U 2%nat ltac:(lia)) as U2.
  unfold basic, localToBasic, toLocalCoord, getLocalOrigin in U0, U1, U2. rewrite K in U0, U1, U2.
  cbn [vent vsub cdiv dots vx vy vz] in U0, U1, U2.
  fold (along s (row0 (s_sdr s)) p) in U0. fold (along s (row1 (s_sdr s)) p) in U1. fold (along s (row2 (s_sdr s)) p) in U2.
  unfold cubeAABB. rewrite !andb_true_iff. repeat split; apply overlap_ok with (p := p); try exact B; apply quot_half; lra.
Qed.

Definition radius2 (s : shape) (v : vec) : R :=
  along s (row0 (s_sdr s)) v * along s (row0 (s_sdr s)) v + along s (row1 (s_sdr s)) v * along s (row1 (s_sdr s)) v.
Definition radius3 (s : shape) (v : vec) : R := radius2 s v + along s (row2 (s_sdr s)) v * along s (row2 (s_sdr s)) v.
Lemma radius2_corner s p b t : in_aabb p b t -> exists c, In c (corners b t) /\ radius2 s p <= radius2 s c.
Proof.
  intros H. apply qc_corner; [|exact H].
  refine (quad_qc _ (vx (row0 (s_sdr s))) (vy (row0 (s_sdr s))) (vz (row0 (s_sdr s))) (- dot (s_origin s) (row0 (s_sdr s)))
                    (vx (row1 (s_sdr s))) (vy (row1 (s_sdr s))) (vz (row1 (s_sdr s))) (- dot (s_origin s) (row1 (s_sdr s))) 0 0 0 0 _).
  intros v. unfold radius2. rewrite !along_affine. ring.
Qed.
Lemma radius3_corner s p b t : in_aabb p b t -> exists c, In c (corners b t) /\ radius3 s p <= radius3 s c.
Proof.
  intros H. apply qc_corner; [|exact H].
  refine (quad_qc _ (vx (row0 (s_sdr s))) (vy (row0 (s_sdr s))) (vz (row0 (s_sdr s))) (- dot (s_origin s) (row0 (s_sdr s)))
                    (vx (row1 (s_sdr s))) (vy (row1 (s_sdr s))) (vz (row1 (s_sdr s))) (- dot (s_origin s) (row1 (s_sdr s)))
                    (vx (row2 (s_sdr s))) (vy (row2 (s_sdr s))) (vz (row2 (s_sdr s))) (- dot (s_origin s) (row2 (s_sdr s))) _).
  intros v. unfold radius3, radius2. rewrite !along_affine. ring.
Qed.

(** The basic coordinates of any point, cylinder and sphere. *)
Lemma cyl_basic s v : good_sizes s -> solid s -> s_kind s = CYLINDER -> vy (s_span s) = 2 * PI ->
  vx (basic s v) = (sqrt (radius2 s v) - vx (s_inf s)) / vx (s_scaling s) /\
  0 <= vy (basic s v) <= 1 /\
  vz (basic s v) = along s (row2 (s_sdr s)) v / vz (s_scaling s) + / 2.
Proof.
  intros G S K W. destruct (solid_scal s G S) as ((SX & SY & SZ) & _). pose proof PI_RGT_0.
  unfold good_sizes in G. rewrite K in G. destruct G as [(G1 & G2 & G3 & G4 & G5 & G6) (G7 & G8 & G9)].
  unfold basic, localToBasic, toLocalCoord, getLocalOrigin. rewrite K. cbn [dots vx vy vz].
  fold (along s (row0 (s_sdr s)) v). fold (along s (row1 (s_sdr s)) v). fold (along s (row2 (s_sdr s)) v).
  assert (Core : forall u a, u = sqrt (radius2 s v) -> 0 <= a < 2 * PI ->
     let c := cdiv (V3 (u - vx (s_inf s)) (from_mark a (vy (s_inf s))) (along s (row2 (s_sdr s)) v)) (s_scaling s) in
     vx (vadd c (vscale (-1) (V3 0 0 (- / 2)))) = (sqrt (radius2 s v) - vx (s_inf s)) / vx (s_scaling s) /\
     0 <= vy (vadd c (vscale (-1) (V3 0 0 (- / 2)))) / vy (s_span s) <= 1 /\
     vz (vadd c (vscale (-1) (V3 0 0 (- / 2)))) = along s (row2 (s_sdr s)) v / vz (s_scaling s) + / 2).
  { intros u a -> Ha c. pose proof (turn_frac a _ Ha G6) as T. unfold c. cbn [vadd vscale cdiv vx vy vz]. rewrite W, G3.
    split; [ring|]. split; [|ring].
    replace ((from_mark a (vy (s_inf s)) / 1 + -1 * 0) / (2 * PI)) with (from_mark a (vy (s_inf s)) / (2 * PI)) by (field; lra). exact T. }
  destruct (Req_EM_T _ 0) as [X|X]; [destruct (Req_EM_T _ 0) as [Y|Y]|]; apply Core; try reflexivity; try (apply angle_ok; tauto); try lra.
  unfold radius2. rewrite X, Y. replace (0 * 0 + 0 * 0) with 0 by ring. symmetry; apply sqrt_0.
Qed.
Lemma sph_basic s v : good_frame s -> good_sizes s -> solid s -> s_kind s = SPHERE -> vy (s_span s) = 2 * PI -> vz (s_inf s) = 0 -> vz (s_span s) = PI ->
  vx (basic s v) = (sqrt (radius3 s v) - vx (s_inf s)) / vx (s_scaling s) /\
  0 <= vy (basic s v) <= 1 /\ 0 <= vz (basic s v) <= 1.
Proof.
  intros [D I] G S K W Z0 Z1. destruct (solid_scal s G S) as ((SX & SY & SZ) & _). pose proof PI_RGT_0.
  unfold good_sizes in G. rewrite K in G. destruct G as [(G1 & G2 & G3 & G4 & G5 & G6 & G7 & G8) (G9 & G10 & G11)].
  unfold basic, localToBasic, toLocalCoord, getLocalOrigin. rewrite K.
  assert (Nr : norm (dots (vsub v (s_origin s)) (s_sdr s)) = sqrt (radius3 s v)).
  { rewrite norm_sqrt. reflexivity. }
  rewrite Nr. set (r := sqrt (radius3 s v)) in *.
  assert (Core : forall a z, 0 <= a / (2 * PI) <= 1 -> 0 <= z / PI <= 1 ->
     let c := cdiv (V3 (r - vx (s_inf s)) a z) (s_scaling s) in
     vx (vadd c (vscale (-1) (V3 0 0 0))) = (r - vx (s_inf s)) / vx (s_scaling s) /\
     0 <= vy (vadd c (vscale (-1) (V3 0 0 0))) / vy (s_span s) <= 1 /\
     0 <= vz (vadd c (vscale (-1) (V3 0 0 0))) / vz (s_span s) <= 1).
  { intros a z Ha Hz c. unfold c. cbn [vadd vscale cdiv vx vy vz]. rewrite W, Z1, G2, G3. split; [ring|]. split.
    - replace ((a / 1 + -1 * 0) / (2 * PI)) with (a / (2 * PI)) by (field; lra). exact Ha.
    - replace ((z / 1 + -1 * 0) / PI) with (z / PI) by (field; lra). exact Hz. }
  destruct (Rlt_dec 0 r) as [R|R].
  - apply Core.
    + apply turn_frac; [|exact G6]. destruct (Req_EM_T _ 0) as [X|X]; [destruct (Req_EM_T _ 0) as [Y|Y]|]; try (apply angle_ok; tauto); lra.
    + rewrite Z0. pose proof (acos_bound (vz (dots (vsub v (s_origin s)) (s_sdr s)) / r)) as A.
      assert (0 < / PI) by (apply Rinv_0_lt_compat; lra). assert (PI * / PI = 1) by (apply Rinv_r; lra). unfold Rdiv at 1 3. split; nra.
  - assert (Z : dots (vsub v (s_origin s)) (s_sdr s) = vzero).
    { apply norm_zero_iff. rewrite Nr. pose proof (sqrt_pos (radius3 s v)). fold r in H0. lra. }
    assert (V : vsub v (s_origin s) = vzero).
    { rewrite <- (dots_inverse' (vsub v (s_origin s)) (s_sdr s) D), Z. apply vec_ext; unfold dots, dot; cbn; ring. }
    rewrite V. cbn [vzero vx vy vz]. apply Core; unfold Rdiv; lra.
Qed.

Lemma pts_hi s (f : vec -> R) b t c : In c (corners b t) ->
  f (basic s c) <= lmax (- big) (map f (map (fun v => localToBasic s (toLocalCoord s v)) (corners b t))).
Proof. intros H. apply lmax_ge. right. apply in_map. exact (in_map (basic s) _ _ H). Qed.
Lemma pts_lo s (f : vec -> R) b t c : In c (corners b t) ->
  lmin big (map f (map (fun v => localToBasic s (toLocalCoord s v)) (corners b t))) <= f (basic s c).
Proof. intros H. apply lmin_le. right. apply in_map. exact (in_map (basic s) _ _ H). Qed.

Lemma roundAABB_ok s p b t : good_frame s -> good_sizes s -> solid s -> s_kind s = CYLINDER \/ s_kind s = SPHERE -> tree_safe s ->
  unit_cube (basic s p) -> in_aabb p b t -> roundAABB s b t = true.
Proof.
  intros F G S K T U B. destruct (solid_scal s G S) as ((SX & SY & SZ) & _).
  assert (PS : 0 < vx (s_scaling s) /\ (s_kind s = CYLINDER -> 0 < vz (s_scaling s))).
  { unfold good_sizes in G. destruct K as [K|K]; rewrite K in *; split; try discriminate; intros; lra. }
  destruct PS as [PX PZ]. assert (IX : 0 < / vx (s_scaling s)) by (apply Rinv_0_lt_compat; exact PX).
  pose proof (U 0%nat ltac:(lia)) as U0. pose proof (U 1%nat ltac:(lia)) as U1. pose proof (U 2%nat ltac:(lia)) as U2. cbn [vent] in U0, U1, U2.
  assert (Some1 : forall v, 0 <= vy (basic s v) <= 1).
  { intros v. destruct K as [K|K]; unfold tree_safe in T; rewrite K in T.
    - apply cyl_basic; assumption.
    - destruct T as (T1 & T2 & T3). apply sph_basic; assumption. }
  assert (X : exists c, In c (corners b t) /\ 0 <= vx (basic s c)).
  { destruct K as [K|K]; unfold tree_safe in T; rewrite K in T.
    - destruct (radius2_corner s p b t B) as (c & I & L). exists c. split; [exact I|].
      destruct (cyl_basic s c G S K T) as (-> & _). destruct (cyl_basic s p G S K T) as (E & _). rewrite E in U0.
      apply sqrt_le_1_alt in L. unfold Rdiv in *. nra.
    - destruct T as (T1 & T2 & T3). destruct (radius3_corner s p b t B) as (c & I & L). exists c. split; [exact I|].
      destruct (sph_basic s c F G S K T1 T2 T3) as (-> & _). destruct (sph_basic s p F G S K T1 T2 T3) as (E & _). rewrite E in U0.
      apply sqrt_le_1_alt in L. unfold Rdiv in *. nra. }
  assert (Z : (exists c, In c (corners b t) /\ 0 <= vz (basic s c)) /\ (exists c, In c (corners b t) /\ vz (basic s c) <= 1)).
  { destruct K as [K|K]; unfold tree_safe in T; rewrite K in T.
    - specialize (PZ K). assert (IZ : 0 < / vz (s_scaling s)) by (apply Rinv_0_lt_compat; exact PZ).
      destruct (along_corners s (row2 (s_sdr s)) p b t B) as [(c & Ic & Lc) (d & Id & Ld)].
      destruct (cyl_basic s p G S K T) as (_ & _ & E). rewrite E in U2.
      split; [exists c|exists d]; (split; [assumption|]).
      + destruct (cyl_basic s c G S K T) as (_ & _ & ->). unfold Rdiv in *. nra.
      + destruct (cyl_basic s d G S K T) as (_ & _ & ->). unfold Rdiv in *. nra.
    - destruct T as (T1 & T2 & T3).
      assert (I : In (V3 (vx b) (vy b) (vz b)) (corners b t)) by (left; reflexivity).
      destruct (sph_basic s (V3 (vx b) (vy b) (vz b)) F G S K T1 T2 T3) as (_ & _ & A).
      split; eexists; (split; [exact I|]); lra. }
  destruct X as (c & Ic & Lc). destruct Z as [(d & Id & Ld) (e & Ie & Le)].
  unfold roundAABB.
  pose proof (pts_hi s vx b t c Ic) as H1. destruct (Rlt_dec _ 0); [lra|].
  pose proof (pts_lo s vy b t c Ic) as H2. pose proof (Some1 c). destruct (Rlt_dec 1 _); [lra|].
  pose proof (pts_hi s vy b t c Ic) as H3. destruct (Rlt_dec _ 0); [lra|].
  pose proof (pts_lo s vz b t e Ie) as H4. destruct (Rlt_dec 1 _); [lra|].
  pose proof (pts_hi s vz b t d Id) as H5. destruct (Rlt_dec _ 0); [lra|]. reflexivity.
Qed.

Lemma wedge_basic s v : s_kind s = WEDGE ->
  basic s v = V3 (along s (row0 (s_sdr s)) v / vx (s_scaling s))
    (let x := along s (row0 (s_sdr s)) v / vx (s_scaling s) in let y := along s (row1 (s_sdr s)) v / vy (s_scaling s) in
     if Rlt_dec 0 (Rabs (1 - x)) then y / (1 - x) else if Rlt_dec 0 (Rabs y) then dbl_max else 0)
    (along s (row2 (s_sdr s)) v / vz (s_scaling s) + / 2).
Proof.
  intros K. unfold basic, localToBasic, toLocalCoord, getLocalOrigin. rewrite K. cbn [dots cdiv vx vy vz].
  fold (along s (row0 (s_sdr s)) v). fold (along s (row1 (s_sdr s)) v). fold (along s (row2 (s_sdr s)) v).
  apply vec_ext; cbn [vsub vx vy vz]; cbv zeta; [ring| |ring].
  destruct (Rlt_dec 0 (Rabs (1 - _))); [ring|]. destruct (Rlt_dec 0 (Rabs _)); ring.
Qed.
Lemma abs_pos_iff x : 0 < Rabs x <-> x <> 0.
Proof. split; [intros H E; subst; rewrite Rabs_R0 in H; lra|apply Rabs_pos_lt]. Qed.
Lemma wedge_unit s v : good_sizes s -> solid s -> s_kind s = WEDGE ->
  let x := along s (row0 (s_sdr s)) v / vx (s_scaling s) in let y := along s (row1 (s_sdr s)) v / vy (s_scaling s) in
  unit_cube (basic s v) <-> (0 <= x /\ 0 <= y /\ x + y <= 1 /\ 0 <= along s (row2 (s_sdr s)) v / vz (s_scaling s) + / 2 <= 1).
Proof.
  intros G S K x y. unfold unit_cube. rewrite (wedge_basic s v K). fold x y. cbv zeta. pose proof dbl_max_big as DB. split.
  - intros U. pose proof (U 0%nat ltac:(lia)) as U0. pose proof (U 1%nat ltac:(lia)) as U1. pose proof (U 2%nat ltac:(lia)) as U2.
    cbn [vent vx vy vz] in U0, U1, U2. destruct (Rlt_dec 0 (Rabs (1 - x))) as [A|A].
    + apply abs_pos_iff in A. assert (E : y = y / (1 - x) * (1 - x)) by (field; exact A). set (q := y / (1 - x)) in *.
      repeat split; try lra; rewrite E; nra.
    + assert (1 - x = 0) by (destruct (Req_dec (1 - x) 0) as [Z|Z]; [exact Z|apply abs_pos_iff in Z; contradiction]).
      destruct (Rlt_dec 0 (Rabs y)) as [C|C]; [lra|].
      assert (y = 0) by (destruct (Req_dec y 0) as [Z|Z]; [exact Z|apply abs_pos_iff in Z; contradiction]). repeat split; lra.
  - intros (X & Y & XY & Z) i Hi. three Hi; cbn [vent vx vy vz]; [lra| |lra].
    destruct (Rlt_dec 0 (Rabs (1 - x))) as [A|A].
    + apply abs_pos_iff in A. assert (0 < 1 - x) by lra. assert (0 < / (1 - x)) by (apply Rinv_0_lt_compat; lra).
      assert ((1 - x) * / (1 - x) = 1) by (apply Rinv_r; lra). unfold Rdiv; split; nra.
    + assert (1 - x = 0) by (destruct (Req_dec (1 - x) 0) as [Q|Q]; [exact Q|apply abs_pos_iff in Q; contradiction]).
      destruct (Rlt_dec 0 (Rabs y)) as [C|C]; [apply abs_pos_iff in C; lra|lra].
Qed.

Lemma nearest_between P lo hi : 0 <= P -> lo <= P <= hi -> 0 <= Rmin hi (Rmax 0 lo) <= P.
Proof. intros A B. unfold Rmin, Rmax. destruct (Rle_dec 0 lo); destruct (Rle_dec hi _); lra. Qed.

Lemma wedgeAABB_ok s p b t : good_sizes s -> solid s -> s_kind s = WEDGE -> tree_safe s ->
  unit_cube (basic s p) -> in_aabb p b t -> wedgeAABB s b t = true.
Proof.
  intros G S K T U B. destruct (solid_scal s G S) as ((SX & SY & SZ) & _).
  assert (PS : 0 < vx (s_scaling s) /\ 0 < vy (s_scaling s) /\ 0 < vz (s_scaling s)).
  { unfold good_sizes in G. rewrite K in G. lra. }
  destruct PS as (PX & PY & PZ).
  apply (wedge_unit s p G S K) in U. cbv zeta in U.
  unfold tree_safe in T. rewrite K in T.
  assert (A0 : forall v, along s (V3 1 0 0) v = vx v - vx (s_origin s)) by (intros; unfold along, dot, vsub; cbn; ring).
  assert (A1 : forall v, along s (V3 0 1 0) v = vy v - vy (s_origin s)) by (intros; unfold along, dot, vsub; cbn; ring).
  assert (A2 : forall v, along s (V3 0 0 1) v = vz v - vz (s_origin s)) by (intros; unfold along, dot, vsub; cbn; ring).
  pose proof (wedge_unit s) as WU. rewrite T in U, WU. cbn [row0 row1 row2] in U, WU.
  rewrite A0, A1, A2 in U. destruct U as (X & Y & XY & Z).
  pose proof (B 0%nat ltac:(lia)) as B0. pose proof (B 1%nat ltac:(lia)) as B1. pose proof (B 2%nat ltac:(lia)) as B2. cbn [vent] in B0, B1, B2.
  apply quot_half in Z; [|exact PZ].
  assert (IX : 0 < / vx (s_scaling s)) by (apply Rinv_0_lt_compat; exact PX).
  assert (IY : 0 < / vy (s_scaling s)) by (apply Rinv_0_lt_compat; exact PY).
  assert (X' : 0 <= vx p - vx (s_origin s)) by (unfold Rdiv in X; nra).
  assert (Y' : 0 <= vy p - vy (s_origin s)) by (unfold Rdiv in Y; nra).
  unfold wedgeAABB. rewrite T. cbn [row2].
  set (ts := map (fun v => dot v (V3 0 0 1)) (map (fun v => vadd v (vscale (-1) (s_origin s))) (corners b t))).
  assert (T1 : In (vz b - vz (s_origin s)) (hd 0 ts :: tl ts)).
  { left. unfold ts, dot; cbn. ring. }
  assert (T2 : In (vz t - vz (s_origin s)) (hd 0 ts :: tl ts)).
  { do 4 right. left. unfold ts, dot; cbn. ring. }
  pose proof (lmin_le _ _ _ T1) as M1. pose proof (lmax_ge _ _ _ T2) as M2.
  destruct (Rlt_dec _ (lmin _ _)); [lra|]. destruct (Rlt_dec (lmax _ _) _); [lra|].
  set (proj := map (fun v => vadd v (vscale (-1 * dot v (V3 0 0 1)) (V3 0 0 1))) (map (fun v => vadd v (vscale (-1) (s_origin s))) (corners b t))).
  assert (P0 : forall f : vec -> R, f (hd vzero proj) :: map f (tl proj) = map f proj) by reflexivity.
  assert (Lx : lmin (vx (hd vzero proj)) (map vx (tl proj)) <= vx b - vx (s_origin s)).
  { apply lmin_le. rewrite P0. left. unfold proj, dot; cbn. ring. }
  assert (Ly : lmin (vy (hd vzero proj)) (map vy (tl proj)) <= vy b - vy (s_origin s)).
  { apply lmin_le. rewrite P0. left. unfold proj, dot; cbn. ring. }
  assert (Hx : vx t - vx (s_origin s) <= lmax (vx (hd vzero proj)) (map vx (tl proj))).
  { apply lmax_ge. rewrite P0. do 2 right. left. unfold proj, dot; cbn. ring. }
  assert (Hy : vy t - vy (s_origin s) <= lmax (vy (hd vzero proj)) (map vy (tl proj))).
  { apply lmax_ge. rewrite P0. do 2 right. left. unfold proj, dot; cbn. ring. }
  assert (Z0 : forall z, In z (vz (hd vzero proj) :: map vz (tl proj)) -> z = 0).
  { intros z Hz. rewrite P0 in Hz. unfold proj in Hz. rewrite !map_map in Hz. apply in_map_iff in Hz. destruct Hz as (v & <- & _).
    unfold dot; cbn. ring. }
  pose proof (Z0 _ (lmin_in _ _)) as Lz. pose proof (Z0 _ (lmax_in _ _)) as Hz.
  apply unit_included. apply WU; [exact G|exact S|exact K|]. rewrite A0, A1, A2. cbn [nearest vadd vx vy vz]. rewrite Lz, Hz. cbn [vzero vx vy vz].
  pose proof (nearest_between (vx p - vx (s_origin s)) (lmin (vx (hd vzero proj)) (map vx (tl proj))) (lmax (vx (hd vzero proj)) (map vx (tl proj))) X' ltac:(lra)) as NX.
  pose proof (nearest_between (vy p - vy (s_origin s)) (lmin (vy (hd vzero proj)) (map vy (tl proj))) (lmax (vy (hd vzero proj)) (map vy (tl proj))) Y' ltac:(lra)) as NY.
  cbn [vzero vx vy vz] in NX, NY.
  set (nx := Rmin _ (Rmax 0 _)) in NX |- *. set (ny := Rmin _ (Rmax 0 _)) in NY |- *.
  replace (nx + vx (s_origin s) - vx (s_origin s)) with nx by ring. replace (ny + vy (s_origin s) - vy (s_origin s)) with ny by ring.
  unfold Rdiv in *. repeat split; try nra.
  - replace (Rmin 0 (Rmax 0 0)) with 0 by (unfold Rmin, Rmax; destruct (Rle_dec 0 0); destruct (Rle_dec 0 _); lra). lra.
  - replace (Rmin 0 (Rmax 0 0)) with 0 by (unfold Rmin, Rmax; destruct (Rle_dec 0 0); destruct (Rle_dec 0 _); lra). lra.
Qed.

Lemma intersect_ok s p b t : good_frame s -> good_sizes s -> solid s -> tree_safe s -> unit_cube (basic s p) -> in_aabb p b t ->
  intersectShapeAABBox s b t = true.
Proof.
  intros. unfold intersectShapeAABBox. destruct (s_kind s) eqn:K.
  - apply cubeAABB_ok with (p := p); assumption.
  - apply roundAABB_ok with (p := p); auto.
  - apply roundAABB_ok with (p := p); auto.
  - apply wedgeAABB_ok with (p := p); auto.
Qed.
Lemma safe_turn s : tree_safe s -> whole_turn s.
Proof. unfold tree_safe, whole_turn. destruct (s_kind s); tauto. Qed.

Lemma coords_at l i p : NoDup (map fst l) -> In (i, p) l -> coords l i = p.
Proof.
  induction l as [|[j v] r IH]; [intros _ []|]. cbn [map fst coords]. intros N H. apply NoDup_cons_iff in N. destruct N as [Nj N].
  destruct H as [[= -> ->]|H]; [rewrite Nat.eqb_refl; reflexivity|].
  destruct (Nat.eqb i j) eqn:E; [|apply IH; assumption]. apply Nat.eqb_eq in E. subst. exfalso. apply Nj. exact (in_map fst _ _ H).
Qed.
Lemma vertices_at l c vs : NoDup (map fst l) -> In (c, vs) l -> vertices_of l c = vs.
Proof.
  induction l as [|[j v] r IH]; [intros _ []|]. cbn [map fst vertices_of]. intros N H. apply NoDup_cons_iff in N. destruct N as [Nj N].
  destruct H as [[= -> ->]|H]; [rewrite Nat.eqb_refl; reflexivity|].
  destruct (Nat.eqb c j) eqn:E; [|apply IH; assumption]. apply Nat.eqb_eq in E. subst. exfalso. apply Nj. exact (in_map fst _ _ H).
Qed.
Lemma fold_and {A} (f : A -> bool) l b : fold_left (fun check v => check && f v) l b = true <-> b = true /\ forall v, In v l -> f v = true.
Proof.
  revert b. induction l as [|x r IH]; intros b; cbn [fold_left].
  - split; [intros H; split; [exact H|intros v []]|tauto].
  - rewrite IH, andb_true_iff. cbn [In]. split.
    + intros [[B X] H]. split; [exact B|]. intros v [<-|V]; auto.
    + intros [B H]. repeat split; auto.
Qed.
Lemma cellIncluded_iff s g c : good_patch g -> In c (map fst (p_cells g)) ->
  (cellIncluded s g c = true <-> cell_all g c (fun p => isPointIncluded s p = true)).
Proof.
  intros (Nv & Nc & W) H. apply in_map_iff in H. destruct H as ([c' vs] & <- & H). cbn [fst].
  unfold cellIncluded. rewrite fold_and, (vertices_at _ _ _ Nc H). split.
  - intros [_ A] vs' v p Hc Hv Hp.
    assert (vs' = vs) by (rewrite <- (vertices_at _ _ _ Nc Hc); symmetry; rewrite <- (vertices_at _ _ _ Nc H); reflexivity). subst vs'.
    specialize (A v Hv). rewrite (coords_at _ _ _ Nv Hp) in A. exact A.
  - intros A. split; [reflexivity|]. intros v Hv. destruct (W _ _ H) as [_ Wv]. specialize (Wv v Hv). apply in_map_iff in Wv.
    destruct Wv as ([v' p] & <- & Hp). cbn [fst]. rewrite (coords_at _ _ _ Nv Hp). exact (A _ _ _ H Hv Hp).
Qed.

(** Candidates of the tree. *)
Lemma candidates_ok s g n c : good_frame s -> good_sizes s -> solid s -> tree_safe s -> good_patch g -> boxes g n ->
  In c (map fst (p_cells g)) -> In c (leaves n) -> cell_all g c (inside s) -> In c (skd_candidates s n).
Proof.
  intros F G S T P B Hc L I.
  assert (Q : exists p, inside s p /\ forall b t, cell_all g c (fun p => in_aabb p b t) -> in_aabb p b t).
  { destruct P as (Nv & Nc & W). apply in_map_iff in Hc. destruct Hc as ([c' vs] & E & Hc). cbn in E; subst c'.
    destruct (W _ _ Hc) as [Ne Wv]. destruct vs as [|v vs]; [congruence|].
    specialize (Wv v (or_introl eq_refl)). apply in_map_iff in Wv. destruct Wv as ([v' p] & <- & Hp). cbn in Hc.
    exists p. split; [exact (I _ _ _ Hc (or_introl eq_refl) Hp)|]. intros b t A. exact (A _ _ _ Hc (or_introl eq_refl) Hp). }
  destruct Q as (p & Ip & Bp).
  assert (U : unit_cube (basic s p)) by (apply inside_basic; auto; apply safe_turn; exact T).
  induction n as [|b t cs l IHl r IHr]; [exact L|].
  cbn [boxes] in B. destruct B as (B0 & Bl & Br). cbn [skd_candidates].
  rewrite (intersect_ok s p b t F G S T U (Bp b t (B0 c L))).
  assert (Go : In c (leaves l ++ leaves r) -> In c (skd_candidates s r ++ skd_candidates s l)).
  { intros H. apply in_app_or in H. apply in_or_app. destruct H as [H|H]; [right; apply IHl|left; apply IHr]; assumption. }
  cbn [leaves] in L. destruct l; destruct r; try (apply Go; exact L). exact L.
Qed.
Lemma tree_complete s g c : good_frame s -> good_sizes s -> solid s -> tree_safe s -> good_geo g -> ge_skd_ok g = true ->
  In c (map fst (p_cells (ge_patch g))) -> cell_all (ge_patch g) c (inside s) -> In c (includeGeometry s (Some g)).
Proof.
  intros F G S T (P & (Pt & B) & _) Ok Hc I. unfold includeGeometry, searchBvTreeMatches. rewrite Ok. apply filter_In. split.
  - apply candidates_ok with (g := ge_patch g); auto. apply (Permutation_in _ (Permutation_sym Pt)). exact Hc.
  - apply cellIncluded_iff; auto. intros vs v p H1 H2 H3. apply inside_included; auto; [apply safe_turn; exact T|]. exact (I vs v p H1 H2 H3).
Qed.
Lemma tree_sound s g c : good_geo g -> In c (includeGeometry s (Some g)) ->
  In c (map fst (p_cells (ge_patch g))) /\ cell_all (ge_patch g) c (fun p => isPointIncluded s p = true).
Proof.
  intros H I. destruct (include_incl s g H) as [Inc _]. pose proof (Inc c I) as Hc. split; [exact Hc|].
  destruct H as (P & _). apply cellIncluded_iff; auto. unfold includeGeometry, searchBvTreeMatches in I.
  destruct (ge_skd_ok g); [|destruct I]. apply filter_In in I. tauto.
Qed.

(* ------------------------------------------------------------------ tree of points *)
Lemma in_box_iff p b t : in_box p b t = true <-> in_aabb p b t.
Proof.
  unfold in_box, in_aabb. split.
  - repeat (destruct (Rle_dec _ _); [|discriminate]). intros _ i Hi. three Hi; cbn [vent]; lra.
  - intros H. pose proof (H 0%nat ltac:(lia)) as H0. pose proof (H 1%nat ltac:(lia)) as H1. pose proof (H 2%nat ltac:(lia)) as H2.
    cbn [vent] in *. repeat (destruct (Rle_dec _ _); [|lra]). reflexivity.
Qed.
Lemma level_vent l v : level_coord l v = vent v (Nat.modulo l 3).
Proof. unfold level_coord, vent. destruct (Nat.modulo l 3) as [|[|]]; reflexivity. Qed.
Lemma kd_complete b t n level i q : kd_sorted n level -> In (i, q) (kd_points n) -> in_aabb q b t -> In (i, q) (kd_candidates (b, t) n level).
Proof.
  revert level. induction n as [|p lab l IHl r IHr]; intros level S H B; [exact H|].
  cbn [kd_sorted kd_points kd_candidates fst snd] in *. destruct S as (Sl & Sr & Kl & Kr).
  assert (M : (Nat.modulo level 3 < 3)%nat) by (apply Nat.mod_upper_bound; lia).
  pose proof (B _ M) as Bm. rewrite !in_app_iff.
  destruct H as [[= -> ->]|H].
  - left. apply in_box_iff in B. rewrite B. left; reflexivity.
  - right. apply in_app_or in H. unfold intersectShapePlane. rewrite !level_vent. cbn [fst snd]. destruct H as [H|H].
    + right. specialize (Sl _ _ H). destruct (Rlt_dec _ (vent b _)); [lra|].
      destruct (Rlt_dec _ _); cbn [Nat.modulo Nat.eqb Nat.divmod snd Nat.sub]; apply IHl; assumption.
    + left. specialize (Sr _ _ H). destruct (Rlt_dec _ (vent b _)); [apply IHr; assumption|].
      destruct (Rlt_dec _ _); [lra|]. apply IHr; assumption.
Qed.
Lemma kd_sub b t n level : exists rest, Permutation (kd_candidates (b, t) n level ++ rest) (kd_points n).
Proof.
  revert level. induction n as [|p lab l IHl r IHr]; intros level; cbn [kd_candidates kd_points]; [exists []; constructor|].
  destruct (IHl (S level)) as [rl Pl]. destruct (IHr (S level)) as [rr Pr].
  set (A := if in_box p (fst (b, t)) (snd (b, t)) then [(lab, p)] else []).
  set (c := intersectShapePlane (b, t) level p).
  assert (HA : exists ra, Permutation (A ++ ra) [(lab, p)]) by (unfold A; destruct (in_box _ _ _); [exists []|exists [(lab, p)]]; reflexivity).
  destruct HA as [ra PA].
  assert (HR : exists q, Permutation ((if Nat.ltb 0 c then kd_candidates (b, t) r (S level) else []) ++ q) (kd_points r)).
  { destruct (Nat.ltb 0 c); [exists rr; exact Pr|exists (kd_points r); reflexivity]. }
  destruct HR as [qr PR].
  assert (HL : exists q, Permutation ((if Nat.eqb (Nat.modulo c 2) 0 then kd_candidates (b, t) l (S level) else []) ++ q) (kd_points l)).
  { destruct (Nat.eqb _ 0); [exists rl; exact Pl|exists (kd_points l); reflexivity]. }
  destruct HL as [ql PL].
  exists (ra ++ qr ++ ql).
  change ((lab, p) :: kd_points l ++ kd_points r) with ([(lab, p)] ++ kd_points l ++ kd_points r).
  rewrite <- PA, <- PL, <- PR. clear.
  set (B := if Nat.ltb 0 c then _ else _). set (C := if Nat.eqb _ _ then _ else _). clearbody A B C.
  rewrite <- !app_assoc. apply Permutation_app_head.
  transitivity (ra ++ (B ++ C) ++ qr ++ ql).
  - rewrite (app_assoc B C). apply Permutation_app_swap_app.
  - apply Permutation_app_head. rewrite <- app_assoc. etransitivity; [apply Permutation_app_swap_app|].
    apply Permutation_app_head. rewrite (app_assoc B qr ql). apply Permutation_app_comm.
Qed.

(** The box of cubes and wedges encloses their volume. *)
Lemma multi_qc (f : vec -> R) (a0 a1 a2 a3 a4 : R) :
  (forall v, f v = a0 * vx v + a1 * vy v + a2 * vz v + a3 * (vx v * vy v) + a4) -> qc f.
Proof.
  intros E. repeat split; intros u w a b x H; rewrite !E; cbn [vx vy vz].
  - pose proof (qc1_quad 0 (a0 + a3 * u) (a1 * u + a2 * w + a4) (Rle_refl 0) a b x H) as Q. cbn beta in Q.
    eapply Rle_trans; [|eapply Rle_trans; [exact Q|]]; [right; ring|]. right; f_equal; ring.
  - pose proof (qc1_quad 0 (a1 + a3 * u) (a0 * u + a2 * w + a4) (Rle_refl 0) a b x H) as Q. cbn beta in Q.
    eapply Rle_trans; [|eapply Rle_trans; [exact Q|]]; [right; ring|]. right; f_equal; ring.
  - pose proof (qc1_quad 0 a2 (a0 * u + a1 * w + a3 * (u * w) + a4) (Rle_refl 0) a b x H) as Q. cbn beta in Q.
    eapply Rle_trans; [|eapply Rle_trans; [exact Q|]]; [right; ring|]. right; f_equal; ring.
Qed.
Lemma corner_sample c : In c (corners vzero (V3 1 1 1)) -> In c cube_samples.
Proof. unfold corners, cube_samples, vzero. cbn. intuition. Qed.
Lemma bbox_ok s p : s_kind s = CUBE \/ s_kind s = WEDGE -> inside s p -> in_aabb p (fst (bbox s)) (snd (bbox s)).
Proof.
  intros K (b & Ub & ->).
  assert (Bx : in_aabb b vzero (V3 1 1 1)).
  { intros i Hi. specialize (Ub i Hi). three Hi; cbn [vent vzero vx vy vz] in *; exact Ub. }
  set (W := fun b => toWorldCoord s (basicToLocal s b)).
  assert (Sm : samples s = cube_samples) by (unfold samples; destruct K as [-> | ->]; reflexivity).
  assert (Main : forall f : vec -> R, (f = vx \/ f = vy \/ f = vz) ->
     lmin big (map f (map W cube_samples)) <= f (W b) <= lmax (- big) (map f (map W cube_samples))).
  { intros f Hf.
    assert (Q : exists a0 a1 a2 a3 a4, forall v, f (W v) = a0 * vx v + a1 * vy v + a2 * vz v + a3 * (vx v * vy v) + a4).
    { unfold W, toWorldCoord, basicToLocal, getLocalOrigin.
      set (row := fun m : mat => if Req_EM_T 0 0 then m else m).
      destruct K as [-> | ->].
      - destruct Hf as [-> |[-> | ->]].
        + exists (vx (s_scaling s) * vx (row0 (s_inv s))), (vy (s_scaling s) * vy (row0 (s_inv s))), (vz (s_scaling s) * vz (row0 (s_inv s))), 0,
            (- / 2 * (vx (s_scaling s) * vx (row0 (s_inv s)) + vy (s_scaling s) * vy (row0 (s_inv s)) + vz (s_scaling s) * vz (row0 (s_inv s))) + vx (s_origin s)).
          intros v; unfold dots, dot, cmul, vadd; cbn [vx vy vz]; ring.
        + exists (vx (s_scaling s) * vx (row1 (s_inv s))), (vy (s_scaling s) * vy (row1 (s_inv s))), (vz (s_scaling s) * vz (row1 (s_inv s))), 0,
            (- / 2 * (vx (s_scaling s) * vx (row1 (s_inv s)) + vy (s_scaling s) * vy (row1 (s_inv s)) + vz (s_scaling s) * vz (row1 (s_inv s))) + vy (s_origin s)).
          intros v; unfold dots, dot, cmul, vadd; cbn [vx vy vz]; ring.
        + exists (vx (s_scaling s) * vx (row2 (s_inv s))), (vy (s_scaling s) * vy (row2 (s_inv s))), (vz (s_scaling s) * vz (row2 (s_inv s))), 0,
            (- / 2 * (vx (s_scaling s) * vx (row2 (s_inv s)) + vy (s_scaling s) * vy (row2 (s_inv s)) + vz (s_scaling s) * vz (row2 (s_inv s))) + vz (s_origin s)).
          intros v; unfold dots, dot, cmul, vadd; cbn [vx vy vz]; ring.
      - destruct Hf as [-> |[-> | ->]].
        + exists (vx (s_scaling s) * vx (row0 (s_inv s))), (vy (s_scaling s) * vy (row0 (s_inv s))), (vz (s_scaling s) * vz (row0 (s_inv s))),
            (- (vy (s_scaling s) * vy (row0 (s_inv s)))), (- / 2 * (vz (s_scaling s) * vz (row0 (s_inv s))) + vx (s_origin s)).
          intros v; unfold dots, dot, cmul, vadd; cbn [vx vy vz]; ring.
        + exists (vx (s_scaling s) * vx (row1 (s_inv s))), (vy (s_scaling s) * vy (row1 (s_inv s))), (vz (s_scaling s) * vz (row1 (s_inv s))),
            (- (vy (s_scaling s) * vy (row1 (s_inv s)))), (- / 2 * (vz (s_scaling s) * vz (row1 (s_inv s))) + vy (s_origin s)).
          intros v; unfold dots, dot, cmul, vadd; cbn [vx vy vz]; ring.
        + exists (vx (s_scaling s) * vx (row2 (s_inv s))), (vy (s_scaling s) * vy (row2 (s_inv s))), (vz (s_scaling s) * vz (row2 (s_inv s))),
            (- (vy (s_scaling s) * vy (row2 (s_inv s)))), (- / 2 * (vz (s_scaling s) * vz (row2 (s_inv s))) + vz (s_origin s)).
          intros v; unfold dots, dot, cmul, vadd; cbn [vx vy vz]; ring. }
    destruct Q as (a0 & a1 & a2 & a3 & a4 & Q).
    assert (Q1 : qc (fun v => f (W v))) by (apply (multi_qc _ a0 a1 a2 a3 a4); exact Q).
    assert (Q2 : qc (fun v => - f (W v))) by (apply (multi_qc _ (- a0) (- a1) (- a2) (- a3) (- a4)); intros v; rewrite Q; ring).
    destruct (qc_corner _ b _ _ Q1 Bx) as (c & Ic & Lc). destruct (qc_corner _ b _ _ Q2 Bx) as (d & Id & Ld).
    apply corner_sample in Ic. apply corner_sample in Id. split.
    - eapply Rle_trans; [apply lmin_le; right; apply in_map; apply in_map; exact Id|]. lra.
    - eapply Rle_trans; [exact Lc|]. apply lmax_ge; right; apply in_map; apply in_map; exact Ic. }
  unfold bbox. rewrite Sm. fold W. intros i Hi. cbn [fst snd]. three Hi; cbn [vent vx vy vz]; apply Main; auto.
Qed.

Lemma cloud_complete s g i p : good_frame s -> good_sizes s -> solid s -> s_kind s = CUBE \/ s_kind s = WEDGE -> good_geo g -> p_cells (ge_patch g) <> [] ->
  at_point (ge_patch g) i p -> inside s p -> In i (includeCloudPoints s (Some g)).
Proof.
  intros F G S K (_ & _ & (Pk & Sk)) Ne H I. unfold includeCloudPoints, is_empty, at_point in *.
  destruct (p_verts (ge_patch g)) as [|v0 vr] eqn:EV; [destruct H|]. destruct (p_cells (ge_patch g)) eqn:EC; [congruence|].
  unfold searchKdTreeMatches. apply in_map_iff. exists (i, p). split; [reflexivity|]. apply filter_In. split.
  - rewrite (surjective_pairing (bbox s)). apply kd_complete; [exact Sk| |apply bbox_ok; assumption].
    apply (Permutation_in _ (Permutation_sym Pk)). exact H.
  - apply inside_included; auto. unfold whole_turn. destruct K as [-> | ->]; constructor.
Qed.
Lemma cloud_sound s g i : good_geo g -> In i (includeCloudPoints s (Some g)) ->
  exists p, at_point (ge_patch g) i p /\ isPointIncluded s p = true.
Proof.
  intros (_ & _ & (Pk & _)) H. unfold includeCloudPoints in H. destruct (is_empty g); [destruct H|].
  unfold searchKdTreeMatches in H. apply in_map_iff in H. destruct H as ([j p] & <- & H). apply filter_In in H. destruct H as [H I].
  exists p. split; [|exact I]. destruct (kd_sub (fst (bbox s)) (snd (bbox s)) (ge_kd g) 0) as [rest P].
  rewrite <- surjective_pairing in P. apply (Permutation_in _ Pk). apply (Permutation_in _ P). apply in_or_app. left; exact H.
Qed.
Lemma map_filter_nodup {A} (l : list (nat * A)) f : NoDup (map fst l) -> NoDup (map fst (filter f l)).
Proof.
  induction l as [|x r IH]; cbn; intros N; [constructor|]. apply NoDup_cons_iff in N. destruct N as [Nx N].
  destruct (f x); cbn; [|apply IH; exact N]. constructor; [|apply IH; exact N].
  intros H. apply Nx. apply in_map_iff in H. destruct H as (y & E & H). apply filter_In in H. rewrite <- E. apply in_map. tauto.
Qed.
Lemma cloud_nodup s g : good_geo g -> NoDup (includeCloudPoints s (Some g)).
Proof.
  intros ((Nv & _) & _ & (Pk & _)). unfold includeCloudPoints. destruct (is_empty g); [constructor|].
  unfold searchKdTreeMatches. apply map_filter_nodup.
  destruct (kd_sub (fst (bbox s)) (snd (bbox s)) (ge_kd g) 0) as [rest P]. rewrite <- surjective_pairing in P.
  apply NoDup_app_l with (m := map fst rest). rewrite <- map_app. eapply Permutation_NoDup; [|exact Nv].
  symmetry. apply Permutation_map. rewrite P. exact Pk.
Qed.
(** The exclusion of points works when the cells carry the ids of the vertices. *)
Lemma cloud_split_ok s g : good_geo g -> Permutation (map fst (p_cells (ge_patch g))) (map fst (p_verts (ge_patch g))) ->
  exists l, excludeCloudPoints s (Some g) = Sel l /\ split_of (includeCloudPoints s (Some g)) l (map fst (p_verts (ge_patch g))).
Proof.
  intros G P. pose proof (cloud_nodup s g G) as N. pose proof (cloud_sound s g) as Snd.
  unfold excludeCloudPoints. destruct (is_empty g) eqn:E.
  - exists []. split; [reflexivity|]. unfold includeCloudPoints. rewrite E. unfold is_empty in E.
    destruct (p_verts (ge_patch g)); [constructor|]. destruct (p_cells (ge_patch g)); [|discriminate].
    apply Permutation_length in P. discriminate.
  - destruct (difference_ok (map fst (p_cells (ge_patch g))) (includeCloudPoints s (Some g))) as (l & D & Sp).
    + destruct G as ((_ & Nc & _) & _). exact Nc.
    + exact N.
    + intros i Hi. destruct (Snd i G Hi) as (p & Hp & _). apply (Permutation_in _ (Permutation_sym P)). exact (in_map fst _ _ Hp).
    + exists l. split; [exact D|]. unfold split_of in *. rewrite Sp. exact P.
Qed.
