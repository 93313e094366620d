(** Proofs about the coordinates of shapes: angles, and the two round trips. *)
From Coq Require Import Reals List Arith ZArith Bool Lia Lra Psatz.
From Verif Require Import Vec Shape ShapeSpec ShapeProofs.
Import ListNotations.
Open Scope R_scope.

(* ------------------------------------------------------------------ angles *)
Lemma sqrt_quot x y : x <> 0 -> sqrt (1 + (y / x)²) = sqrt (x * x + y * y) / Rabs x.
Proof.
  intros Hx. assert (0 < Rabs x) by (apply Rabs_pos_lt; exact Hx).
  assert (E : 1 + (y / x)² = (x * x + y * y) / (Rabs x)²).
  { rewrite <- Rsqr_abs. unfold Rsqr. field. exact Hx. }
  rewrite E, sqrt_div_alt; [|unfold Rsqr; nra]. rewrite sqrt_Rsqr; [reflexivity|lra].
Qed.
Lemma hyp_pos x y : (x <> 0 \/ y <> 0) -> 0 < sqrt (x * x + y * y).
Proof. intros H. apply sqrt_lt_R0. nra. Qed.

Lemma atan2_ok x y : (x <> 0 \/ y <> 0) ->
  let r := sqrt (x * x + y * y) in
  r * cos (atan2 y x) = x /\ r * sin (atan2 y x) = y /\ - PI < atan2 y x <= PI.
Proof.
  intros H r. pose proof (hyp_pos x y H) as Hr. fold r in Hr. pose proof PI_RGT_0 as P.
  assert (A : x <> 0 -> cos (atan (y / x)) = Rabs x / r /\ sin (atan (y / x)) = y / x * (Rabs x / r)).
  { intros Hx. rewrite cos_atan, sin_atan, (sqrt_quot x y Hx). fold r.
    assert (0 < Rabs x) by (apply Rabs_pos_lt; exact Hx). split; field; repeat split; try lra; assumption. }
  unfold atan2. pose proof (atan_bound (y / x)) as B.
  destruct (Rlt_dec 0 x) as [X|X].
  - destruct A as [A1 A2]; [lra|]. rewrite A1, A2, Rabs_right by lra. repeat split; try (field; lra); lra.
  - destruct (Rlt_dec x 0) as [X'|X'].
    + destruct A as [A1 A2]; [lra|]. rewrite Rabs_left in A1, A2 by lra.
      destruct (Rle_dec 0 y) as [Y|Y].
      * rewrite neg_cos, neg_sin, A1, A2. repeat split; try (field; lra); try lra.
        assert (N : atan (y / x) <= 0).
        { destruct (Req_dec y 0) as [->|Ny]; [unfold Rdiv; rewrite Rmult_0_l, atan_0; lra|].
          assert (L : y / x < 0). { unfold Rdiv. assert (/ x < 0) by (apply Rinv_lt_0_compat; lra). nra. }
          apply atan_increasing in L. rewrite atan_0 in L. lra. }
        lra.
      * unfold Rminus. replace (atan (y / x) + - PI) with (- (PI - atan (y / x))) by ring.
        rewrite cos_neg, sin_neg, cos_minus, sin_minus, cos_PI, sin_PI, A1, A2.
        repeat split; try (field; lra); try lra.
        assert (L : 0 < y / x). { unfold Rdiv. assert (/ x < 0) by (apply Rinv_lt_0_compat; lra). nra. }
        apply atan_increasing in L. rewrite atan_0 in L. lra.
    + assert (x = 0) by lra. subst x.
      destruct (Rlt_dec 0 y) as [Y|Y].
      * rewrite cos_PI2, sin_PI2. assert (r = y). { unfold r. replace (0 * 0 + y * y) with (y²) by (unfold Rsqr; ring). apply sqrt_Rsqr; lra. }
        repeat split; lra.
      * destruct (Rlt_dec y 0) as [Y'|Y']; [|lra].
        rewrite cos_neg, sin_neg, cos_PI2, sin_PI2.
        assert (r = - y). { unfold r. replace (0 * 0 + y * y) with ((- y)²) by (unfold Rsqr; ring). apply sqrt_Rsqr; lra. }
        repeat split; lra.
Qed.

Lemma cos_2PI_shift x : cos (x + 2 * PI) = cos x.
Proof. replace (x + 2 * PI) with ((x + PI) + PI) by ring. rewrite !neg_cos. ring. Qed.
Lemma sin_2PI_shift x : sin (x + 2 * PI) = sin x.
Proof. replace (x + 2 * PI) with ((x + PI) + PI) by ring. rewrite !neg_sin. ring. Qed.

Lemma angle_ok x y : (x <> 0 \/ y <> 0) ->
  let r := sqrt (x * x + y * y) in
  r * cos (angle y x) = x /\ r * sin (angle y x) = y /\ 0 <= angle y x < 2 * PI.
Proof.
  intros H r. destruct (atan2_ok x y H) as (C & S & B). fold r in C, S. pose proof PI_RGT_0 as P.
  unfold angle, getSign. destruct (Rlt_dec (atan2 y x) 0) as [N|N].
  - replace (atan2 y x - (-1 * 1 - 1) * PI) with (atan2 y x + 2 * PI) by ring.
    rewrite cos_2PI_shift, sin_2PI_shift. repeat split; try assumption; lra.
  - replace (atan2 y x - (1 - 1) * PI) with (atan2 y x) by ring. repeat split; try assumption; lra.
Qed.

Lemma angle_unique a b : 0 <= a < 2 * PI -> 0 <= b < 2 * PI -> cos a = cos b -> sin a = sin b -> a = b.
Proof.
  intros Ha Hb C S.
  assert (E : cos (a - b) = 1).
  { rewrite cos_minus, C, S. pose proof (sin2_cos2 b) as Q. unfold Rsqr in Q. lra. }
  replace (a - b) with (2 * ((a - b) / 2)) in E by field. rewrite cos_2a_sin in E.
  assert (Z : sin ((a - b) / 2) = 0) by nra.
  destruct (Rtotal_order a b) as [L|[E'|L]]; [|exact E'|].
  - assert (0 < sin ((b - a) / 2)) by (apply sin_gt_0; lra).
    replace ((a - b) / 2) with (- ((b - a) / 2)) in Z by field. rewrite sin_neg in Z. lra.
  - assert (0 < sin ((a - b) / 2)) by (apply sin_gt_0; lra). lra.
Qed.

Lemma polar_radius r t : 0 < r -> sqrt (r * cos t * (r * cos t) + r * sin t * (r * sin t)) = r.
Proof.
  intros Hr. pose proof (sin2_cos2 t) as Q. unfold Rsqr in Q.
  replace (r * cos t * (r * cos t) + r * sin t * (r * sin t)) with (r²).
  - apply sqrt_Rsqr. lra.
  - unfold Rsqr. transitivity (r * r * (sin t * sin t + cos t * cos t)); [rewrite Q; ring|ring].
Qed.
Lemma polar_nonzero r t : 0 < r -> r * cos t <> 0 \/ r * sin t <> 0.
Proof.
  intros Hr. pose proof (sin2_cos2 t) as Q. unfold Rsqr in Q.
  destruct (Req_dec (cos t) 0) as [C|C].
  - right. assert (sin t <> 0) by (intros E; rewrite C, E in Q; lra). nra.
  - left. nra.
Qed.
Lemma angle_polar r t : 0 < r -> 0 <= t < 2 * PI -> angle (r * sin t) (r * cos t) = t.
Proof.
  intros Hr Ht. destruct (angle_ok (r * cos t) (r * sin t) (polar_nonzero r t Hr)) as (C & S & B).
  rewrite polar_radius in C, S by exact Hr.
  apply angle_unique; [exact B|exact Ht| |]; nra.
Qed.

Lemma from_mark_ok t m : 0 <= t < 2 * PI -> 0 <= m <= 2 * PI ->
  0 <= from_mark t m < 2 * PI /\ cos (from_mark t m + m) = cos t /\ sin (from_mark t m + m) = sin t.
Proof.
  intros Ht Hm. unfold from_mark. cbn zeta. destruct (Rlt_dec (t - m) 0) as [N|N].
  - destruct (Rlt_dec (2 * PI) (2 * PI + (t - m))) as [L|L]; [lra|].
    replace (2 * PI + (t - m) + m) with (t + 2 * PI) by ring.
    rewrite cos_2PI_shift, sin_2PI_shift. repeat split; lra.
  - destruct (Rlt_dec (2 * PI) (t - m)) as [L|L]; [lra|].
    replace (t - m + m) with t by ring. repeat split; lra.
Qed.

(** An angle from the mark is found again. *)
Lemma from_mark_back t m u : 0 <= t < 2 * PI -> 0 <= m <= 2 * PI -> 0 <= u < 2 * PI ->
  cos u = cos (t + m) -> sin u = sin (t + m) -> from_mark u m = t.
Proof.
  intros Ht Hm Hu C S. destruct (from_mark_ok u m Hu Hm) as (B & C' & S').
  apply angle_unique; [exact B|exact Ht| |].
  - replace (from_mark u m) with (from_mark u m + m - m) by ring. rewrite cos_minus, C', S', C, S, <- cos_minus. f_equal; ring.
  - replace (from_mark u m) with (from_mark u m + m - m) by ring. rewrite sin_minus, C', S', C, S, <- sin_minus. f_equal; ring.
Qed.

(* ------------------------------------------------------------------ round trips *)
Lemma vadd_vsub p o : vadd (vsub p o) o = p.
Proof. apply vec_ext; cbn; ring. Qed.
Lemma vsub_vadd p o : vsub (vadd p o) o = p.
Proof. apply vec_ext; cbn; ring. Qed.
Definition scal_ok (s : shape) : Prop := vx (s_scaling s) <> 0 /\ vy (s_scaling s) <> 0 /\ vz (s_scaling s) <> 0.
Lemma cmul_cdiv p k : vx k <> 0 -> vy k <> 0 -> vz k <> 0 -> cmul (cdiv p k) k = p.
Proof. intros. apply vec_ext; cbn; field; assumption. Qed.
Lemma cdiv_cmul p k : vx k <> 0 -> vy k <> 0 -> vz k <> 0 -> cdiv (cmul p k) k = p.
Proof. intros. apply vec_ext; cbn; field; assumption. Qed.

Lemma solid_scal s : good_sizes s -> solid s -> scal_ok s /\ vx (s_span s) <> 0 /\ vy (s_span s) <> 0 /\ vz (s_span s) <> 0.
Proof.
  intros G S. pose proof (S 0%nat ltac:(lia)) as X. pose proof (S 1%nat ltac:(lia)) as Y. pose proof (S 2%nat ltac:(lia)) as Z.
  unfold getSpan, cmul, vent in X, Y, Z; cbn in X, Y, Z.
  unfold scal_ok. repeat split; intros E; rewrite E in *; lra.
Qed.

Lemma norm_sqrt v : norm v = sqrt (vx v * vx v + vy v * vy v + vz v * vz v).
Proof. reflexivity. Qed.

Lemma polar_coords x y : sqrt (x * x + y * y) = 0 \/ 0 < sqrt (x * x + y * y).
Proof. pose proof (sqrt_pos (x * x + y * y)). lra. Qed.

Lemma world_local_world s x : good_frame s -> good_sizes s -> solid s -> ~ edge_plane s x ->
  toWorldCoord s (toLocalCoord s x) = x.
Proof.
  intros [D I] G S E. destruct (solid_scal s G S) as ((SX & SY & SZ) & PX & PY & PZ).
  unfold toWorldCoord, toLocalCoord. set (w := vsub x (s_origin s)). set (l := dots w (s_sdr s)).
  assert (Fin : vadd (dots l (s_inv s)) (s_origin s) = x).
  { subst l. rewrite I, dots_inverse' by exact D. subst w. apply vadd_vsub. }
  destruct (s_kind s) eqn:K.
  - rewrite cmul_cdiv by assumption. exact Fin.
  - unfold good_sizes in G. rewrite K in G. destruct G as [(G1 & G2 & G3 & G4 & G5 & G6) _].
    assert (Core : forall r t, (r * cos t = vx l /\ r * sin t = vy l) -> 0 <= t < 2 * PI ->
      (let work := cmul (cdiv {| vx := r - vx (s_inf s); vy := from_mark t (vy (s_inf s)); vz := vz l |} (s_scaling s)) (s_scaling s) in
       let work2 := {| vx := (vx work + vx (s_inf s)) * cos (vy work + vy (s_inf s));
                       vy := (vx work + vx (s_inf s)) * sin (vy work + vy (s_inf s)); vz := vz work |} in
       vadd (dots work2 (s_inv s)) (s_origin s)) = x).
    { intros r t [C1 C2] Ht. cbv zeta. rewrite cmul_cdiv by assumption. cbn [vx vy vz].
      destruct (from_mark_ok t (vy (s_inf s)) Ht G6) as (_ & Fc & Fs). rewrite Fc, Fs.
      replace (r - vx (s_inf s) + vx (s_inf s)) with r by ring. rewrite C1, C2.
      replace {| vx := vx l; vy := vy l; vz := vz l |} with l by (apply vec_ext; reflexivity). exact Fin. }
    pose proof PI_RGT_0.
    destruct (Req_EM_T (vx l) 0) as [X|X]; [destruct (Req_EM_T (vy l) 0) as [Y|Y]|].
    + apply Core; [rewrite X, Y; split; ring|lra].
    + destruct (angle_ok (vx l) (vy l) (or_intror Y)) as (A1 & A2 & A3). apply Core; [split; assumption|exact A3].
    + destruct (angle_ok (vx l) (vy l) (or_introl X)) as (A1 & A2 & A3). apply Core; [split; assumption|exact A3].
  - unfold good_sizes in G. rewrite K in G. destruct G as [(G1 & G2 & G3 & G4 & G5 & G6 & G7 & G8) _].
    assert (Core : forall t f, 
      (norm l * cos t * sin (f + vz (s_inf s)) = vx l /\ norm l * sin t * sin (f + vz (s_inf s)) = vy l /\ norm l * cos (f + vz (s_inf s)) = vz l) ->
      forall u, cos (u + vy (s_inf s)) = cos t /\ sin (u + vy (s_inf s)) = sin t ->
      (let work := cmul (cdiv {| vx := norm l - vx (s_inf s); vy := u; vz := f |} (s_scaling s)) (s_scaling s) in
       let work2 := {| vx := (vx work + vx (s_inf s)) * cos (vy work + vy (s_inf s)) * sin (vz work + vz (s_inf s));
                       vy := (vx work + vx (s_inf s)) * sin (vy work + vy (s_inf s)) * sin (vz work + vz (s_inf s));
                       vz := (vx work + vx (s_inf s)) * cos (vz work + vz (s_inf s)) |} in
       vadd (dots work2 (s_inv s)) (s_origin s)) = x).
    { intros t f (C1 & C2 & C3) u (U1 & U2). cbv zeta. rewrite cmul_cdiv by assumption. cbn [vx vy vz].
      rewrite U1, U2. replace (norm l - vx (s_inf s) + vx (s_inf s)) with (norm l) by ring. rewrite C1, C2, C3.
      replace {| vx := vx l; vy := vy l; vz := vz l |} with l by (apply vec_ext; reflexivity). exact Fin. }
    destruct (Rlt_dec 0 (norm l)) as [N|N].
    + pose proof PI_RGT_0.
      pose proof (norm_pos_sq l N) as Q. unfold dot in Q.
      assert (B : -1 <= vz l / norm l <= 1).
      { assert (vz l * vz l <= norm l * norm l) by nra.
        assert (- norm l <= vz l <= norm l) by nra.
        assert (0 < / norm l) by (apply Rinv_0_lt_compat; exact N).
        assert (norm l * / norm l = 1) by (apply Rinv_r; lra). unfold Rdiv; split; nra. }
      assert (Z : norm l * cos (acos (vz l / norm l) - vz (s_inf s) + vz (s_inf s)) = vz l).
      { replace (acos (vz l / norm l) - vz (s_inf s) + vz (s_inf s)) with (acos (vz l / norm l)) by ring.
        rewrite cos_acos by exact B. field. lra. }
      assert (Sn : norm l * sin (acos (vz l / norm l) - vz (s_inf s) + vz (s_inf s)) = sqrt (vx l * vx l + vy l * vy l)).
      { replace (acos (vz l / norm l) - vz (s_inf s) + vz (s_inf s)) with (acos (vz l / norm l)) by ring.
        rewrite sin_acos by exact B.
        replace (1 - (vz l / norm l)²) with ((vx l * vx l + vy l * vy l) / (norm l)²).
        - rewrite sqrt_div_alt by (unfold Rsqr; nra). rewrite sqrt_Rsqr by lra. field. lra.
        - unfold Rsqr. replace (vx l * vx l + vy l * vy l) with (norm l * norm l - vz l * vz l) by lra. field. lra. }
      assert (Core2 : forall t, sqrt (vx l * vx l + vy l * vy l) * cos t = vx l /\ sqrt (vx l * vx l + vy l * vy l) * sin t = vy l ->
        0 <= t < 2 * PI ->
        (norm l * cos t * sin (acos (vz l / norm l) - vz (s_inf s) + vz (s_inf s)) = vx l /\
         norm l * sin t * sin (acos (vz l / norm l) - vz (s_inf s) + vz (s_inf s)) = vy l /\
         norm l * cos (acos (vz l / norm l) - vz (s_inf s) + vz (s_inf s)) = vz l)).
      { intros t (T1 & T2) _. rewrite Z. set (q := sin _) in *.
        repeat split; [rewrite <- T1|rewrite <- T2]; rewrite <- Sn; ring. }
      destruct (Req_EM_T (vx l) 0) as [X|X]; [destruct (Req_EM_T (vy l) 0) as [Y|Y]|].
      * eapply Core; [apply (Core2 0); [|lra]|apply from_mark_ok; lra].
        rewrite X, Y. replace (0 * 0 + 0 * 0) with 0 by ring. rewrite sqrt_0. split; ring.
      * destruct (angle_ok (vx l) (vy l) (or_intror Y)) as (A1 & A2 & A3).
        eapply Core; [apply (Core2 _ (conj A1 A2) A3)|apply from_mark_ok; assumption].
      * destruct (angle_ok (vx l) (vy l) (or_introl X)) as (A1 & A2 & A3).
        eapply Core; [apply (Core2 _ (conj A1 A2) A3)|apply from_mark_ok; assumption].
    + assert (N0 : norm l = 0) by (pose proof (norm_nonneg l); lra).
      assert (Hl : l = vzero) by (apply norm_zero_iff; exact N0).
      eapply (Core (vy w + vy (s_inf s)) (vz w)); [|split; reflexivity].
      rewrite N0, Hl. cbn. repeat split; ring.
  - assert (NE : vx (cdiv l (s_scaling s)) = 1 -> vy l = 0).
    { intros H1. destruct (Req_dec (vy l) 0) as [Y|Y]; [exact Y|]. elim E. split; [exact K|]. cbv zeta. fold w.
      unfold cdiv in H1; cbn [vx vy vz] in H1. unfold sum3, vent, ment.
      change (vx w * vx (row0 (s_sdr s)) + vy w * vy (row0 (s_sdr s)) + vz w * vz (row0 (s_sdr s))) with (vx l).
      change (vx w * vx (row1 (s_sdr s)) + vy w * vy (row1 (s_sdr s)) + vz w * vz (row1 (s_sdr s))) with (vy l).
      split; [|exact Y]. apply Rmult_eq_reg_r with (/ vx (s_scaling s)); [|apply Rinv_neq_0_compat; exact SX].
      transitivity 1; [exact H1|field; exact SX]. }
    destruct (Rlt_dec 0 (Rabs (1 - vx (cdiv l (s_scaling s))))) as [A|A].
    + assert (A' : 1 - vx (cdiv l (s_scaling s)) <> 0) by (intros Z; rewrite Z, Rabs_R0 in A; lra).
      cbn [vx vy vz]. replace (vy (cdiv l (s_scaling s)) / (1 - vx (cdiv l (s_scaling s))) * (1 - vx (cdiv l (s_scaling s)))) with (vy (cdiv l (s_scaling s))) by (field; exact A').
      replace {| vx := vx (cdiv l (s_scaling s)); vy := vy (cdiv l (s_scaling s)); vz := vz (cdiv l (s_scaling s)) |} with (cdiv l (s_scaling s)) by (apply vec_ext; reflexivity).
      rewrite cmul_cdiv by assumption. exact Fin.
    + assert (A0 : vx (cdiv l (s_scaling s)) = 1).
      { destruct (Req_dec (1 - vx (cdiv l (s_scaling s))) 0) as [Z|Z]; [lra|]. apply Rabs_pos_lt in Z. contradiction. }
      assert (Y0 : vy (cdiv l (s_scaling s)) = 0) by (unfold cdiv; cbn [vy]; rewrite (NE A0); unfold Rdiv; ring).
      cbn [vx vy vz].
      replace (V3 (vx (cdiv l (s_scaling s))) ((if Rlt_dec 0 (Rabs (vy (cdiv l (s_scaling s)))) then dbl_max else 0) * (1 - vx (cdiv l (s_scaling s)))) (vz (cdiv l (s_scaling s))))
        with (cdiv l (s_scaling s)).
      * rewrite cmul_cdiv by assumption. exact Fin.
      * apply vec_ext; cbn [vx vy vz]; [reflexivity| |reflexivity]. rewrite A0, Y0. ring.
Qed.

Lemma local_world_local s p : good_frame s -> good_sizes s -> solid s -> in_param s p -> ~ singular s p ->
  toLocalCoord s (toWorldCoord s p) = p.
Proof.
  intros [D I] G S P N. destruct (solid_scal s G S) as ((SX & SY & SZ) & PX & PY & PZ).
  pose proof (P 0%nat ltac:(lia)) as P0. pose proof (P 1%nat ltac:(lia)) as P1. pose proof (P 2%nat ltac:(lia)) as P2.
  unfold in_param, singular, getLocalOrigin in *. unfold toWorldCoord, toLocalCoord.
  destruct (s_kind s) eqn:K.
  - rewrite vsub_vadd, I, dots_inverse by exact D. apply cdiv_cmul; assumption.
  - unfold good_sizes in G. rewrite K in G. destruct G as [(G1 & G2 & G3 & G4 & G5 & G6) (G7 & G8 & G9)].
    rewrite vsub_vadd, I, dots_inverse by exact D. unfold vent in *; cbn [vx vy vz cmul] in *.
    rewrite G3, Rmult_1_r.
    set (r := vx p * vx (s_scaling s) + vx (s_inf s)) in *.
    assert (Hr : 0 < r). { assert (0 <= r) by (unfold r; nra). assert (r <> 0) by tauto. lra. }
    assert (Ht : 0 <= vy p < 2 * PI). { assert (vy p <> 2 * PI) by tauto. lra. }
    rewrite polar_radius by exact Hr.
    set (a := angle (r * sin (vy p + vy (s_inf s))) (r * cos (vy p + vy (s_inf s)))).
    assert (E : from_mark a (vy (s_inf s)) = vy p).
    { destruct (angle_ok (r * cos (vy p + vy (s_inf s))) (r * sin (vy p + vy (s_inf s))) (polar_nonzero r _ Hr)) as (A1 & A2 & A3).
      rewrite polar_radius in A1, A2 by exact Hr. fold a in A1, A2, A3. apply (from_mark_back _ _ a); try assumption; nra. }
    destruct (Req_EM_T _ 0) as [X|X]; [destruct (Req_EM_T _ 0) as [Y|Y]|].
    + destruct (polar_nonzero r (vy p + vy (s_inf s)) Hr); contradiction.
    + rewrite E. apply vec_ext; cbn [vx vy vz cdiv]; [unfold r; field; exact SX|rewrite G3; field|field; exact SZ].
    + rewrite E. apply vec_ext; cbn [vx vy vz cdiv]; [unfold r; field; exact SX|rewrite G3; field|field; exact SZ].
  - unfold good_sizes in G. rewrite K in G. destruct G as [(G1 & G2 & G3 & G4 & G5 & G6 & G7 & G8) (G9 & G10 & G11)].
    rewrite vsub_vadd, I, dots_inverse by exact D. unfold vent in *; cbn [vx vy vz cmul] in *.
    rewrite G2, G3, !Rmult_1_r.
    set (r := vx p * vx (s_scaling s) + vx (s_inf s)) in *.
    assert (Hr : 0 < r). { assert (0 <= r) by (unfold r; nra). assert (r <> 0) by tauto. lra. }
    assert (Ht : 0 <= vy p < 2 * PI). { assert (vy p <> 2 * PI) by tauto. lra. }
    set (f := vz p + vz (s_inf s)) in *.
    assert (Hf : 0 < f < PI). { assert (0 <= f <= PI) by (unfold f; lra). assert (f <> 0 /\ f <> PI) by tauto. lra. }
    assert (Sf : 0 < sin f) by (apply sin_gt_0; lra).
    set (t := vy p + vy (s_inf s)) in *.
    set (q := r * sin f). assert (Hq : 0 < q) by (unfold q; nra).
    replace (r * cos t * sin f) with (q * cos t) by (unfold q; ring).
    replace (r * sin t * sin f) with (q * sin t) by (unfold q; ring).
    assert (Nr : norm (V3 (q * cos t) (q * sin t) (r * cos f)) = r).
    { rewrite norm_sqrt. cbn [vx vy vz]. pose proof (sin2_cos2 t) as Q1. pose proof (sin2_cos2 f) as Q2. unfold Rsqr in *.
      replace (q * cos t * (q * cos t) + q * sin t * (q * sin t) + r * cos f * (r * cos f)) with (r²).
      - apply sqrt_Rsqr. lra.
      - unfold Rsqr. transitivity (q * q * (sin t * sin t + cos t * cos t) + r * r * (cos f * cos f)); [|ring].
        rewrite Q1. unfold q. transitivity (r * r * (sin f * sin f + cos f * cos f)); [rewrite Q2; ring|ring]. }
    rewrite Nr. destruct (Rlt_dec 0 r) as [_|C]; [|contradiction].
    assert (Ac : acos (r * cos f / r) - vz (s_inf s) = vz p).
    { replace (r * cos f / r) with (cos f) by (field; lra). rewrite acos_cos by lra. unfold f; ring. }
    set (a := angle (q * sin t) (q * cos t)).
    assert (E : from_mark a (vy (s_inf s)) = vy p).
    { destruct (angle_ok (q * cos t) (q * sin t) (polar_nonzero q _ Hq)) as (A1 & A2 & A3).
      rewrite polar_radius in A1, A2 by exact Hq. fold a in A1, A2, A3. apply (from_mark_back _ _ a); try assumption; fold t; nra. }
    destruct (Req_EM_T _ 0) as [X|X]; [destruct (Req_EM_T _ 0) as [Y|Y]|].
    + destruct (polar_nonzero q t Hq); contradiction.
    + rewrite E, Ac. apply vec_ext; cbn [vx vy vz cdiv]; [unfold r; field; exact SX|rewrite G2; field|rewrite G3; field].
    + rewrite E, Ac. apply vec_ext; cbn [vx vy vz cdiv]; [unfold r; field; exact SX|rewrite G2; field|rewrite G3; field].
  - rewrite vsub_vadd, I, dots_inverse by exact D. rewrite cdiv_cmul by assumption. cbn [vx vy vz].
    destruct (Rlt_dec 0 (Rabs (1 - vx p))) as [A|A].
    + apply vec_ext; cbn [vx vy vz]; [reflexivity| |reflexivity]. field. intros Z. apply N. lra.
    + destruct (Req_dec (1 - vx p) 0) as [Z|Z]; [elim N; lra|]. apply Rabs_pos_lt in Z. contradiction.
Qed.

Lemma basic_local_basic s b : good_sizes s -> solid s -> localToBasic s (basicToLocal s b) = b.
Proof.
  intros G S. destruct (solid_scal s G S) as (_ & PX & PY & PZ).
  unfold localToBasic, basicToLocal, getLocalOrigin. destruct (s_kind s); apply vec_ext; cbn; field; assumption.
Qed.
Lemma local_basic_local s p : good_sizes s -> solid s -> basicToLocal s (localToBasic s p) = p.
Proof.
  intros G S. destruct (solid_scal s G S) as (_ & PX & PY & PZ).
  unfold localToBasic, basicToLocal, getLocalOrigin. destruct (s_kind s); apply vec_ext; cbn; field; assumption.
Qed.
Lemma basic_param s b : good_sizes s -> solid s -> (unit_cube b <-> in_param s (basicToLocal s b)).
Proof.
  intros G S. destruct (solid_scal s G S) as (_ & PX & PY & PZ).
  unfold good_sizes in G. unfold unit_cube, in_param, basicToLocal, getLocalOrigin.
  assert (T : forall P : nat -> Prop, (forall i, (i < 3)%nat -> P i) <-> P 0%nat /\ P 1%nat /\ P 2%nat).
  { intros P. split; [intros H; repeat split; apply H; lia|intros (A & B & C) i Hi; three Hi; assumption]. }
  rewrite !T. destruct (s_kind s); cbn; destruct G as [G _].
  - destruct G as [G _]. rewrite G. cbn. split; intros; repeat split; lra.
  - destruct G as (-> & -> & _ & G & _). split; intros (A & B & C); repeat split; try lra; nra.
  - destruct G as (-> & _ & _ & G & _ & _ & _ & G'). split; intros (A & B & C); repeat split; try lra; nra.
  - destruct G as [G _]. rewrite G. cbn. split; intros; repeat split; lra.
Qed.
