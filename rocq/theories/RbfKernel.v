(** The basis functions of src/manipulators/MRBF.cpp (and the default one of bitpit). *)
From Coq Require Import Reals Lra Lia Psatz.
From Verif Require Import Vec Rbf.
Open Scope R_scope.

Lemma heaviside_range : forall K d, 0 < heaviside K d < 1.
Proof.
  intros K d. unfold heaviside, Rdiv. rewrite Rmult_1_l. pose proof (exp_pos (- K * (1 - d))) as E.
  split; [apply Rinv_0_lt_compat; lra|]. assert (H : / (1 + exp (- K * (1 - d))) < / 1) by (apply Rinv_lt_contravar; lra). lra.
Qed.
Lemma heaviside_decreasing : forall K a b, 0 < K -> a < b -> heaviside K b < heaviside K a.
Proof.
  intros K a b HK H. unfold heaviside, Rdiv. rewrite !Rmult_1_l.
  pose proof (exp_pos (- K * (1 - a))) as A. pose proof (exp_pos (- K * (1 - b))) as B.
  apply Rinv_lt_contravar; [apply Rmult_lt_0_compat; lra|]. apply Rplus_lt_compat_l. apply exp_increasing. nra.
Qed.
Lemma heaviside_half : forall K, heaviside K 1 = / 2.
Proof. intros K. unfold heaviside. replace (- K * (1 - 1)) with 0 by ring. rewrite exp_0. field. Qed.
Lemma heaviside_tanh : forall K d, heaviside K d = / 2 * (1 + tanh (K / 2 * (1 - d))).
Proof.
  intros K d. unfold heaviside, tanh, sinh, cosh. set (x := K / 2 * (1 - d)).
  replace (- K * (1 - d)) with (- x + - x) by (unfold x; field). rewrite exp_plus, exp_Ropp.
  pose proof (exp_pos x) as E. field. repeat split; nra.
Qed.
(** far from the node the function is small: for every bound there is a distance *)
Lemma heaviside_small : forall K d, 0 < K -> 1 < d -> heaviside K d < / (1 + K * (d - 1)).
Proof.
  intros K d HK H. unfold heaviside, Rdiv. rewrite Rmult_1_l.
  assert (P : 0 < K * (d - 1)) by (apply Rmult_lt_0_compat; lra).
  pose proof (exp_ineq1 (K * (d - 1)) ltac:(lra)) as E. replace (- K * (1 - d)) with (K * (d - 1)) by ring.
  apply Rinv_lt_contravar; [apply Rmult_lt_0_compat; lra|lra].
Qed.

Lemma dsigmoid_0 : dsigmoid 0 = 1.
Proof. unfold dsigmoid. replace (-10 * 0) with 0 by ring. rewrite exp_0. field. Qed.
Lemma sig_diff : forall e f, 0 < e -> e < f -> f <= 1 -> 4 * (e / (1 + e) ^ 2) < 4 * (f / (1 + f) ^ 2).
Proof.
  intros e f He Hf H1. apply Rmult_lt_compat_l; [lra|].
  assert (P : 0 < (1 + e) ^ 2) by nra. assert (Q : 0 < (1 + f) ^ 2) by nra.
  apply Rmult_lt_reg_r with ((1 + e) ^ 2 * (1 + f) ^ 2); [apply Rmult_lt_0_compat; assumption|].
  replace (e / (1 + e) ^ 2 * ((1 + e) ^ 2 * (1 + f) ^ 2)) with (e * (1 + f) ^ 2) by (field; lra).
  replace (f / (1 + f) ^ 2 * ((1 + e) ^ 2 * (1 + f) ^ 2)) with (f * (1 + e) ^ 2) by (field; lra).
  assert (0 < (f - e) * (1 - e * f)) by (apply Rmult_lt_0_compat; nra). nra.
Qed.
Lemma dsigmoid_decreasing : forall a b, 0 <= a -> a < b -> dsigmoid b < dsigmoid a.
Proof.
  intros a b Ha H. unfold dsigmoid. apply sig_diff; [apply exp_pos|apply exp_increasing; lra|].
  rewrite <- exp_0. destruct Ha as [Ha|<-]; [left; apply exp_increasing; lra|right; f_equal; ring].
Qed.
Lemma dsigmoid_pos : forall d, 0 < dsigmoid d.
Proof.
  intros d. unfold dsigmoid. pose proof (exp_pos (-10 * d)). assert (0 < (1 + exp (-10 * d)) ^ 2) by nra.
  apply Rmult_lt_0_compat; [lra|]. apply Rdiv_lt_0_compat; assumption.
Qed.
Lemma dsigmoid_le : forall d, 0 <= d -> dsigmoid d <= 1.
Proof.
  intros d [H| <-]; [|rewrite dsigmoid_0; lra]. rewrite <- dsigmoid_0. left. apply dsigmoid_decreasing; lra.
Qed.

Lemma wendland_0 : wendland 0 = 1.
Proof. unfold wendland. destruct (Rlt_dec 1 0); [lra|ring]. Qed.
Lemma wendland_out : forall d, 1 <= d -> wendland d = 0.
Proof. intros d H. unfold wendland. destruct (Rlt_dec 1 d); [reflexivity|]. replace d with 1 by lra. ring. Qed.
Lemma wend_diff : forall s t, 0 <= t -> t < s -> s <= 1 -> t ^ 4 * (5 - 4 * t) < s ^ 4 * (5 - 4 * s).
Proof.
  intros s t Ht Hs H1. apply Rminus_gt_0_lt.
  replace (s ^ 4 * (5 - 4 * s) - t ^ 4 * (5 - 4 * t)) with
    ((s - t) * (5 * (s ^ 3 + s * s * t + s * (t * t) + t ^ 3) - 4 * (s ^ 4 + s ^ 3 * t + (s * s) * (t * t) + s * t ^ 3 + t ^ 4))) by ring.
  apply Rmult_lt_0_compat; [lra|].
  assert (0 < s ^ 3) by (apply pow_lt; lra). assert (0 <= t ^ 3) by (apply pow_le; exact Ht).
  assert (0 <= s * s * t) by nra. assert (0 <= s * (t * t)) by nra.
  assert (s ^ 4 <= s ^ 3) by (replace (s ^ 4) with (s ^ 3 * s) by ring; nra).
  assert (s ^ 3 * t <= s * s * t) by (replace (s ^ 3 * t) with (s * s * t * s) by ring; nra).
  assert (s * s * (t * t) <= s * (t * t)) by (replace (s * s * (t * t)) with (s * (t * t) * s) by ring; nra).
  assert (s * t ^ 3 <= t ^ 3) by nra.
  assert (t ^ 4 <= t ^ 3) by (replace (t ^ 4) with (t ^ 3 * t) by ring; nra).
  assert (t ^ 3 <= s * (t * t)) by (replace (t ^ 3) with (t * (t * t)) by ring; nra).
  assert (s * (t * t) <= s * s * t) by (replace (s * (t * t)) with (s * t * t) by ring; nra).
  assert (s * s * t < s ^ 3) by (replace (s ^ 3) with (s * s * s) by ring; nra). lra.
Qed.
Lemma wendland_decreasing : forall a b, 0 <= a -> a < b -> b <= 1 -> wendland b < wendland a.
Proof.
  intros a b Ha H Hb. unfold wendland. destruct (Rlt_dec 1 b); [lra|]. destruct (Rlt_dec 1 a); [lra|].
  replace (4 * b + 1) with (5 - 4 * (1 - b)) by ring. replace (4 * a + 1) with (5 - 4 * (1 - a)) by ring. apply wend_diff; lra.
Qed.
Lemma wendland_range : forall d, 0 <= d -> 0 <= wendland d <= 1.
Proof.
  intros d H. destruct (Rle_dec d 1) as [L|L]; [|rewrite wendland_out; lra]. split.
  - destruct L as [L| ->]; [|rewrite wendland_out; lra]. pose proof (wendland_decreasing d 1 H L (Rle_refl 1)) as K. rewrite (wendland_out 1) in K; lra.
  - destruct H as [H| <-]; [|rewrite wendland_0; lra]. pose proof (wendland_decreasing 0 d (Rle_refl 0) H L) as K. rewrite wendland_0 in K. lra.
Qed.
