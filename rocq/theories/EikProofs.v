(** Proofs about the distances on a surface. *)
From Coq Require Import Reals List Arith Bool ZArith Lia Lra Permutation.
From Verif Require Import Vec SkdDistProofs SeedsProofs Eik EikSpec.
Import ListNotations.
Open Scope R_scope.

Lemma apart_norm : forall p q, apart p q = norm (vsub p q).
Proof. intros p q. reflexivity. Qed.
Lemma carried_way : forall u w v pu pw t, carried 1 u w v pu pw t = way u w v pu pw t.
Proof.
  intros u w v pu pw t. unfold carried, way. rewrite Rmult_1_l. f_equal; [ring|]. rewrite apart_norm. f_equal. f_equal.
  unfold vadd, vscale, along. destruct u, w. cbn. f_equal; ring.
Qed.
Lemma way_0 : forall u w v pu pw, way u w v pu pw 0 = pu + norm (vsub v u).
Proof. intros u w v pu pw. unfold way. rewrite apart_norm. replace (along u w 0) with u by (unfold along; destruct u, w; cbn; f_equal; ring). ring. Qed.
Lemma way_1 : forall u w v pu pw, way u w v pu pw 1 = pw + norm (vsub v w).
Proof. intros u w v pu pw. unfold way. rewrite apart_norm. replace (along u w 1) with w by (unfold along; destruct u, w; cbn; f_equal; ring). ring. Qed.

Lemma clamp_in : forall t, 0 <= clamp t <= 1.
Proof. intros t. unfold clamp, Rmin, Rmax. repeat destruct (Rle_dec _ _); lra. Qed.

(** ** The length of the way as a function of the point *)
Section Way.
  Variables u w v : vec.
  Variables pu pw : R.
  Notation E := (vsub w u).
  Notation D := (vsub v u).
  Notation a := (dot E E).
  Notation b := (- dot E D).
  Notation c := (dot D D).
  Notation K := (pw - pu).
  Notation h := (way u w v pu pw).

  Lemma area_gram : area4 u w v = a * c - b * b.
  Proof. unfold area4, dot, vsub. destruct u, w, v. cbn. ring. Qed.
  Lemma q_along : forall t, dot (vsub v (along u w t)) (vsub v (along u w t)) = a * t * t + 2 * b * t + c.
  Proof. intros t. unfold along, dot, vsub. destruct u, w, v. cbn. ring. Qed.
  Lemma way_q : forall t, h t = pu + t * K + norm (vsub v (along u w t)).
  Proof. reflexivity. Qed.
  (** The norm along the edge is convex. *)
  Lemma along_mid : forall s t l, 0 <= l <= 1 ->
    norm (vsub v (along u w ((1 - l) * s + l * t))) <= (1 - l) * norm (vsub v (along u w s)) + l * norm (vsub v (along u w t)).
  Proof.
    intros s t l L. set (p := vsub v (along u w s)). set (q := vsub v (along u w t)).
    pose proof (norm_ge p) as P. pose proof (norm_ge q) as Q. apply norm_le_sq; [nra|].
    replace (vsub v (along u w ((1 - l) * s + l * t))) with (vadd (vscale (1 - l) p) (vscale l q))
      by (unfold p, q, along, vadd, vscale, vsub; destruct u, w, v; cbn; f_equal; ring).
    replace (dot (vadd (vscale (1 - l) p) (vscale l q)) (vadd (vscale (1 - l) p) (vscale l q))) with ((1 - l) * (1 - l) * dot p p + 2 * ((1 - l) * l) * dot p q + l * l * dot q q)
      by (unfold dot, vadd, vscale; destruct p, q; cbn; ring).
    rewrite <- (norm_sq p), <- (norm_sq q). pose proof (schwarz p q) as Sc. pose proof (Rle_abs (dot p q)). assert (0 <= (1 - l) * l) by nra. nra.
  Qed.
  Lemma way_mid : forall s t l, 0 <= l <= 1 -> h ((1 - l) * s + l * t) <= (1 - l) * h s + l * h t.
  Proof. intros s t l L. rewrite !way_q. pose proof (along_mid s t l L). nra. Qed.
  (** A minimum on the line gives one on the edge. *)
  Lemma clamp_best : forall t0, (forall t, h t0 <= h t) -> forall t, 0 <= t <= 1 -> h (clamp t0) <= h t.
  Proof.
    intros t0 M t T. unfold clamp, Rmax. destruct (Rle_dec 0 t0) as [A|A].
    - unfold Rmin. destruct (Rle_dec 1 t0) as [B|B]; [|apply M].
      destruct (Req_dec t0 t) as [->|N]; [replace t with 1 by lra; lra|].
      assert (L : 0 <= (1 - t) / (t0 - t) <= 1).
      { assert (0 < t0 - t) by lra. split; [apply Rmult_le_pos; [lra|left; apply Rinv_0_lt_compat; lra]|]. apply (Rmult_le_reg_r (t0 - t)); [lra|]. unfold Rdiv. rewrite Rmult_assoc, Rinv_l by lra. lra. }
      pose proof (way_mid t t0 _ L) as W. replace ((1 - (1 - t) / (t0 - t)) * t + (1 - t) / (t0 - t) * t0) with 1 in W by (field; lra).
      pose proof (M t). nra.
    - rewrite Rmin_right by lra. assert (L : 0 <= - t0 / (t - t0) <= 1).
      { assert (0 < t - t0) by lra. split; [apply Rmult_le_pos; [lra|left; apply Rinv_0_lt_compat; lra]|]. apply (Rmult_le_reg_r (t - t0)); [lra|]. unfold Rdiv. rewrite Rmult_assoc, Rinv_l by lra. lra. }
      pose proof (way_mid t0 t _ L) as W. replace ((1 - - t0 / (t - t0)) * t0 + - t0 / (t - t0) * t) with 0 in W by (field; lra).
      pose proof (M t). nra.
  Qed.
  (** The stationary point. *)
  Lemma stationary : K * K < a -> 0 < area4 u w v ->
    let kap := sqrt (a - K * K) in let del := sqrt (area4 u w v) in
    forall t, h (- b / a - K * del / (a * kap)) <= h t.
  Proof.
    intros HK HA kap del t. rewrite area_gram in HA.
    assert (KP : 0 < kap) by (apply sqrt_lt_R0; lra). assert (K2 : kap * kap = a - K * K) by (apply sqrt_sqrt; lra).
    assert (DP : 0 < del) by (unfold del; rewrite area_gram; apply sqrt_lt_R0; lra). assert (D2 : del * del = a * c - b * b) by (unfold del; rewrite area_gram; apply sqrt_sqrt; lra).
    assert (AP : 0 < a) by (pose proof (Rle_0_sqr K) as SQ; unfold Rsqr in SQ; lra).
    set (t0 := - b / a - K * del / (a * kap)). 
    assert (R0 : a * t0 + b = - K * (del / kap)) by (unfold t0; field; split; lra).
    assert (Q0 : a * t0 * t0 + 2 * b * t0 + c = (del / kap) * (del / kap)).
    { apply (Rmult_eq_reg_l a); [|lra]. replace (a * (a * t0 * t0 + 2 * b * t0 + c)) with ((a * t0 + b) * (a * t0 + b) + (a * c - b * b)) by ring. rewrite R0, <- D2.
      apply (Rmult_eq_reg_r (kap * kap)); [|nra]. transitivity (del * del * (K * K + kap * kap)); [field; lra|]. replace (K * K + kap * kap) with a by lra. field. lra. }
    assert (Z0 : 0 < del / kap) by (apply Rdiv_lt_0_compat; assumption).
    rewrite !way_q. set (n0 := norm (vsub v (along u w t0))). set (n := norm (vsub v (along u w t))).
    assert (N0 : n0 = del / kap). { unfold n0, norm. rewrite q_along, Q0. apply sqrt_square. lra. }
    pose proof (norm_ge (vsub v (along u w t))) as N. fold n in N. pose proof (norm_sq (vsub v (along u w t))) as N2. fold n in N2. rewrite q_along in N2.
    assert (I : (del / kap - K * (t - t0)) * (del / kap - K * (t - t0)) <= n * n).
    { rewrite N2. replace (a * t * t + 2 * b * t + c) with ((a * t0 * t0 + 2 * b * t0 + c) + 2 * (a * t0 + b) * (t - t0) + a * (t - t0) * (t - t0)) by ring.
      rewrite Q0, R0. assert (0 <= (a - K * K) * ((t - t0) * (t - t0))) by (apply Rmult_le_pos; [lra|apply Rle_0_sqr]). lra. }
    rewrite N0. assert (del / kap - K * (t - t0) <= n); [|lra].
    destruct (Rle_dec (del / kap - K * (t - t0)) 0); [lra|]. apply Rnot_lt_le. intros X. nra.
  Qed.
  (** With a steep difference of the values an end of the edge is best. *)
  Lemma steep : a <= K * K -> forall t, 0 <= t <= 1 -> Rmin (h 0) (h 1) <= h t.
  Proof.
    intros HK t T. set (r := norm E). assert (R2 : r * r = a) by apply norm_sq. pose proof (norm_ge E) as RP. fold r in RP.
    assert (L : forall s, norm (vsub v (along u w s)) <= norm (vsub v (along u w t)) + Rabs (t - s) * r).
    { intros s. eapply Rle_trans; [apply (norm_triangle v (along u w t))|]. apply Rplus_le_compat_l. apply norm_le_sq; [apply Rmult_le_pos; [apply Rabs_pos|assumption]|].
      replace (Rabs (t - s) * r * (Rabs (t - s) * r)) with (Rabs (t - s) * Rabs (t - s) * (r * r)) by ring. rewrite <- Rabs_mult, R2, Rabs_right by (apply Rle_ge, Rle_0_sqr).
      right. unfold along, dot, vsub. destruct u, w, v. cbn. ring. }
    destruct (Rle_dec 0 K) as [S|S].
    - eapply Rle_trans; [apply Rmin_l|]. rewrite !way_q. pose proof (L 0) as L0. rewrite Rabs_right in L0 by lra. assert (r <= K) by (apply Rnot_lt_le; intros X; nra). nra.
    - eapply Rle_trans; [apply Rmin_r|]. rewrite !way_q. pose proof (L 1) as L0. rewrite Rabs_left1 in L0 by lra. assert (r <= - K) by (apply Rnot_lt_le; intros X; nra). nra.
  Qed.
End Way.

(** ** The case of two dead nodes *)
Definition core (a b c K : R) (h : R -> R) (ends : R) : option R :=
  let A := a * (K * K - a) in
  let B := b * (K * K - a) in
  let C := K * K * c - b * b in
  let discr := B * B - A * C in
  let kind := ((if Rlt_dec discr (- tolA) then 1 else 0) + (if Rgt_dec (Rabs A) tolA then 2 else 0)
               + (if Rlt_dec (Rabs A) tolA then 3 else 0))%nat in
  match kind with
  | 2%nat => Some (Rmin (h (clamp ((- B - sqrt (Rabs discr)) / A))) (h (clamp ((- B + sqrt (Rabs discr)) / A))))
  | 3%nat => Some ends
  | _ => None
  end.

Lemma tol_pos : 0 < tolA.
Proof. unfold tolA. apply Rinv_0_lt_compat. lra. Qed.
Lemma discr_eq : forall a b c K, b * (K * K - a) * (b * (K * K - a)) - a * (K * K - a) * (K * K * c - b * b) = K * K * ((a - K * K) * (a * c - b * b)).
Proof. intros. ring. Qed.

Lemma two_core : forall u w v pu pw, u <> w -> u <> v ->
  two_dead 1 u w v pu pw = core (dot (vsub w u) (vsub w u)) (- dot (vsub w u) (vsub v u)) (dot (vsub v u) (vsub v u)) (pw - pu) (way u w v pu pw) (Rmin (way u w v pu pw 0) (way u w v pu pw 1)).
Proof.
  intros u w v pu pw N1 N2. rewrite <- (norm_sq (vsub w u)), <- (norm_sq (vsub v u)).
  assert (nz : forall p, u <> p -> norm (vsub p u) <> 0) by (intros p H X; apply H; symmetry; apply norm_zero_eq; lra).
  replace (- dot (vsub w u) (vsub v u)) with (- norm (vsub w u) * norm (vsub v u) * dot (vscale (/ norm (vsub w u)) (vsub w u)) (vscale (/ norm (vsub v u)) (vsub v u))).
  2:{ pose proof (nz w N1) as A. pose proof (nz v N2) as B. set (m := norm (vsub w u)) in *. set (n := norm (vsub v u)) in *.
      replace (dot (vscale (/ m) (vsub w u)) (vscale (/ n) (vsub v u))) with (/ m * / n * dot (vsub w u) (vsub v u)) by (unfold dot, vscale; cbn; ring). field. split; assumption. }
  rewrite way_0, way_1. unfold two_dead, core. rewrite !carried_way, !Rmult_1_l. reflexivity.
Qed.

Lemma min_either : forall x y (P : R -> Prop), P x -> P y -> P (Rmin x y).
Proof. intros x y P A B. unfold Rmin. destruct (Rle_dec x y); assumption. Qed.

Lemma two_within : forall u w v pu pw r, u <> w -> u <> v -> two_dead 1 u w v pu pw = Some r -> exists t, 0 <= t <= 1 /\ r = way u w v pu pw t.
Proof.
  intros u w v pu pw r N1 N2. rewrite two_core by assumption. unfold core. cbv zeta.
  destruct (_ + _ + _)%nat as [|[|[|[|n]]]]; try discriminate; intros [= <-].
  - apply (min_either _ _ (fun r => exists t, 0 <= t <= 1 /\ r = way u w v pu pw t)); eexists; (split; [apply clamp_in|reflexivity]).
  - apply (min_either _ _ (fun r => exists t, 0 <= t <= 1 /\ r = way u w v pu pw t)); eexists; (split; [|reflexivity]); lra.
Qed.

Lemma apart_from_area : forall u w v, 0 < area4 u w v -> u <> w /\ u <> v.
Proof.
  intros u w v H. split; intros X; subst; unfold area4, vsub in H; [destruct w, v|destruct w, v]; cbn in H; ring_simplify in H; lra.
Qed.

Lemma two_best : forall u w v pu pw, 0 < area4 u w v -> (pw - pu) * (pw - pu) < dot (vsub w u) (vsub w u) ->
  tolA < dot (vsub w u) (vsub w u) * (dot (vsub w u) (vsub w u) - (pw - pu) * (pw - pu)) ->
  exists r, two_dead 1 u w v pu pw = Some r /\ forall t, 0 <= t <= 1 -> r <= way u w v pu pw t.
Proof.
  intros u w v pu pw HA HK HT. destruct (apart_from_area _ _ _ HA) as [N1 N2]. rewrite two_core by assumption. pose proof (stationary u w v pu pw HK HA) as ST. cbv zeta in ST.
  pose proof HA as HG. rewrite area_gram in HG. rewrite area_gram in ST. pose proof tol_pos as TP.
  set (a := dot (vsub w u) (vsub w u)) in *. set (b := - dot (vsub w u) (vsub v u)) in *. set (c := dot (vsub v u) (vsub v u)) in *. set (K := pw - pu) in *.
  set (kap := sqrt (a - K * K)) in *. set (del := sqrt (a * c - b * b)) in *.
  assert (KP : 0 < kap) by (apply sqrt_lt_R0; lra). assert (K2 : kap * kap = a - K * K) by (apply sqrt_sqrt; lra).
  assert (DP : 0 < del) by (apply sqrt_lt_R0; lra). assert (D2 : del * del = a * c - b * b) by (apply sqrt_sqrt; lra).
  assert (AP : 0 < a) by (pose proof (Rle_0_sqr K) as SQ; unfold Rsqr in SQ; lra).
  unfold core. rewrite discr_eq, <- K2, <- D2. replace (K * K * (kap * kap * (del * del))) with ((Rabs K * kap * del) * (Rabs K * kap * del)).
  2:{ replace (Rabs K * kap * del * (Rabs K * kap * del)) with (Rabs K * Rabs K * (kap * kap * (del * del))) by ring. rewrite <- Rabs_mult, (Rabs_right (K * K)) by (apply Rle_ge, Rle_0_sqr). reflexivity. }
  set (sd := Rabs K * kap * del). assert (SP : 0 <= sd) by (unfold sd; apply Rmult_le_pos; [apply Rmult_le_pos; [apply Rabs_pos|lra]|lra]).
  rewrite (Rabs_right (sd * sd)) by nra. rewrite sqrt_square by assumption.
  replace (K * K - a) with (- (kap * kap)) by lra. rewrite (Rabs_left (a * - (kap * kap))) by nra.
  destruct (Rlt_dec (sd * sd) (- tolA)) as [X|X]; [exfalso; nra|]. destruct (Rgt_dec (- (a * - (kap * kap))) tolA) as [Y|Y]; [|exfalso; rewrite K2 in Y; apply Y; lra].
  destruct (Rlt_dec (- (a * - (kap * kap))) tolA) as [Z|Z]; [exfalso; lra|]. cbn [Nat.add]. eexists. split; [reflexivity|]. intros t T.
  pose proof (clamp_best u w v pu pw _ ST t T) as CB. unfold sd. destruct (Rle_dec 0 K) as [S|S].
  - eapply Rle_trans; [apply Rmin_r|]. rewrite (Rabs_right K) by lra. replace ((- (b * - (kap * kap)) + K * kap * del) / (a * - (kap * kap))) with (- b / a - K * del / (a * kap)); [assumption|]. field. split; lra.
  - eapply Rle_trans; [apply Rmin_l|]. rewrite (Rabs_left K) by lra. replace ((- (b * - (kap * kap)) - - K * kap * del) / (a * - (kap * kap))) with (- b / a - K * del / (a * kap)); [assumption|]. field. split; lra.
Qed.

Lemma two_steep : forall u w v pu pw, 0 < area4 u w v -> dot (vsub w u) (vsub w u) < (pw - pu) * (pw - pu) ->
  tolA < dot (vsub w u) (vsub w u) * ((pw - pu) * (pw - pu) - dot (vsub w u) (vsub w u)) ->
  tolA < (pw - pu) * (pw - pu) * ((pw - pu) * (pw - pu) - dot (vsub w u) (vsub w u)) * area4 u w v ->
  exists r, two_dead 1 u w v pu pw = Some r /\ forall t, 0 <= t <= 1 -> r <= way u w v pu pw t.
Proof.
  intros u w v pu pw HA HK HT HD. destruct (apart_from_area _ _ _ HA) as [N1 N2]. rewrite two_core by assumption. pose proof (steep u w v pu pw (Rlt_le _ _ HK)) as ST. rewrite area_gram in HD.
  pose proof tol_pos as TP. unfold core. rewrite discr_eq.
  set (a := dot (vsub w u) (vsub w u)) in *. set (b := - dot (vsub w u) (vsub v u)) in *. set (c := dot (vsub v u) (vsub v u)) in *. set (K := pw - pu) in *.
  destruct (Rlt_dec (K * K * ((a - K * K) * (a * c - b * b))) (- tolA)) as [X|X]; [|exfalso; apply X; lra].
  rewrite (Rabs_right (a * (K * K - a))) by lra. destruct (Rgt_dec (a * (K * K - a)) tolA) as [Y|Y]; [|lra]. destruct (Rlt_dec (a * (K * K - a)) tolA) as [Z|Z]; [lra|].
  cbn [Nat.add]. eexists. split; [reflexivity|]. exact ST.
Qed.

(** ** The minimum over the ring *)
Lemma omin_r : forall a b, olt b (omin a b) = false.
Proof. intros [a|] [b|]; unfold omin; cbn; try reflexivity; repeat (destruct (Rlt_dec _ _); cbn; try reflexivity); try lra. Qed.
Lemma omin_l : forall a b, olt a (omin a b) = false.
Proof. intros [a|] [b|]; unfold omin; cbn; try reflexivity; repeat (destruct (Rlt_dec _ _); cbn; try reflexivity); try lra. Qed.
Lemma omin_either : forall a b, omin a b = a \/ omin a b = b.
Proof. intros a b. unfold omin. destruct (olt b a); auto. Qed.
Lemma olt_trans_f : forall a b c, olt a b = false -> olt b c = false -> olt a c = false.
Proof. intros [a|] [b|] [c|]; cbn; try reflexivity; try discriminate; repeat (destruct (Rlt_dec _ _); try reflexivity; try discriminate); lra. Qed.
Lemma olt_some : forall y k, olt (Some y) k = false -> exists r, k = Some r /\ r <= y.
Proof. intros y [r|]; cbn; [|discriminate]. destruct (Rlt_dec y r); [discriminate|]. intros _. exists r. split; [reflexivity|lra]. Qed.

Section Cells.
  Variables (g : R) (x : Z -> vec) (f : Z -> option R) (fl : Z -> nat) (v : Z).
  Definition cand (p : Z * Z) : option R :=
    match fl (fst p), fl (snd p) with
    | O, O => from_two g (x (fst p)) (x (snd p)) (x v) (f (fst p)) (f (snd p))
    | O, _ => oplus (oabs (f (fst p))) (g * norm (vsub (x v) (x (fst p))))
    | _, O => oplus (oabs (f (snd p))) (g * norm (vsub (x v) (x (snd p))))
    | _, _ => None
    end.
  Lemma one_cand : forall o p, one_cell g x f fl v o p = omin o (cand p).
  Proof. intros o [U W]. unfold one_cell, cand. cbn [fst snd]. destruct (fl U), (fl W); try reflexivity. Qed.
  Lemma cells_le : forall l o, olt o (fold_left (one_cell g x f fl v) l o) = false /\ (forall p, In p l -> olt (cand p) (fold_left (one_cell g x f fl v) l o) = false).
  Proof.
    induction l as [|q l IH]; cbn; intros o.
    - split; [|intros p []]. destruct o; cbn; [destruct (Rlt_dec r r); [lra|reflexivity]|reflexivity].
    - rewrite one_cand. destruct (IH (omin o (cand q))) as [A B]. split; [apply (olt_trans_f _ _ _ (omin_l o (cand q)) A)|].
      intros p [<- | H]; [apply (olt_trans_f _ _ _ (omin_r o (cand q)) A)|apply B, H].
  Qed.
  Lemma cells_in : forall l o, fold_left (one_cell g x f fl v) l o = o \/ exists p, In p l /\ fold_left (one_cell g x f fl v) l o = cand p.
  Proof.
    induction l as [|q l IH]; cbn; intros o; [auto|]. rewrite one_cand. destruct (IH (omin o (cand q))) as [A|(p & A & B)]; [|right; exists p; auto].
    rewrite A. destruct (omin_either o (cand q)) as [E|E]; rewrite E; [auto|right; exists q; auto].
  Qed.
End Cells.

Lemma others_corner : forall v u w t, In (u, w) (others v t) -> corner t v u w.
Proof.
  intros v u w [[p q] r] H. unfold others in H. unfold corner.
  destruct (Z.eqb_spec p v) as [E|_]; [destruct H as [H|[]]; left; congruence|].
  destruct (Z.eqb_spec q v) as [E|_]; [destruct H as [H|[]]; right; left; congruence|].
  destruct (Z.eqb_spec r v) as [E|_]; [destruct H as [H|[]]; right; right; congruence|destruct H].
Qed.
Lemma corner_others : forall v u w t, proper t -> corner t v u w -> In (u, w) (others v t).
Proof.
  intros v u w t P [-> | [-> | ->]]; cbn in P; unfold others.
  - rewrite Z.eqb_refl. left; reflexivity.
  - destruct (Z.eqb_spec w v); [lia|]. rewrite Z.eqb_refl. left; reflexivity.
  - destruct (Z.eqb_spec u v); [lia|]. destruct (Z.eqb_spec w v); [lia|]. rewrite Z.eqb_refl. left; reflexivity.
Qed.
Lemma ring_corner : forall ts v u w, In (u, w) (ring ts v) -> exists t, In t ts /\ corner t v u w.
Proof. intros ts v u w H. apply in_flat_map in H as (t & A & B). exists t. split; [assumption|]. apply others_corner, B. Qed.
Lemma corner_ring : forall ts v u w t, In t ts -> proper t -> corner t v u w -> In (u, w) (ring ts v).
Proof. intros ts v u w t A P C. apply in_flat_map. exists t. split; [assumption|]. apply corner_others; assumption. Qed.
Lemma neighs_corner : forall ts v w, In w (neighs ts v) -> w <> v /\ exists t z, In t ts /\ (corner t v w z \/ corner t v z w).
Proof.
  intros ts v w H. apply filter_In in H as [H N]. apply nodup_In in H. apply in_flat_map in H as ([u z] & A & B). destruct (ring_corner _ _ _ _ A) as (t & T & C).
  split; [destruct (Z.eqb_spec w v); [discriminate|assumption]|]. exists t. cbn in B. destruct B as [<- | [<- | []]]; eauto.
Qed.
Lemma corner_neighs : forall ts v w t z, In t ts -> proper t -> corner t v w z \/ corner t v z w -> In w (neighs ts v).
Proof.
  intros ts v w t z A P C. apply filter_In. split.
  - apply nodup_In, in_flat_map. destruct C as [C|C]; eexists; (split; [eapply corner_ring; eassumption|cbn; auto]).
  - destruct (Z.eqb_spec w v) as [->|]; [|reflexivity]. destruct C as [[-> | [-> | ->]]|[-> | [-> | ->]]]; cbn in P; lia.
Qed.
Lemma corner_turn : forall t v w z, corner t v w z -> corner t w z v /\ corner t z v w.
Proof. intros t v w z [-> | [-> | ->]]; unfold corner; auto. Qed.
Lemma neighs_sym : forall ts v w, (forall t, In t ts -> proper t) -> In w (neighs ts v) -> In v (neighs ts w).
Proof.
  intros ts v w P H. destruct (neighs_corner _ _ _ H) as (_ & t & z & T & C). apply (corner_neighs ts w v t z T (P t T)).
  destruct C as [C|C]; destruct (corner_turn _ _ _ _ C); auto.
Qed.

(** ** The marching: marks *)
Lemma set_eq : forall (A : Type) (m : Z -> A) k y, set m k y k = y.
Proof. intros. unfold set. rewrite Z.eqb_refl. reflexivity. Qed.
Lemma set_ne : forall (A : Type) (m : Z -> A) k y z, z <> k -> set m k y z = m z.
Proof. intros A m k y z N. unfold set. destruct (Z.eqb_spec z k); [contradiction|reflexivity]. Qed.

Lemma existsb_in : forall w L, existsb (Z.eqb w) L = true <-> In w L.
Proof. intros w L. rewrite existsb_exists. split; [intros (y & A & B); apply Z.eqb_eq in B; subst; assumption|]. intros H. exists w. split; [assumption|apply Z.eqb_refl]. Qed.

Section March.
  Variables (g : R) (ts : list tri) (x : Z -> vec).
  Notation tch := (touch g 1 ts x).

  Definition mark_ok (st : state) : Prop :=
    NoDup (map snd (heap st)) /\ (forall v, act st v = 1%nat <-> In v (map snd (heap st))) /\ forall v, (act st v <= 2)%nat.

  Lemma touch_fld : forall st J, fld (tch st J) = fld st.
  Proof. intros st J. unfold touch. destruct (act st J) as [|[|[|n]]]; reflexivity. Qed.
  Lemma touch_act : forall st J w, act (tch st J) w = if Z.eqb w J then (if Nat.eqb (act st w) 2 then 1%nat else act st w) else act st w.
  Proof.
    intros st J w. unfold touch. destruct (Z.eqb_spec w J) as [->|N].
    - destruct (act st J) as [|[|[|n]]] eqn:E; cbn; rewrite ?E; try reflexivity. apply set_eq.
    - destruct (act st J) as [|[|[|n]]]; cbn; try reflexivity. apply set_ne, N.
  Qed.
  Lemma touch_snd : forall st J, map snd (heap (tch st J)) = if Nat.eqb (act st J) 2 then J :: map snd (heap st) else map snd (heap st).
  Proof.
    intros st J. unfold touch. destruct (act st J) as [|[|[|n]]]; cbn; try reflexivity. rewrite map_map. apply map_ext. intros [k v]. cbn. destruct (Z.eqb_spec v J) as [->|]; reflexivity.
  Qed.
  Lemma touch_mark : forall st J, mark_ok st -> mark_ok (tch st J).
  Proof.
    intros st J (A & B & C). unfold mark_ok. rewrite touch_snd. split; [|split].
    - destruct (Nat.eqb_spec (act st J) 2) as [E|_]; [|assumption]. constructor; [|assumption]. intros X. apply B in X. lia.
    - intros v. rewrite touch_act. destruct (Z.eqb_spec v J) as [->|N].
      + destruct (Nat.eqb_spec (act st J) 2) as [E|N]; [|apply B]. split; [intros _; left; reflexivity|reflexivity].
      + rewrite B. destruct (Nat.eqb_spec (act st J) 2) as [E|_]; [|tauto]. cbn. split; [auto|]. intros [X|X]; [congruence|assumption].
    - intros v. rewrite touch_act. destruct (Z.eqb v J); [destruct (Nat.eqb (act st v) 2)|]; try lia; apply C.
  Qed.
  Lemma fold_mark : forall L st, mark_ok st -> mark_ok (fold_left tch L st).
  Proof. induction L as [|J L IH]; cbn; intros st H; [assumption|]. apply IH, touch_mark, H. Qed.
  Lemma fold_fld : forall L st, fld (fold_left tch L st) = fld st.
  Proof. induction L as [|J L IH]; cbn; intros st; [reflexivity|]. rewrite IH. apply touch_fld. Qed.
  Lemma fold_act : forall L st w, act (fold_left tch L st) w = if existsb (Z.eqb w) L then (if Nat.eqb (act st w) 2 then 1%nat else act st w) else act st w.
  Proof.
    induction L as [|J L IH]; cbn; intros st w; [reflexivity|]. rewrite IH, touch_act. destruct (Z.eqb w J); cbn; [|reflexivity].
    destruct (Nat.eqb_spec (act st w) 2) as [E|N]; destruct (existsb (Z.eqb w) L); try reflexivity. destruct (Nat.eqb_spec (act st w) 2); [contradiction|reflexivity].
  Qed.
  Lemma fold_snd : forall L st w, In w (map snd (heap (fold_left tch L st))) -> In w (map snd (heap st)) \/ In w L.
  Proof.
    induction L as [|J L IH]; cbn; intros st w H; [auto|]. apply IH in H as [H|H]; [|auto]. rewrite touch_snd in H. destruct (Nat.eqb (act st J) 2); [destruct H as [<- | H]; auto|auto].
  Qed.

  (** One turn. *)
  Lemma taken_mark : forall st k v l r, mark_ok st -> heap st = l ++ (k, v) :: r -> mark_ok (ST (set (fld st) v k) (set (act st) v 0%nat) (l ++ r)).
  Proof.
    intros st k v l r (A & B & C) E. rewrite E, map_app in A. cbn in A. apply NoDup_remove in A as [A1 A2]. rewrite <- map_app in A1, A2. split; [|split]; cbn.
    - assumption.
    - intros v0. split; intros H.
      + destruct (Z.eqb_spec v0 v) as [->|N]; [rewrite set_eq in H; discriminate|]. rewrite set_ne in H by assumption. apply B in H. rewrite E, map_app in H. cbn in H. rewrite map_app. apply in_app_or in H as [H|[H|H]]; [apply in_or_app; auto|congruence|apply in_or_app; auto].
      + destruct (Z.eqb_spec v0 v) as [->|N]; [contradiction|]. rewrite set_ne by assumption. apply B. rewrite E, map_app. cbn. rewrite map_app in H. apply in_app_or in H as [H|H]; apply in_or_app; cbn; auto.
    - intros v0. unfold set. destruct (Z.eqb v0 v); [lia|apply C].
  Qed.
  Lemma turn_facts : forall st st', mark_ok st -> turn g 1 ts x st st' ->
    exists k v, In (k, v) (heap st) /\ act st v = 1%nat /\ mark_ok st' /\ fld st' = set (fld st) v k /\ act st' v = O /\
      (forall w, w <> v -> act st' w = if existsb (Z.eqb w) (neighs ts v) then (if Nat.eqb (act st w) 2 then 1%nat else act st w) else act st w) /\
      (forall w, In w (map snd (heap st')) -> In w (map snd (heap st)) \/ In w (neighs ts v)).
  Proof.
    intros st st' MK T. destruct T as [l k v r E M]. exists k, v. pose proof (taken_mark _ _ _ _ _ MK E) as MK'. destruct MK as (A & B & C).
    assert (V : act st v = 1%nat). { apply B. rewrite E, map_app. apply in_or_app. right. left. reflexivity. }
    split; [rewrite E; apply in_or_app; right; left; reflexivity|]. split; [assumption|]. unfold settle. split; [apply fold_mark, MK'|].
    split; [apply fold_fld|]. split.
    { rewrite fold_act. cbn [act]. rewrite set_eq. destruct (existsb (Z.eqb v) (neighs ts v)); reflexivity. }
    split.
    - intros w N. rewrite fold_act. cbn [act]. rewrite set_ne by assumption. reflexivity.
    - intros w H. apply fold_snd in H as [H|H]; [|auto]. cbn in H. left. rewrite E, map_app. cbn. rewrite map_app in H. apply in_app_or in H as [H|H]; apply in_or_app; cbn; auto.
  Qed.
End March.

(** ** The marching: whole runs *)
Section Run.
  Variables (g : R) (ts : list tri) (x : Z -> vec) (verts deads : list Z).
  Hypothesis HP : forall t, In t ts -> proper t.
  Hypothesis HN : NoDup verts.
  Hypothesis HV : forall t v u w, In t ts -> corner t v u w -> In v verts.
  Notation st0 := (begin g 1 ts x verts deads).

  Definition inv (st : state) : Prop :=
    mark_ok st /\ (forall v w, act st v = O -> In w (neighs ts v) -> act st w <> 2%nat) /\
    (forall s, In s deads -> act st s = O) /\ (forall v, In v (map snd (heap st)) -> In v verts) /\
    (forall w, act st w <> 2%nat -> exists s, In s deads /\ joined ts s w) /\
    (forall w y, fld st w = Some y -> act st w = O).

  Lemma neighs_verts : forall v w, In w (neighs ts v) -> In w verts.
  Proof.
    intros v w H. destruct (neighs_corner _ _ _ H) as (_ & t & z & T & C). destruct C as [C|C]; destruct (corner_turn _ _ _ _ C); eapply HV; eassumption.
  Qed.
  Lemma known_given : forall w, known 1 (given deads w) = true <-> In w deads.
  Proof.
    intros w. unfold given. destruct (isDeadFront deads w) eqn:E.
    - apply existsb_in in E. cbn. destruct (Rle_dec 0 (1 * 0)); [tauto|lra].
    - cbn. split; [discriminate|]. intros H. apply existsb_in in H. unfold isDeadFront in E. congruence.
  Qed.
  Lemma flags_0 : forall v, flags 1 ts deads v = O <-> In v deads.
  Proof.
    intros v. unfold flags. destruct (isDeadFront deads v) eqn:E; [apply existsb_in in E; tauto|]. destruct (existsb _ _); split; try discriminate; intros H; apply existsb_in in H; unfold isDeadFront in E; congruence.
  Qed.
  Lemma flags_1 : forall v, flags 1 ts deads v = 1%nat -> exists s, In s deads /\ In s (neighs ts v).
  Proof.
    intros v. unfold flags. destruct (isDeadFront deads v); [discriminate|]. destruct (existsb _ _) eqn:E; [|discriminate]. intros _. apply existsb_exists in E as (s & A & B). apply known_given in B. eauto.
  Qed.
  Lemma flags_2 : forall v s, flags 1 ts deads v = 2%nat -> In s (neighs ts v) -> ~ In s deads.
  Proof.
    intros v s. unfold flags. destruct (isDeadFront deads v); [discriminate|]. destruct (existsb _ _) eqn:E; [discriminate|]. intros _ H D.
    assert (existsb (fun w => known 1 (given deads w)) (neighs ts v) = true) by (apply existsb_exists; exists s; split; [assumption|apply known_given, D]). congruence.
  Qed.
  Lemma flags_le : forall v, (flags 1 ts deads v <= 2)%nat.
  Proof. intros v. unfold flags. destruct (isDeadFront deads v); [lia|]. destruct (existsb _ _); lia. Qed.
  Lemma start_snd : map snd (heap st0) = filter (fun v => Nat.eqb (flags 1 ts deads v) 1) verts.
  Proof. cbn. rewrite map_map. cbn. apply map_id. Qed.
  Lemma side_joined : forall s v w, joined ts s v -> In w (neighs ts v) -> joined ts s w.
  Proof. intros s v w J H. destruct (neighs_corner _ _ _ H) as (_ & t & z & T & C). eapply J_side; eassumption. Qed.

  Lemma start_inv : inv st0.
  Proof.
    unfold inv, mark_ok. rewrite start_snd. split; [split; [|split]|split; [|split; [|split; [|split]]]].
    - apply NoDup_filter, HN.
    - intros v. cbn [act begin]. rewrite filter_In, Nat.eqb_eq. split; [|tauto]. intros H. split; [|assumption]. destruct (flags_1 v H) as (s & _ & B). apply (neighs_verts s v). apply neighs_sym; assumption.
    - intros v. apply flags_le.
    - cbn [act begin]. intros v w A B C. apply flags_0 in A. apply (flags_2 w v C); [apply neighs_sym; assumption|assumption].
    - intros s H. apply flags_0, H.
    - intros v H. apply filter_In in H. tauto.
    - cbn [act begin]. intros w H. pose proof (flags_le w). destruct (flags 1 ts deads w) as [|[|[|n]]] eqn:E; [|clear H|congruence|lia].
      + apply flags_0 in E. exists w. split; [assumption|constructor].
      + destruct (flags_1 w E) as (s & A & B). exists s. split; [assumption|]. apply (side_joined s s w); [constructor|]. apply neighs_sym; assumption.
    - cbn [fld act begin]. intros w y. unfold given, flags. destruct (isDeadFront deads w); [reflexivity|discriminate].
  Qed.
  Lemma turn_inv : forall st st', inv st -> turn g 1 ts x st st' -> inv st' /\ (forall w, act st w = O -> act st' w = O /\ fld st' w = fld st w).
  Proof.
    intros st st' (M & F & D & I & O1 & O2) T. destruct (turn_facts g ts x st st' M T) as (k & v & H & V & M' & FE & V' & W & HS).
    assert (IV : In v verts) by (apply I; apply (in_map snd) in H; exact H).
    assert (W2 : forall w, act st' w = 2%nat -> act st w = 2%nat /\ w <> v /\ ~ In w (neighs ts v)).
    { intros w E. assert (N : w <> v) by (intros ->; congruence). rewrite (W w N) in E. destruct (existsb (Z.eqb w) (neighs ts v)) eqn:X.
      - destruct (Nat.eqb_spec (act st w) 2); congruence.
      - repeat split; [assumption|assumption|]. intros Y. apply existsb_in in Y. congruence. }
    assert (W0 : forall w, act st' w = O -> w = v \/ act st w = O).
    { intros w E. destruct (Z.eq_dec w v) as [->|N]; [auto|]. right. rewrite (W w N) in E. destruct (existsb (Z.eqb w) (neighs ts v)); [|assumption]. destruct (Nat.eqb (act st w) 2); [discriminate|assumption]. }
    assert (Z0 : forall w, act st w = O -> w <> v /\ act st' w = O).
    { intros w E. assert (N : w <> v) by (intros ->; congruence). split; [assumption|]. rewrite (W w N), E. cbn. destruct (existsb _ _); reflexivity. }
    split; [split; [assumption|split; [|split; [|split; [|split]]]]|].
    - intros a b A B C. apply W2 in C as (C1 & C2 & C3). apply W0 in A as [->|A]; [contradiction|]. apply (F a b A B C1).
    - intros s S. apply Z0, D, S.
    - intros w H'. apply HS in H' as [H'|H']; [apply I, H'|apply (neighs_verts _ _ H')].
    - intros w N2. destruct (Z.eq_dec w v) as [->|N]; [apply O1; lia|]. destruct (Nat.eq_dec (act st w) 2) as [E|E]; [|apply O1, E].
      rewrite (W w N) in N2. destruct (existsb (Z.eqb w) (neighs ts v)) eqn:X; [|contradiction]. apply existsb_in in X. destruct (O1 v ltac:(lia)) as (s & S1 & S2). exists s. split; [assumption|]. apply (side_joined s v w S2 X).
    - intros w y E. rewrite FE in E. destruct (Z.eq_dec w v) as [->|N]; [assumption|]. rewrite set_ne in E by assumption. apply Z0, (O2 w y E).
    - intros w E. destruct (Z0 w E) as [N E']. split; [assumption|]. rewrite FE. apply set_ne, N.
  Qed.
  Lemma turns_inv : forall n st, turns g 1 ts x st0 n st -> inv st.
  Proof. intros n st T. induction T; [apply start_inv|]. apply (proj1 (turn_inv _ _ IHT H)). Qed.

  Definition ndead (st : state) : nat := length (filter (fun v => Nat.eqb (act st v) 0) verts).
  Lemma filter_more : forall (l : list Z) (p q : Z -> bool), (forall z, In z l -> p z = true -> q z = true) ->
    (length (filter p l) <= length (filter q l))%nat /\ forall v, In v l -> p v = false -> q v = true -> (S (length (filter p l)) <= length (filter q l))%nat.
  Proof.
    induction l as [|z l IH]; cbn; intros p q H; [split; [lia|intros v []]|]. destruct (IH p q (fun y Y => H y (or_intror Y))) as [A B]. split.
    - destruct (p z) eqn:E; [rewrite (H z (or_introl eq_refl) E); cbn; lia|]. destruct (q z); cbn; lia.
    - intros v [<- | V] P Q; [rewrite P, Q; cbn; lia|]. specialize (B v V P Q). destruct (p z) eqn:E; [rewrite (H z (or_introl eq_refl) E); cbn; lia|]. destruct (q z); cbn; lia.
  Qed.
  Lemma turn_more : forall st st', inv st -> turn g 1 ts x st st' -> (S (ndead st) <= ndead st')%nat.
  Proof.
    intros st st' I T. pose proof (proj2 (turn_inv st st' I T)) as K. destruct I as (M & F & D & I & O1 & O2). destruct (turn_facts g ts x st st' M T) as (k & v & H & V & M' & FE & V' & W & HS).
    unfold ndead. apply (proj2 (filter_more verts (fun v => Nat.eqb (act st v) 0) (fun v => Nat.eqb (act st' v) 0) ltac:(intros z _ E; apply Nat.eqb_eq in E; apply Nat.eqb_eq, K, E)) v).
    - apply I. apply (in_map snd) in H. exact H.
    - rewrite V. reflexivity.
    - rewrite V'. reflexivity.
  Qed.
  Lemma turns_count : forall n st, turns g 1 ts x st0 n st -> (n <= ndead st)%nat.
  Proof. intros n st T. induction T; [lia|]. pose proof (turn_more _ _ (turns_inv _ _ T) H). lia. Qed.
  Lemma ndead_le : forall st, (ndead st <= length verts)%nat.
  Proof. intros st. unfold ndead. induction verts as [|z l IH]; cbn; [lia|]. assert (NoDup l) by (inversion HN; assumption). destruct (Nat.eqb (act st z) 0); cbn; clear HN HV; [|]; (assert (length (filter (fun v => Nat.eqb (act st v) 0) l) <= length l)%nat by (clear; induction l as [|y l IH]; cbn; [lia|]; destruct (Nat.eqb (act st y) 0); cbn; lia); lia). Qed.
End Run.

Lemma olt_total : forall a b, olt a b = true -> olt b a = false.
Proof. intros [a|] [b|]; cbn; try discriminate; try reflexivity. destruct (Rlt_dec a b); [|discriminate]. destruct (Rlt_dec b a); [lra|reflexivity]. Qed.
Lemma smallest : forall h : list (option R * Z), h <> [] -> exists l k v r, h = l ++ (k, v) :: r /\ forall k' v', In (k', v') (l ++ r) -> olt k' k = false.
Proof.
  induction h as [|[k v] h IH]; [contradiction|]. intros _. destruct h as [|q h].
  - exists [], k, v, []. split; [reflexivity|intros k' v' []].
  - destruct IH as (l & k1 & v1 & r & E & M); [discriminate|]. destruct (olt k k1) eqn:C.
    + exists [], k, v, (q :: h). split; [reflexivity|]. cbn [app]. intros k' v' H. rewrite E in H. apply in_app_or in H. pose proof (olt_total _ _ C) as C'.
      assert (X : olt k' k1 = false \/ k' = k1). { destruct H as [H|[[= <- <-]|H]]; [left; apply (M k' v'), in_or_app; auto|right; reflexivity|left; apply (M k' v'), in_or_app; auto]. }
      destruct X as [X | ->]; [|assumption]. apply (olt_trans_f k' k1 k X C').
    + exists ((k, v) :: l), k1, v1, r. rewrite E. split; [reflexivity|]. cbn. intros k' v' [[= <- <-]|H]; [assumption|apply (M k' v' H)].
Qed.

(** ** Lower bound with one seed *)
Section Low.
  Variables (g : R) (ts : list tri) (x : Z -> vec) (x0 : vec).
  Hypothesis HX : forall t v u w, In t ts -> corner t v u w -> x v <> x u.
  Definition low (f : Z -> option R) : Prop := forall v y, f v = Some y -> norm (vsub (x v) x0) <= y.

  Lemma way_low : forall u w v pu pw t, 0 <= t <= 1 -> norm (vsub u x0) <= pu -> norm (vsub w x0) <= pw -> norm (vsub v x0) <= way u w v pu pw t.
  Proof.
    intros u w v pu pw t T A B. pose proof (along_mid u w x0 0 1 t T) as C. replace ((1 - t) * 0 + t * 1) with t in C by ring.
    replace (along u w 0) with u in C by (unfold along; destruct u, w; cbn; f_equal; ring). replace (along u w 1) with w in C by (unfold along; destruct u, w; cbn; f_equal; ring).
    rewrite (norm_sym x0 u), (norm_sym x0 w), (norm_sym x0) in C. unfold way. rewrite apart_norm. pose proof (norm_triangle v (along u w t) x0). nra.
  Qed.
  Lemma cand_low : forall f fl v u w r, low f -> In (u, w) (ring ts v) -> cand 1 x f fl v (u, w) = Some r -> norm (vsub (x v) x0) <= r.
  Proof.
    intros f fl v u w r L H. unfold cand. cbn [fst snd].
    assert (ab : forall z y, f z = Some y -> Rabs y = y /\ norm (vsub (x z) x0) <= y). { intros z y E. apply L in E. pose proof (norm_ge (vsub (x z) x0)). split; [apply Rabs_right; lra|assumption]. }
    assert (one : forall z r, oplus (oabs (f z)) (1 * norm (vsub (x v) (x z))) = Some r -> norm (vsub (x v) x0) <= r).
    { intros z r0. destruct (f z) as [y|] eqn:E; [|discriminate]. destruct (ab _ _ E) as [A1 A2]. cbn. rewrite A1. intros [= <-]. pose proof (norm_triangle (x v) (x z) x0). lra. }
    destruct (fl u), (fl w); intros E; try discriminate; try (eapply one; eassumption).
    unfold from_two in E. destruct (f u) as [pu|] eqn:EU; [|discriminate]. destruct (ab _ _ EU) as [A1 A2]. cbn in E. rewrite A1 in E.
    destruct (f w) as [pw|] eqn:EW; cbn in E.
    - destruct (ab _ _ EW) as [B1 B2]. rewrite B1 in E. destruct (ring_corner _ _ _ _ H) as (t & T & C). destruct (corner_turn _ _ _ _ C) as [C1 C2].
      apply two_within in E as (s & S1 & ->); [apply way_low; assumption|apply (HX _ _ _ _ T C1)|apply not_eq_sym, (HX _ _ _ _ T C)].
    - injection E as <-. pose proof (norm_triangle (x v) (x u) x0). lra.
  Qed.
  Lemma update_low : forall f fl v r, low f -> updateEikonal 1 ts x f fl v = Some r -> norm (vsub (x v) x0) <= r.
  Proof.
    intros f fl v r L. unfold updateEikonal. intros E. destruct (cells_in 1 x f fl v (ring ts v) (oabs (f v))) as [X|([u w] & A & B)].
    - rewrite X in E. destruct (f v) as [y|] eqn:F; [|discriminate]. cbn in E. injection E as <-. apply L in F. pose proof (norm_ge (vsub (x v) x0)). rewrite Rabs_right by lra. assumption.
    - rewrite B in E. apply (cand_low f fl v u w r L A E).
  Qed.
  Definition lowst (st : state) : Prop := low (fld st) /\ forall k v, In (Some k, v) (heap st) -> norm (vsub (x v) x0) <= k.
  Lemma touch_low : forall st J, lowst st -> lowst (touch g 1 ts x st J).
  Proof.
    intros st J [A B]. unfold lowst. rewrite touch_fld. split; [assumption|]. unfold touch. intros k v. destruct (act st J) as [|[|[|n]]]; cbn; try apply B.
    - intros H. apply in_map_iff in H as ([k' v'] & E & H). cbn in E. destruct (Z.eqb v' J).
      + injection E as E1 <-. apply (update_low _ _ _ _ A E1).
      + injection E as -> ->. apply (B _ _ H).
    - intros [E|H]; [|apply (B _ _ H)]. injection E as E1 <-. apply (update_low _ _ _ _ A E1).
  Qed.
  Lemma turn_low : forall st st', lowst st -> turn g 1 ts x st st' -> lowst st'.
  Proof.
    intros st st' [A B] T. destruct T as [l k v r E M]. unfold settle.
    assert (S0 : lowst (ST (set (fld st) v k) (set (act st) v 0%nat) (l ++ r))).
    { split; cbn.
      - intros w y. unfold set. destruct (Z.eqb_spec w v) as [->|]; [|apply A]. intros ->. apply B. rewrite E. apply in_or_app. right. left. reflexivity.
      - intros k' v' H. apply B. rewrite E. apply in_app_or in H as [H|H]; apply in_or_app; cbn; auto. }
    revert S0. generalize (ST (set (fld st) v k) (set (act st) v 0%nat) (l ++ r)). induction (neighs ts v) as [|J L IH]; cbn; intros s H; [assumption|]. apply IH, touch_low, H.
  Qed.
  Lemma turns_low : forall verts s0 n st, x s0 = x0 -> turns g 1 ts x (begin g 1 ts x verts [s0]) n st -> lowst st.
  Proof.
    intros verts s0 n st E0 T. induction T as [|n st1 st2 T IH H]; [|apply (turn_low _ _ IH H)].
    assert (L : low (given [s0])). { intros w y. unfold given. cbn. destruct (Z.eqb_spec w s0) as [->|]; cbn; [|discriminate]. intros [= <-]. rewrite E0, norm_self. lra. }
    split; [exact L|]. cbn. intros k v H. apply in_map_iff in H as (w & E & _). injection E as E <-. apply (update_low _ _ _ _ L E).
  Qed.
End Low.
