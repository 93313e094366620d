(** Proofs about the distance from a surface and the projection on it. *)
From Coq Require Import List Arith Bool Reals Lia Lra.
From Verif Require Import Vec SkdDist SkdDistSpec.
Import ListNotations.
Open Scope R_scope.

(** ** Norms *)
Lemma dot_self : forall a, 0 <= dot a a.
Proof. intros [x y z]. unfold dot. cbn. pose proof (Rle_0_sqr x). pose proof (Rle_0_sqr y). pose proof (Rle_0_sqr z). unfold Rsqr in *. lra. Qed.
Lemma norm_ge : forall a, 0 <= norm a. Proof. intros a. apply sqrt_pos. Qed.
Lemma norm_sq : forall a, norm a * norm a = dot a a.
Proof. intros a. apply sqrt_sqrt, dot_self. Qed.
Lemma norm_scale : forall k a, norm (vscale k a) = Rabs k * norm a.
Proof.
  intros k a. unfold norm. replace (dot (vscale k a) (vscale k a)) with (Rsqr k * dot a a) by (unfold dot, vscale, Rsqr; cbn; ring).
  rewrite sqrt_mult_alt by apply Rle_0_sqr. rewrite sqrt_Rsqr_abs. reflexivity.
Qed.
Lemma norm_le_sq : forall a k, 0 <= k -> dot a a <= k * k -> norm a <= k.
Proof. intros a k K H. unfold norm. rewrite <- (sqrt_square k K). apply sqrt_le_1_alt. exact H. Qed.
Lemma coord_le : forall a, Rabs (vx a) <= norm a /\ Rabs (vy a) <= norm a /\ Rabs (vz a) <= norm a.
Proof.
  intros a. unfold norm. assert (X : forall x d, x * x <= d -> Rabs x <= sqrt d) by (intros x d H; rewrite <- sqrt_Rsqr_abs; apply sqrt_le_1_alt; exact H).
  destruct a as [x y z]. unfold dot. cbn. pose proof (Rle_0_sqr x). pose proof (Rle_0_sqr y). pose proof (Rle_0_sqr z). unfold Rsqr in *. split; [|split]; apply X; lra.
Qed.
Lemma schwarz : forall a b, Rabs (dot a b) <= norm a * norm b.
Proof.
  intros a b. unfold norm. rewrite <- sqrt_mult_alt by apply dot_self. rewrite <- sqrt_Rsqr_abs. apply sqrt_le_1_alt. unfold Rsqr.
  pose proof (dot_self (cross a b)) as H. replace (dot a a * dot b b) with (dot a b * dot a b + dot (cross a b) (cross a b)) by (unfold dot, cross; destruct a, b; cbn; ring). lra.
Qed.
Lemma norm_step : forall a n k, norm n = 1 -> norm (vsub a (vscale k n)) <= norm a + Rabs k.
Proof.
  intros a n k N. pose proof (norm_ge a). pose proof (Rabs_pos k). apply norm_le_sq; [lra|].
  replace (dot (vsub a (vscale k n)) (vsub a (vscale k n))) with (dot a a - 2 * (k * dot a n) + k * k * dot n n) by (unfold dot, vsub, vscale; destruct a, n; cbn; ring).
  rewrite <- (norm_sq n), N, <- (norm_sq a). pose proof (schwarz a n) as C. rewrite N, Rmult_1_r in C.
  assert (K : Rabs (k * dot a n) <= Rabs k * norm a) by (rewrite Rabs_mult; apply Rmult_le_compat_l; [apply Rabs_pos|exact C]).
  pose proof (Rle_abs (- (k * dot a n))) as A. rewrite Rabs_Ropp in A. assert (Q : k * k = Rabs k * Rabs k) by (rewrite <- Rabs_mult, Rabs_right; [reflexivity|pose proof (Rle_0_sqr k) as Z; unfold Rsqr in Z; lra]). rewrite Q. nra.
Qed.
Lemma vec_eq : forall a b, vx a = vx b -> vy a = vy b -> vz a = vz b -> a = b.
Proof. intros [] []. cbn. intros -> -> ->. reflexivity. Qed.

(** ** Weights *)
Lemma blend_weighted : forall w l, length w = length l -> weighted w l (blend w l).
Proof.
  intros w l E. split; [exact E|]. revert l E. induction w as [|x w IH]; intros [|v l] E; cbn [length] in E; try discriminate; cbn [blend combine map fold_right]; [cbn; auto|].
  injection E as E. destruct (IH l E) as (A & B & D). cbn [vadd vscale vx vy vz fst snd]. rewrite A, B, D. auto.
Qed.
Lemma weighted_blend : forall w l x, weighted w l x -> x = blend w l.
Proof. intros w l x (E & X & Y & Z). destruct (blend_weighted w l E) as (_ & X' & Y' & Z'). apply vec_eq; congruence. Qed.

Section Calls.
  Variable big : R.
  Variables corners vnormals : nat -> list vec.
  Variable tol : R.
  Variable weights : vec -> list vec -> list R.
  Variable closest : vec -> R -> option (nat * R).
  Variable on : nat -> vec -> Prop.
  Hypothesis Sr : search_right on closest.
  Hypothesis Wr : weights_right on corners weights.

  (** the point of the cell found, as the code computes it *)
  Lemma foot_nearest : forall p r id h, closest p r = Some (id, h) ->
    let x := blend (weights p (corners id)) (corners id) in weighted (weights p (corners id)) (corners id) x /\ on id x /\ nearest on p x /\ h = norm (vsub p x) /\ h <= r.
  Proof.
    intros p r id h E x. pose proof (Sr p r) as S1. rewrite E in S1. destruct S1 as (x0 & O0 & (N0 & M0) & -> & R0). destruct (Wr p id (ex_intro _ x0 O0)) as (x1 & W1 & O1 & M1).
    assert (X : x1 = x) by (apply weighted_blend; exact W1). subst x1. pose proof (M1 x0 O0) as A. pose proof (M0 id x O1) as B. assert (Q : norm (vsub p x0) = norm (vsub p x)) by lra.
    split; [exact W1|]. split; [exact O1|]. split; [split; [exists id; exact O1|intros i y Y; rewrite <- Q; apply (M0 i y Y)]|]. split; [exact Q|exact R0].
  Qed.

  Lemma sign_cases : forall d : R, (if Rlt_dec d 0 then -1 else 1) * (if Rlt_dec d 0 then -1 else 1) = 1 /\ Rabs (if Rlt_dec d 0 then -1 else 1) = 1.
  Proof. intros d. destruct (Rlt_dec d 0); [split; [lra|]; rewrite Rabs_left; lra|split; [lra|]; apply Rabs_R1]. Qed.

  (** the answer of signedDistance on a point found *)
  Lemma signed_found : forall p r id h, closest p r = Some (id, h) -> h <= big ->
    let w := weights p (corners id) in let x := blend w (corners id) in let m := blend w (vnormals id) in
    exists d n, signedDistance big corners vnormals tol weights closest p r = (Some id, Fin d, n) /\
      d = (if Rlt_dec (dot m (vsub p x)) 0 then - h else h) /\
      (0 < tol -> tol <= h -> exists u, n = Some u /\ norm u = 1 /\ vsub p (vscale d u) = x) /\
      (h < tol -> norm m <> 0 -> exists u, n = Some u /\ norm u = 1 /\ m = vscale (norm m) u).
  Proof.
    intros p r id h E Hb w x m. destruct (foot_nearest p r id h E) as (_ & _ & _ & Hh & _). fold w in Hh. fold x in Hh. unfold signedDistance, find_closest. rewrite E. unfold computePseudoNormal. cbv zeta. fold w. fold x. fold m.
    set (d0 := dot m (vsub p x)). set (s := if Rlt_dec d0 0 then -1 else 1). destruct (sign_cases d0) as (Ss & Sa). fold s in Ss, Sa.
    assert (Nn : norm (vscale s (vsub p x)) = h) by (rewrite norm_scale, Sa, Rmult_1_l; symmetry; exact Hh). rewrite Nn.
    assert (H0 : 0 <= h) by (rewrite Hh; apply norm_ge).
    assert (F : fmul big (Fin s) (Fin h) = Fin (s * h)).
    { cbn [fmul]. destruct (Rlt_dec big (Rabs (s * h))) as [B|B]; [|reflexivity]. rewrite Rabs_mult, Sa, (Rabs_right h) in B by lra. lra. }
    rewrite F. eexists. eexists. split; [reflexivity|]. split; [unfold s; destruct (Rlt_dec d0 0); lra|]. split.
    - intros T Th. destruct (Rlt_dec h tol) as [B|B]; [lra|]. destruct (Req_EM_T h 0) as [Z|Z]; [lra|]. eexists. split; [reflexivity|]. split.
      + rewrite norm_scale, Nn, Rabs_right; [field; exact Z|]. apply Rle_ge, Rlt_le, Rinv_0_lt_compat. lra.
      + apply vec_eq; unfold vsub, vscale; cbn [vx vy vz].
        * replace (s * h * (/ h * (s * (vx p - vx x)))) with (s * s * (vx p - vx x)) by (field; exact Z). rewrite Ss. lra.
        * replace (s * h * (/ h * (s * (vy p - vy x)))) with (s * s * (vy p - vy x)) by (field; exact Z). rewrite Ss. lra.
        * replace (s * h * (/ h * (s * (vz p - vz x)))) with (s * s * (vz p - vz x)) by (field; exact Z). rewrite Ss. lra.
    - intros T Nm. destruct (Rlt_dec h tol) as [B|B]; [|lra]. destruct (Req_EM_T (norm m) 0) as [Z|Z]; [contradiction|]. eexists. split; [reflexivity|]. pose proof (norm_ge m). split.
      + rewrite norm_scale, Rabs_right; [field; exact Z|]. apply Rle_ge, Rlt_le, Rinv_0_lt_compat. lra.
      + apply vec_eq; unfold vscale; cbn [vx vy vz]; field; exact Z.
  Qed.

  Lemma signed_lost : forall p r, closest p r = None -> 1 < big ->
    signedDistance big corners vnormals tol weights closest p r = (None, PInf, Some vzero).
  Proof.
    intros p r E B. unfold signedDistance, find_closest. rewrite E. cbn [computePseudoNormal fmul]. assert (P : big < big * big) by nra.
    destruct (Rlt_dec big (Rabs (big * big))) as [H|H]; [|rewrite Rabs_right in H; lra]. unfold pos. destruct (Rlt_dec 0 (big * big)) as [Q|Q]; [reflexivity|lra].
  Qed.

  (** moving a point along a unit normal does not overflow *)
  Lemma moved_fin : forall p d u, norm u = 1 -> Rabs d <= big ->
    moved_point big p (Fin d) (Some u) = (Fin (vx (vsub p (vscale d u))), Fin (vy (vsub p (vscale d u))), Fin (vz (vsub p (vscale d u)))).
  Proof.
    intros p d u U D. destruct (coord_le u) as (X & Y & Z). rewrite U in X, Y, Z.
    assert (O : forall k, Rabs k <= 1 -> (if Rlt_dec big (Rabs (d * k)) then infinity (pos (d * k)) else Fin (d * k)) = Fin (d * k)).
    { intros k K. destruct (Rlt_dec big (Rabs (d * k))) as [H|H]; [|reflexivity]. rewrite Rabs_mult in H. pose proof (Rabs_pos d). pose proof (Rabs_pos k). nra. }
    unfold moved_point, fcoord. cbn [fmul]. rewrite !O by assumption. reflexivity.
  Qed.

  (** one step of the loop *)
  Lemma fold_larger : forall l : list num, Forall (fun a => exists x, a = Fin x /\ 0 <= x < big) l -> exists m, fold_right larger (Fin 0) l = Fin m /\ 0 <= m /\ (m < big \/ m = 0).
  Proof.
    induction l as [|a l IH]; intros F; cbn [fold_right]; [exists 0; split; [reflexivity|]; lra|]. destruct (proj1 (Forall_cons_iff _ _ _) F) as ((x & -> & X) & Fl). destruct (IH Fl) as (m & -> & M0 & M).
    exists (Rmax x m). cbn [larger]. split; [reflexivity|]. unfold Rmax. destruct (Rle_dec x m); lra.
  Qed.
End Calls.
