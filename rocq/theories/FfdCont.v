(** The displacements of free form deformation lattices depend continuously on the point, also across
    the seam of a cylinder with a periodic azimuth. *)
From Coq Require Import Reals List Arith ZArith Bool Lia Lra.
From Verif Require Import Vec Shape ShapeSpec Mesh MeshSpec MeshProofs Lattice LatticeSpec LatticeProofs LatticeBuild Ffd FfdSpec FfdBasis FfdKnots FfdCurve FfdSums FfdEval FfdReady FfdProofs FfdForms FfdMoves FfdWrap.
Import ListNotations.
Open Scope R_scope.

(** ** Limits *)
Lemma cv_const c : Un_cv (fun _ => c) c.
Proof. intros e E. exists 0%nat. intros n _. unfold R_dist. rewrite Rminus_diag_eq, Rabs_R0 by reflexivity. exact E. Qed.
Lemma cv_ext a b l : (forall n, a n = b n) -> Un_cv a l -> Un_cv b l.
Proof. intros H A e E. destruct (A e E) as (N & P). exists N. intros n Hn. rewrite <- H. apply P, Hn. Qed.
Lemma cv_inv a l : l <> 0 -> Un_cv a l -> Un_cv (fun n => / a n) (/ l).
Proof.
  intros H A. apply (continuity_seq (fun x => / x) a l); [|exact A].
  apply (continuity_pt_inv (fun x => x) l); [apply derivable_continuous_pt, derivable_pt_id|exact H].
Qed.
Lemma cv_rsum k F G : (forall a, (a < k)%nat -> Un_cv (fun n => F n a) (G a)) -> Un_cv (fun n => rsum k (F n)) (rsum k G).
Proof.
  induction k as [|k IH]; intros H; cbn [rsum]; [apply cv_const|]. apply (CV_plus (fun n => rsum k (F n)) (fun n => F n k)); [apply IH; intros a A; apply H; lia|apply H; lia].
Qed.
Lemma cv_mean cnt F G w y : rsum (cnt 0%nat) (fun a => rsum (cnt 1%nat) (fun b => rsum (cnt 2%nat) (fun c => G 0%nat a * G 1%nat b * G 2%nat c * w a b c))) <> 0 ->
  (forall d a, (d < 3)%nat -> (a < cnt d)%nat -> Un_cv (fun n => F n d a) (G d a)) -> Un_cv (fun n => weighted_mean cnt (F n) w y) (weighted_mean cnt G w y).
Proof.
  intros Nz H. unfold weighted_mean, Rdiv.
  assert (T : forall a b c, (a < cnt 0)%nat -> (b < cnt 1)%nat -> (c < cnt 2)%nat -> Un_cv (fun n => F n 0%nat a * F n 1%nat b * F n 2%nat c) (G 0%nat a * G 1%nat b * G 2%nat c)).
  { intros a b c A B C. apply (CV_mult (fun n => F n 0%nat a * F n 1%nat b) (fun n => F n 2%nat c)); [|apply H; [lia|exact C]].
    apply (CV_mult (fun n => F n 0%nat a) (fun n => F n 1%nat b)); apply H; try lia; assumption. }
  apply (CV_mult (fun n => rsum (cnt 0%nat) _) (fun n => / rsum (cnt 0%nat) _)).
  - apply (cv_rsum (cnt 0%nat) (fun n a => rsum (cnt 1%nat) (fun b => rsum (cnt 2%nat) (fun c => F n 0%nat a * F n 1%nat b * F n 2%nat c * w a b c * y a b c)))). intros a A.
    apply (cv_rsum (cnt 1%nat) (fun n b => rsum (cnt 2%nat) (fun c => F n 0%nat a * F n 1%nat b * F n 2%nat c * w a b c * y a b c))). intros b B.
    apply (cv_rsum (cnt 2%nat) (fun n c => F n 0%nat a * F n 1%nat b * F n 2%nat c * w a b c * y a b c)). intros c C.
    apply (CV_mult (fun n => F n 0%nat a * F n 1%nat b * F n 2%nat c * w a b c) (fun _ => y a b c)); [|apply cv_const].
    apply (CV_mult (fun n => F n 0%nat a * F n 1%nat b * F n 2%nat c) (fun _ => w a b c)); [|apply cv_const]. apply T; assumption.
  - apply cv_inv; [exact Nz|].
    apply (cv_rsum (cnt 0%nat) (fun n a => rsum (cnt 1%nat) (fun b => rsum (cnt 2%nat) (fun c => F n 0%nat a * F n 1%nat b * F n 2%nat c * w a b c)))). intros a A.
    apply (cv_rsum (cnt 1%nat) (fun n b => rsum (cnt 2%nat) (fun c => F n 0%nat a * F n 1%nat b * F n 2%nat c * w a b c))). intros b B.
    apply (cv_rsum (cnt 2%nat) (fun n c => F n 0%nat a * F n 1%nat b * F n 2%nat c * w a b c)). intros c C.
    apply (CV_mult (fun n => F n 0%nat a * F n 1%nat b * F n 2%nat c) (fun _ => w a b c)); [|apply cv_const]. apply T; assumption.
Qed.

(** ** One direction *)
Section Direction.
Variables (u : Z -> R) (g : R).
Hypothesis Gp : 0 < g.
Hypothesis gap : forall k, u k < u (k + 1)%Z -> g <= u (k + 1)%Z - u k.
Hypothesis joined : forall k j k', (k <= j <= k')%Z -> u k < u (k + 1)%Z -> u k' < u (k' + 1)%Z -> u j < u (j + 1)%Z.

Definition hat (k i : Z) (x : R) : R :=
  if Z.eqb i k then (x - u k) / (u (k + 1)%Z - u k) else if Z.eqb (i + 1) k then (u (k + 1)%Z - x) / (u (k + 1)%Z - u k) else 0.
Lemma hat_is k i x : u k < u (k + 1)%Z -> bspline u k 1 i x = hat k i x.
Proof.
  intros H. cbn [bspline]. unfold hat, ratio. change (Z.of_nat 1) with 1%Z.
  destruct (Z.eqb_spec i k) as [->|N].
  - destruct (Z.eqb_spec (k + 1) k); [lia|]. destruct (Req_EM_T _ 0); lra.
  - destruct (Z.eqb_spec (i + 1) k) as [<-|N']; [|lra]. destruct (Req_EM_T (u (i + 1 + 1)%Z - _) 0); lra.
Qed.
Lemma hat_same k i x x' : u k < u (k + 1)%Z -> Rabs (hat k i x - hat k i x') <= / g * Rabs (x - x').
Proof.
  intros H. pose proof (gap k H) as G. unfold hat. set (h := u (k + 1)%Z - u k) in *. clearbody h.
  assert (I : 0 < / h <= / g) by (split; [apply Rinv_0_lt_compat; lra|apply Rinv_le_contravar; lra]).
  pose proof (Rabs_pos (x - x')). destruct (Z.eqb i k); [|destruct (Z.eqb (i + 1) k)].
  - replace ((x - u k) / h - (x' - u k) / h) with (/ h * (x - x')) by (unfold Rdiv; ring). rewrite Rabs_mult, (Rabs_right (/ h)) by lra. nra.
  - replace ((u (k + 1)%Z - x) / h - (u (k + 1)%Z - x') / h) with (/ h * (- (x - x'))) by (unfold Rdiv; ring). rewrite Rabs_mult, Rabs_Ropp, (Rabs_right (/ h)) by lra. nra.
  - rewrite Rminus_diag_eq, Rabs_R0 by reflexivity. apply Rmult_le_pos; lra.
Qed.
Lemma hat_next k i : u k < u (k + 1)%Z -> u (k + 1)%Z < u (k + 1 + 1)%Z -> hat k i (u (k + 1)%Z) = hat (k + 1) i (u (k + 1)%Z).
Proof.
  intros H H'. unfold hat. destruct (Z.eqb_spec i k) as [->|N].
  - destruct (Z.eqb_spec k (k + 1)); [lia|]. destruct (Z.eqb_spec (k + 1) (k + 1)); [|lia]. field. lra.
  - destruct (Z.eqb_spec (i + 1) k) as [E|N'].
    + destruct (Z.eqb_spec i (k + 1)); [lia|]. destruct (Z.eqb_spec (i + 1) (k + 1)); [lia|]. field. lra.
    + destruct (Z.eqb_spec i (k + 1)); [field; lra|]. destruct (Z.eqb_spec (i + 1) (k + 1)); [lia|reflexivity].
Qed.
Lemma hat_up : forall m k i x x', in_span u k x -> in_span u (k + Z.of_nat m) x' -> x <= x' -> Rabs (hat k i x - hat (k + Z.of_nat m) i x') <= / g * (x' - x).
Proof.
  induction m as [|m IH]; intros k i x x' Sk S' L.
  - rewrite Z.add_0_r in *. rewrite <- (Rabs_right (x' - x)) by lra. rewrite (Rabs_minus_sym x'). apply hat_same, Sk.
  - destruct Sk as [Sk X]. assert (J : forall j, (k <= j <= k + Z.of_nat (S m))%Z -> u j < u (j + 1)%Z) by (intros j Hj; apply (joined k j (k + Z.of_nat (S m))); [exact Hj|exact Sk|apply S']).
    assert (U : u (k + 1)%Z < u (k + 1 + 1)%Z) by (apply J; lia).
    replace (k + Z.of_nat (S m))%Z with (k + 1 + Z.of_nat m)%Z in S' |- * by lia.
    assert (Le : u (k + 1)%Z <= x').
    { assert (M : forall j, (j <= m)%nat -> u (k + 1)%Z <= u (k + 1 + Z.of_nat j)%Z).
      { induction j as [|j IHj]; intros Hj; [rewrite Z.add_0_r; lra|]. specialize (IHj ltac:(lia)). pose proof (J (k + 1 + Z.of_nat j)%Z ltac:(lia)).
        replace (k + 1 + Z.of_nat (S j))%Z with (k + 1 + Z.of_nat j + 1)%Z by lia. lra. }
      pose proof (M m (le_n m)). destruct S'. lra. }
    pose proof (IH (k + 1)%Z i (u (k + 1)%Z) x' ltac:(split; [exact U|lra]) S' Le) as A. pose proof (hat_same k i x (u (k + 1)%Z) Sk) as B. rewrite hat_next in B by assumption.
    rewrite (Rabs_minus_sym x), (Rabs_right (u (k + 1)%Z - x)) in B by lra.
    match goal with |- Rabs (?a - ?c) <= _ => match type of A with Rabs (?b - _) <= _ => replace (a - c) with ((a - b) + (b - c)) by ring end end.
    eapply Rle_trans; [apply Rabs_triang|]. lra.
Qed.
Lemma span_order k k' x x' : in_span u k x -> in_span u k' x' -> (k < k')%Z -> x <= x'.
Proof.
  intros [Sk X] [S' X'] L. assert (M : forall j, (Z.of_nat j <= k' - k - 1)%Z -> u (k + 1)%Z <= u (k + 1 + Z.of_nat j)%Z).
  { induction j as [|j IHj]; intros Hj; [rewrite Z.add_0_r; lra|]. specialize (IHj ltac:(lia)). pose proof (joined k (k + 1 + Z.of_nat j)%Z k' ltac:(lia) Sk S').
    replace (k + 1 + Z.of_nat (S j))%Z with (k + 1 + Z.of_nat j + 1)%Z by lia. lra. }
  specialize (M (Z.to_nat (k' - k - 1)) ltac:(lia)). rewrite Z2Nat.id in M by lia. replace (k + 1 + (k' - k - 1))%Z with k' in M by lia. lra.
Qed.
Lemma hat_lip k k' i x x' : in_span u k x -> in_span u k' x' -> Rabs (hat k i x - hat k' i x') <= / g * Rabs (x - x').
Proof.
  assert (W : forall k k' x x', in_span u k x -> in_span u k' x' -> (k < k')%Z -> Rabs (hat k i x - hat k' i x') <= / g * Rabs (x - x')).
  { intros a b y z S S' L. pose proof (span_order _ _ _ _ S S' L) as O. rewrite (Rabs_minus_sym y), (Rabs_right (z - y)) by lra.
    replace b with (a + Z.of_nat (Z.to_nat (b - a)))%Z in S' |- * by lia. apply hat_up; assumption. }
  intros S S'. destruct (Z.lt_trichotomy k k') as [L|[<-|L]]; [apply W; assumption|apply hat_same, S|].
  rewrite (Rabs_minus_sym x), (Rabs_minus_sym (hat k i x)). apply W; assumption.
Qed.
Lemma cv_ratio (x : nat -> R) x0 a c : Un_cv x x0 -> Un_cv (fun n => ratio (x n - a) c) (ratio (x0 - a) c) /\ Un_cv (fun n => ratio (a - x n) c) (ratio (a - x0) c).
Proof.
  intros X. unfold ratio. destruct (Req_EM_T c 0); [split; apply cv_const|]. unfold Rdiv. split.
  - apply (CV_mult (fun n => x n - a) (fun _ => / c)); [|apply cv_const]. apply (CV_minus x (fun _ => a)); [exact X|apply cv_const].
  - apply (CV_mult (fun n => a - x n) (fun _ => / c)); [|apply cv_const]. apply (CV_minus (fun _ => a) x); [apply cv_const|exact X].
Qed.
Lemma bspline_cv p : (1 <= p)%nat -> forall (k : nat -> Z) k0 x x0 i, (forall n, in_span u (k n) (x n)) -> in_span u k0 x0 -> Un_cv x x0 ->
  Un_cv (fun n => bspline u (k n) p i (x n)) (bspline u k0 p i x0).
Proof.
  intros P. induction p as [|p IH]; [lia|]. intros k k0 x x0 i Sk S0 X. destruct p as [|p].
  - intros e E. destruct (X (e * g)) as (N & H); [apply Rmult_lt_0_compat; lra|]. exists N. intros n Hn. specialize (H n Hn). unfold R_dist in *.
    rewrite !hat_is by (apply Sk || apply S0). eapply Rle_lt_trans; [apply hat_lip; [apply Sk|exact S0]|].
    apply (Rmult_lt_reg_l g); [lra|]. rewrite <- Rmult_assoc, Rinv_r by lra. lra.
  - assert (R : forall i, Un_cv (fun n => bspline u (k n) (S p) i (x n)) (bspline u k0 (S p) i x0)) by (intros j; apply IH; try assumption; lia).
    apply (cv_ext (fun n => ratio (x n - u i) (u (i + Z.of_nat (S (S p)))%Z - u i) * bspline u (k n) (S p) i (x n) +
       ratio (u (i + Z.of_nat (S (S p)) + 1)%Z - x n) (u (i + Z.of_nat (S (S p)) + 1)%Z - u (i + 1)%Z) * bspline u (k n) (S p) (i + 1)%Z (x n))); [reflexivity|].
    change (bspline u k0 (S (S p)) i x0) with (ratio (x0 - u i) (u (i + Z.of_nat (S (S p)))%Z - u i) * bspline u k0 (S p) i x0 +
       ratio (u (i + Z.of_nat (S (S p)) + 1)%Z - x0) (u (i + Z.of_nat (S (S p)) + 1)%Z - u (i + 1)%Z) * bspline u k0 (S p) (i + 1)%Z x0).
    set (pp := S p) in *. clearbody pp.
    apply (CV_plus (fun n => ratio (x n - u i) _ * bspline u (k n) pp i (x n)) (fun n => ratio (_ - x n) _ * bspline u (k n) pp (i + 1)%Z (x n))).
    + apply (CV_mult (fun n => ratio (x n - u i) _) (fun n => bspline u (k n) pp i (x n))); [apply cv_ratio, X|apply R].
    + apply (CV_mult (fun n => ratio (_ - x n) _) (fun n => bspline u (k n) pp (i + 1)%Z (x n))); [apply cv_ratio, X|apply R].
Qed.
End Direction.
(** the knots of the directions *)
Lemma knots_gap t n p o w : (1 <= p < n)%nat -> 0 < w -> let u := knot_of t n p o w in let h := w / (INR n - 1) in
  0 < h /\ (forall k, u k < u (k + 1)%Z -> h <= u (k + 1)%Z - u k) /\
  (forall k j k', (k <= j <= k')%Z -> u k < u (k + 1)%Z -> u k' < u (k' + 1)%Z -> u j < u (j + 1)%Z).
Proof.
  intros D W u h. assert (N1 : 1 <= INR p <= INR n - 1).
  { split; [apply (le_INR 1); lia|]. replace (INR n - 1) with (INR (n - 1)) by (rewrite minus_INR by lia; reflexivity). apply le_INR; lia. }
  assert (H : 0 < h) by (apply Rdiv_lt_0_compat; lra). assert (Wh : w = (INR n - 1) * h) by (unfold h; field; lra). split; [exact H|].
  assert (U : (forall k, uniform_knot n p o w (k + 1)%Z - uniform_knot n p o w k = h)).
  { intros k. unfold uniform_knot. fold h. rewrite plus_IZR. lra. }
  assert (Cl : (forall k, clamped_knot n p o w k < clamped_knot n p o w (k + 1)%Z <-> (Z.of_nat p <= k < Z.of_nat n)%Z) /\
    (forall k, (Z.of_nat p <= k < Z.of_nat n)%Z -> h <= clamped_knot n p o w (k + 1)%Z - clamped_knot n p o w k)).
  { assert (G : forall k, (Z.of_nat p <= k < Z.of_nat n)%Z -> h <= clamped_knot n p o w (k + 1)%Z - clamped_knot n p o w k).
    { intros k K. unfold clamped_knot. fold h. rewrite !INR_IZR_INZ in *. destruct (Z.leb_spec (k + 1) (Z.of_nat p)); [lia|].
      destruct (Z.leb_spec k (Z.of_nat p)).
      - assert (k = Z.of_nat p) as -> by lia. destruct (Z.leb_spec (Z.of_nat n) (Z.of_nat p + 1)); rewrite ?plus_IZR; nra.
      - destruct (Z.leb_spec (Z.of_nat n) k); [lia|]. destruct (Z.leb_spec (Z.of_nat n) (k + 1)).
        + assert (E : IZR k = IZR (Z.of_nat n) - 1) by (rewrite <- minus_IZR; apply f_equal; lia). rewrite E, Wh. nra.
        + rewrite plus_IZR. nra. }
    split; [|exact G]. intros k. split.
    - intros L. destruct (Z_le_gt_dec (Z.of_nat p) k) as [A|A]; [destruct (Z_lt_ge_dec k (Z.of_nat n)) as [B|B]; [lia|]|]; exfalso; revert L; unfold clamped_knot.
      + destruct (Z.leb_spec k (Z.of_nat p)); [lia|]. destruct (Z.leb_spec (k + 1) (Z.of_nat p)); [lia|]. destruct (Z.leb_spec (Z.of_nat n) k); [|lia]. destruct (Z.leb_spec (Z.of_nat n) (k + 1)); [|lia]. lra.
      + destruct (Z.leb_spec k (Z.of_nat p)); [|lia]. destruct (Z.leb_spec (k + 1) (Z.of_nat p)); [|lia]. lra.
    - intros K. specialize (G k K). lra. }
  destruct Cl as [C1 C2]. unfold u, knot_of. destruct t; (split; [|]); try (intros k L; pose proof (U k); lra); try (intros k j k' L A B; pose proof (U j); lra);
    try (intros k L; apply C2, C1, L); intros k j k' L A B; apply C1; apply C1 in A; apply C1 in B; lia.
Qed.

(** ** The seam of a periodic direction *)
Lemma bspline_shift u T w k p x : (forall i, u (i + T)%Z = u i + w) -> forall i, bspline u (k + T) p (i + T) (x + w) = bspline u k p i x.
Proof.
  intros U. induction p as [|p IH]; intros i; cbn [bspline].
  - destruct (Z.eqb_spec (i + T) (k + T)), (Z.eqb_spec i k); try reflexivity; lia.
  - replace (i + T + Z.of_nat (S p))%Z with (i + Z.of_nat (S p) + T)%Z by lia. replace (i + Z.of_nat (S p) + T + 1)%Z with (i + Z.of_nat (S p) + 1 + T)%Z by lia.
    replace (i + T + 1)%Z with (i + 1 + T)%Z by lia. rewrite !IH, !U.
    f_equal; f_equal; unfold ratio.
    + replace (u (i + Z.of_nat (S p))%Z + w - (u i + w)) with (u (i + Z.of_nat (S p))%Z - u i) by ring. replace (x + w - (u i + w)) with (x - u i) by ring. reflexivity.
    + replace (u (i + Z.of_nat (S p) + 1)%Z + w - (u (i + 1)%Z + w)) with (u (i + Z.of_nat (S p) + 1)%Z - u (i + 1)%Z) by ring. replace (u (i + Z.of_nat (S p) + 1)%Z + w - (x + w)) with (u (i + Z.of_nat (S p) + 1)%Z - x) by ring. reflexivity.
Qed.
Lemma bspline_zero u k x p : forall i, (i < k - Z.of_nat p \/ k < i)%Z -> bspline u k p i x = 0.
Proof.
  induction p as [|p IH]; intros i H; cbn [bspline].
  - destruct (Z.eqb_spec i k); [lia|reflexivity].
  - rewrite (IH i), (IH (i + 1)%Z) by lia. lra.
Qed.
Lemma seam n p o w k (F : nat -> R) : (1 <= p < n)%nat -> 0 < w -> F (n - 1)%nat = F 0%nat -> let u := uniform_knot n p o w in
  in_span u k o -> (Z.of_nat p <= k)%Z ->
  in_span u (Z.of_nat p + (Z.of_nat n - 1)) (o + w) /\
  rsum (n + p) (fun b => bspline u (Z.of_nat p + (Z.of_nat n - 1)) p (Z.of_nat b) (o + w) * F (control PERIODIC n p b)) = rsum (n + p) (fun b => bspline u k p (Z.of_nat b) o * F (control PERIODIC n p b)).
Proof.
  intros D W Fs u [S X] K. destruct (knots_gap PERIODIC n p o w D W) as (H & _). set (h := w / (INR n - 1)) in *.
  assert (N1 : 1 <= INR n - 1). { replace (INR n - 1) with (INR (n - 1)) by (rewrite minus_INR by lia; reflexivity). apply (le_INR 1); lia. }
  assert (Wh : w = (INR n - 1) * h) by (unfold h; field; lra).
  assert (Sh : - / 2 <= shift p <= 0) by (unfold shift; destruct (Nat.odd p); lra).
  assert (U : forall i, u (i + (Z.of_nat n - 1))%Z = u i + w). { intros i. unfold u, uniform_knot. fold h. rewrite plus_IZR, minus_IZR, <- INR_IZR_INZ. rewrite Wh at 1. ring. }
  assert (Kp : k = Z.of_nat p).
  { assert (k < Z.of_nat p + 1)%Z; [|lia]. apply lt_IZR. rewrite plus_IZR, <- INR_IZR_INZ. destruct X as [X _]. unfold u, uniform_knot in X. fold h in X.
    assert ((IZR k - INR p + shift p) * h <= 0) by lra. assert (IZR k - INR p + shift p <= 0) by nra. lra. }
  subst k. split.
  { split; [|split].
    - replace (Z.of_nat p + (Z.of_nat n - 1) + 1)%Z with (Z.of_nat p + 1 + (Z.of_nat n - 1))%Z by ring. rewrite !U. lra.
    - rewrite U. lra.
    - replace (Z.of_nat p + (Z.of_nat n - 1) + 1)%Z with (Z.of_nat p + 1 + (Z.of_nat n - 1))%Z by ring. rewrite !U. lra. }
  rewrite (rsum_window (n + p) (n - 1) (p + 1)); [|lia|].
  2:{ intros a Ha A. rewrite bspline_zero by lia. ring. }
  rewrite (rsum_window (n + p) 0 (p + 1)); [|lia|].
  2:{ intros a Ha A. rewrite bspline_zero by lia. ring. }
  apply rsum_ext. intros i Hi. replace (Z.of_nat (n - 1 + i)) with (Z.of_nat (0 + i) + (Z.of_nat n - 1))%Z by lia. rewrite (bspline_shift u _ w _ _ _ U). f_equal.
  unfold control. pose proof (Z.div_mod (Z.of_nat p) 2 ltac:(lia)). pose proof (Z.mod_pos_bound (Z.of_nat p) 2 ltac:(lia)). set (e := (Z.of_nat p / 2)%Z) in *. clearbody e.
  destruct (Z.lt_trichotomy (Z.of_nat i - e) 0) as [L|[L|L]].
  - destruct (Z.ltb_spec (Z.of_nat (n - 1 + i) - e) 0); [lia|]. destruct (Z.ltb_spec (Z.of_nat n - 1) (Z.of_nat (n - 1 + i) - e)); [lia|]. destruct (Z.ltb_spec (Z.of_nat (0 + i) - e) 0); [|lia]. f_equal. lia.
  - destruct (Z.ltb_spec (Z.of_nat (n - 1 + i) - e) 0); [lia|]. destruct (Z.ltb_spec (Z.of_nat n - 1) (Z.of_nat (n - 1 + i) - e)); [lia|]. destruct (Z.ltb_spec (Z.of_nat (0 + i) - e) 0); [lia|].
    destruct (Z.ltb_spec (Z.of_nat n - 1) (Z.of_nat (0 + i) - e)); [lia|]. replace (Z.to_nat (Z.of_nat (n - 1 + i) - e)) with (n - 1)%nat by lia. replace (Z.to_nat (Z.of_nat (0 + i) - e)) with 0%nat by lia. exact Fs.
  - destruct (Z.ltb_spec (Z.of_nat (n - 1 + i) - e) 0); [lia|]. destruct (Z.ltb_spec (Z.of_nat n - 1) (Z.of_nat (n - 1 + i) - e)); [|lia]. destruct (Z.ltb_spec (Z.of_nat (0 + i) - e) 0); [lia|].
    destruct (Z.ltb_spec (Z.of_nat n - 1) (Z.of_nat (0 + i) - e)); [lia|]. f_equal. lia.
Qed.

(** ** Three directions *)
Lemma control_lt t n p a : (1 <= p < n)%nat -> (a < controls t n p)%nat -> (control t n p a < n)%nat.
Proof.
  intros D A. unfold controls, control in *. pose proof (Z.div_mod (Z.of_nat p) 2 ltac:(lia)). pose proof (Z.mod_pos_bound (Z.of_nat p) 2 ltac:(lia)). set (e := (Z.of_nat p / 2)%Z) in *. clearbody e.
  destruct t; try exact A; destruct (Z.ltb_spec (Z.of_nat a - e) 0); try lia; destruct (Z.ltb_spec (Z.of_nat n - 1) (Z.of_nat a - e)); lia.
Qed.
Lemma rsum_some n (F : nat -> R) : (forall i, 0 <= F i) -> rsum n F = 1 -> exists i, (i < n)%nat /\ 0 < F i.
Proof.
  intros P. assert (H : 0 < rsum n F -> exists i, (i < n)%nat /\ 0 < F i); [|intros E; apply H; lra].
  induction n as [|n IH]; cbn [rsum]; [lra|]. intros S. destruct (Rlt_dec 0 (F n)) as [L|L]; [exists n; split; [lia|exact L]|].
  destruct IH as (i & I & L'); [pose proof (P n); lra|]. exists i. split; [lia|exact L'].
Qed.
Lemma rsum_ge n F i : (forall j, (j < n)%nat -> 0 <= F j) -> (i < n)%nat -> F i <= rsum n F.
Proof.
  induction n as [|n IH]; [lia|]. intros P I. cbn [rsum]. destruct (Nat.eq_dec i n) as [->|N].
  - pose proof (rsum_nonneg n F ltac:(intros j J; apply P; lia)). lra.
  - pose proof (IH ltac:(intros j J; apply P; lia) ltac:(lia)). pose proof (P n ltac:(lia)). lra.
Qed.
Lemma mean_den cnt (G : nat -> nat -> R) w : (forall d, (d < 3)%nat -> (forall a, 0 <= G d a) /\ rsum (cnt d) (G d) = 1) ->
  (forall a b c, (a < cnt 0)%nat -> (b < cnt 1)%nat -> (c < cnt 2)%nat -> 0 < w a b c) ->
  rsum (cnt 0%nat) (fun a => rsum (cnt 1%nat) (fun b => rsum (cnt 2%nat) (fun c => G 0%nat a * G 1%nat b * G 2%nat c * w a b c))) <> 0.
Proof.
  intros H Wp. destruct (H 0%nat ltac:(lia)) as [P0 S0]. destruct (H 1%nat ltac:(lia)) as [P1 S1]. destruct (H 2%nat ltac:(lia)) as [P2 S2].
  destruct (rsum_some _ _ P0 S0) as (a & A & La). destruct (rsum_some _ _ P1 S1) as (b & B & Lb). destruct (rsum_some _ _ P2 S2) as (c & C & Lc).
  assert (T : forall a b c, (a < cnt 0)%nat -> (b < cnt 1)%nat -> (c < cnt 2)%nat -> 0 <= G 0%nat a * G 1%nat b * G 2%nat c * w a b c).
  { intros a' b' c' A' B' C'. pose proof (Wp a' b' c' A' B' C'). repeat apply Rmult_le_pos; try (apply P0 || apply P1 || apply P2). lra. }
  set (F2 := fun a b c => G 0%nat a * G 1%nat b * G 2%nat c * w a b c) in *. set (F1 := fun a b => rsum (cnt 2%nat) (F2 a b)). set (F0 := fun a => rsum (cnt 1%nat) (F1 a)).
  change (rsum (cnt 0%nat) F0 <> 0).
  assert (T1 : forall a b, (a < cnt 0)%nat -> (b < cnt 1)%nat -> 0 <= F1 a b) by (intros a' b' A' B'; apply rsum_nonneg; intros; apply T; assumption).
  pose proof (rsum_ge (cnt 0%nat) F0 a ltac:(intros j J; apply rsum_nonneg; intros; apply T1; assumption) A) as E0.
  pose proof (rsum_ge (cnt 1%nat) (F1 a) b ltac:(intros j J; apply T1; assumption) B) as E1.
  pose proof (rsum_ge (cnt 2%nat) (F2 a b) c ltac:(intros j J; apply T; assumption) C) as E2.
  assert (0 < F2 a b c) by (unfold F2; repeat apply Rmult_lt_0_compat; try assumption; apply Wp; assumption). unfold F0, F1 in *. lra.
Qed.
Lemma mean_seam cnt G H w y nw ny (nd : nat -> nat) :
  (forall a, G 0%nat a = H 0%nat a) -> (forall a, G 2%nat a = H 2%nat a) ->
  (forall a b c, w a b c = nw a (nd b) c) -> (forall a b c, y a b c = ny a (nd b) c) ->
  (forall F : nat -> R, (exists g : nat -> nat -> R -> R -> R, forall b, F b = rsum (cnt 0%nat) (fun a => rsum (cnt 2%nat) (fun c => g a c (nw a b c) (ny a b c)))) ->
     rsum (cnt 1%nat) (fun b => G 1%nat b * F (nd b)) = rsum (cnt 1%nat) (fun b => H 1%nat b * F (nd b))) ->
  weighted_mean cnt G w y = weighted_mean cnt H w y.
Proof.
  intros E0 E2 Ew Ey S. unfold weighted_mean, Rdiv.
  assert (Num : forall K, rsum (cnt 0%nat) (fun a => rsum (cnt 1%nat) (fun b => rsum (cnt 2%nat) (fun c => K 0%nat a * K 1%nat b * K 2%nat c * w a b c * y a b c))) =
    rsum (cnt 1%nat) (fun b => K 1%nat b * rsum (cnt 0%nat) (fun a => rsum (cnt 2%nat) (fun c => K 0%nat a * K 2%nat c * nw a (nd b) c * ny a (nd b) c)))).
  { intros K. rewrite rsum_swap. apply rsum_ext. intros b B. rewrite <- rsum_scale. apply rsum_ext. intros a A. rewrite <- rsum_scale. apply rsum_ext. intros c C. rewrite Ew, Ey. ring. }
  assert (Den : forall K, rsum (cnt 0%nat) (fun a => rsum (cnt 1%nat) (fun b => rsum (cnt 2%nat) (fun c => K 0%nat a * K 1%nat b * K 2%nat c * w a b c))) =
    rsum (cnt 1%nat) (fun b => K 1%nat b * rsum (cnt 0%nat) (fun a => rsum (cnt 2%nat) (fun c => K 0%nat a * K 2%nat c * nw a (nd b) c)))).
  { intros K. rewrite rsum_swap. apply rsum_ext. intros b B. rewrite <- rsum_scale. apply rsum_ext. intros a A. rewrite <- rsum_scale. apply rsum_ext. intros c C. rewrite Ew. ring. }
  rewrite (Num G), (Num H), (Den G), (Den H).
  pose proof (S (fun b => rsum (cnt 0%nat) (fun a => rsum (cnt 2%nat) (fun c => G 0%nat a * G 2%nat c * nw a b c * ny a b c)))) as SN.
  pose proof (S (fun b => rsum (cnt 0%nat) (fun a => rsum (cnt 2%nat) (fun c => G 0%nat a * G 2%nat c * nw a b c)))) as SD.
  cbv beta in SN, SD. rewrite SN, SD; [|exists (fun a c x _ => G 0%nat a * G 2%nat c * x); reflexivity|exists (fun a c x z => G 0%nat a * G 2%nat c * x * z); reflexivity].
  f_equal; [|f_equal]; apply rsum_ext; intros b B; f_equal; apply rsum_ext; intros a A; apply rsum_ext; intros c C; rewrite E0, E2; reflexivity.
Qed.

Section Continuous.
Variables (f : ffd) (s : shape) (D : list vec).
Hypothesis C : core f s.
Hypothesis Sh : m_shape (f_mesh f) = Some s.
Hypothesis So : ShapeSpec.solid s.
Hypothesis Sp : spaced f s.
Hypothesis Nu : never_unclamped s.
Hypothesis Wp : positive_weights f.
Hypothesis LD : length D = nodes f.
Variables (w : nat -> nat -> nat -> R) (y : nat -> nat -> nat -> vec).
Hypothesis Hw : node_values f (f_weights f) w.
Hypothesis Hy : node_values f D y.
Definition N (q : vec) (d a : nat) : R := bspline (knots_of f s d) (span_of f s q d) (degree f d) (Z.of_nat a) (vent (toLocalCoord s q) d).
Definition mean (q : vec) (i : nat) : R :=
  weighted_mean (count f s) (N q) (fun a b c => w (node f s 0 a) (node f s 1 b) (node f s 2 c)) (fun a b c => vent (y (node f s 0 a) (node f s 1 b) (node f s 2 c)) i).
Definition moved (q : vec) : vec := V3 (mean q 0) (mean q 1) (mean q 2).
Lemma moved_moves q world : in_box s q -> moves f s D world q (moved q).
Proof.
  intros I. apply evaluates_moves; [exact C|]. destruct (wrapped_form f s q C So Sp Nu I Wp) as [_ E]. apply (E w D y world (moved q) LD Hw Hy).
  intros i Hi. destruct i as [|[|[|i]]]; try lia; reflexivity.
Qed.
Lemma dir_ok q d : in_box s q -> (d < 3)%nat -> in_span (knots_of f s d) (span_of f s q d) (vent (toLocalCoord s q) d) /\ (Z.of_nat (degree f d) <= span_of f s q d < Z.of_nat (count f s d))%Z /\ (1 <= degree f d < points f d)%nat /\
  (forall a, 0 <= N q d a) /\ rsum (count f s d) (N q d) = 1.
Proof. intros I Hd. destruct (wrapped_form f s q C So Sp Nu I Wp) as [K _]. exact (K d Hd). Qed.
Lemma degrees d : (d < 3)%nat -> (1 <= degree f d < points f d)%nat.
Proof. intros Hd. destruct (co_curve _ _ C d Hd) as (e & De & Dg & _). unfold degree. rewrite Dg, Nat2Z.id. exact De. Qed.
Lemma node_lt d a : (d < 3)%nat -> (a < count f s d)%nat -> (node f s d a < points f d)%nat.
Proof. intros Hd A. apply control_lt; [apply degrees, Hd|exact A]. Qed.
Lemma nodes_points a b c : (a < points f 0)%nat -> (b < points f 1)%nat -> (c < points f 2)%nat -> point_index (f_mesh f) (Z.of_nat a, Z.of_nat b, Z.of_nat c).
Proof. intros A B Cc. apply grid_point; lia. Qed.
Lemma weights_ok a b c : (a < count f s 0)%nat -> (b < count f s 1)%nat -> (c < count f s 2)%nat -> 0 < w (node f s 0 a) (node f s 1 b) (node f s 2 c).
Proof. intros A B Cc. apply (values_positive f s w C Wp Hw). apply nodes_points; apply node_lt; try lia; assumption. Qed.
(** the nodes of the end of the azimuth of a cylinder are those of its beginning *)
Lemma ends_joined {A} (v : list A) F a c : node_values f v F -> s_kind s = CYLINDER -> s_ct1 s = PERIODIC -> (a < points f 0)%nat -> (c < points f 2)%nat ->
  F a (points f 1 - 1)%nat c = F a 0%nat c.
Proof.
  intros H K T Ha Hc. pose proof (degrees 1 ltac:(lia)) as D1.
  pose proof (nodes_points a (points f 1 - 1) c Ha ltac:(lia) Hc) as P. pose proof (nodes_points a 0 c Ha ltac:(lia) Hc) as P0.
  destruct (same_dof (f_lat f) s (co_good _ _ C) _ _ P P0) as (d & E & E0).
  - unfold rep3. change (m_shape (l_mesh (f_lat f))) with (m_shape (f_mesh f)). rewrite Sh, K. unfold lat_info. rewrite K. cbn [i_per]. unfold periodic. rewrite T. cbn [andb].
    assert (Z.of_nat (points f 1 - 1) = a_n (m_y (l_mesh (f_lat f)))) as ->.
    { unfold points in *. pose proof (dim_eqs (f_mesh f)) as (_ & Dy & _). rewrite Dy in *. unfold f_mesh in *. lia. }
    rewrite Z.eqb_refl. destruct (Z.eqb_spec (Z.of_nat 0) (a_n (m_y (l_mesh (f_lat f))))); reflexivity.
  - pose proof (H _ _ _ _ P E) as X. pose proof (H _ _ _ _ P0 E0) as X0. rewrite X in X0. injection X0 as X0. exact X0.
Qed.
Lemma span_gt d : (d < 3)%nat -> 0 < vent (s_span s) d.
Proof. intros Hd. destruct (gl_reach _ _ (co_good _ _ C)) as (kk & Re). apply (span_pos kk s d Re So Hd). Qed.
Lemma dir_cv q d : (d < 3)%nat -> (forall n, in_box s (q n)) -> forall k0 x0, in_span (knots_of f s d) k0 x0 -> Un_cv (fun n => vent (toLocalCoord s (q n)) d) x0 ->
  forall a, Un_cv (fun n => N (q n) d a) (bspline (knots_of f s d) k0 (degree f d) (Z.of_nat a) x0).
Proof.
  intros Hd B k0 x0 S0 X a. pose proof (degrees d Hd) as De.
  destruct (knots_gap (coord_type s d) (points f d) (degree f d) (vent (getLocalOrigin s) d) (vent (s_span s) d) De (span_gt d Hd)) as (Hp & Gp & J).
  apply (bspline_cv (knots_of f s d) _ Hp Gp J (degree f d) ltac:(lia) (fun n => span_of f s (q n) d) k0 (fun n => vent (toLocalCoord s (q n)) d) x0); [|exact S0|exact X].
  intros n. apply (dir_ok (q n) d (B n) Hd).
Qed.
Lemma continuous q q0 : in_box s q0 -> (forall n, in_box s (q n)) -> approach s q q0 -> tends (fun n => moved (q n)) (moved q0).
Proof.
  intros I0 B A.
  assert (T : forall i, (i < 3)%nat -> Un_cv (fun n => mean (q n) i) (mean q0 i)); [|intros i Hi; pose proof (T i Hi); destruct i as [|[|[|i]]]; try lia; assumption].
  intros i Hi.
  assert (Cd : forall d a, (d < 3)%nat -> Un_cv (fun n => vent (toLocalCoord s (q n)) d) (vent (toLocalCoord s q0) d) -> Un_cv (fun n => N (q n) d a) (N q0 d a)).
  { intros d a Hd X. refine (dir_cv q d Hd B _ _ _ X a). apply (dir_ok q0 d I0 Hd). }
  destruct (A 1%nat ltac:(lia)) as [X|(K & _ & T & E & X)].
  - apply cv_mean.
    + apply mean_den; [intros d Hd; apply (dir_ok q0 d I0 Hd)|apply weights_ok].
    + intros d a Hd _. apply Cd; [exact Hd|]. destruct (A d Hd) as [Y|(_ & -> & _)]; assumption.
  - set (n1 := points f 1). set (p1 := degree f 1). set (o1 := vent (getLocalOrigin s) 1) in *. set (w1 := vent (s_span s) 1) in *.
    pose proof (degrees 1 ltac:(lia)) as De. pose proof (span_gt 1 ltac:(lia)) as W1. destruct (dir_ok q0 1 I0 ltac:(lia)) as (S0 & K0 & _ & P0 & U0).
    unfold knots_of in S0. fold n1 p1 o1 w1 in S0, De, W1, K0. rewrite T, E in S0. cbn [knot_of] in S0.
    assert (N1 : forall a, N q0 1 a = bspline (uniform_knot n1 p1 o1 w1) (span_of f s q0 1) p1 (Z.of_nat a) o1).
    { intros a. unfold N, knots_of. fold n1 p1 o1 w1. rewrite T, E. reflexivity. }
    assert (C1 : count f s 1 = (n1 + p1)%nat) by (unfold count; rewrite T; reflexivity).
    set (G1 := fun a : nat => bspline (uniform_knot n1 p1 o1 w1) (Z.of_nat p1 + (Z.of_nat n1 - 1)) p1 (Z.of_nat a) (o1 + w1)).
    set (G := fun d a => match d with 1%nat => G1 a | _ => N q0 d a end).
    assert (Sm : forall F : nat -> R, F (n1 - 1)%nat = F 0%nat -> rsum (count f s 1) (fun b => G 1%nat b * F (node f s 1 b)) = rsum (count f s 1) (fun b => N q0 1 b * F (node f s 1 b))).
    { intros F HF. destruct (seam n1 p1 o1 w1 (span_of f s q0 1) F De W1 HF S0 ltac:(lia)) as [_ Q]. rewrite C1. unfold node. fold n1 p1. rewrite T. erewrite (rsum_ext _ (fun b => N q0 1 b * _)); [exact Q|]. intros b _. rewrite N1. reflexivity. }
    destruct (seam n1 p1 o1 w1 (span_of f s q0 1) (fun _ => 1) De W1 eq_refl S0 ltac:(lia)) as [S1 _].
    assert (Pos : forall a, 0 <= G1 a).
    { intros a. unfold G1. destruct (Z_lt_ge_dec (Z.of_nat a) (Z.of_nat n1 - 1)) as [L|L]; [rewrite bspline_zero by lia; lra|].
      assert (U : forall j, uniform_knot n1 p1 o1 w1 (j + (Z.of_nat n1 - 1))%Z = uniform_knot n1 p1 o1 w1 j + w1).
      { intros j. unfold uniform_knot. rewrite plus_IZR, minus_IZR, <- INR_IZR_INZ. assert (1 <= INR n1 - 1) by (replace (INR n1 - 1) with (INR (n1 - 1)) by (rewrite minus_INR by lia; reflexivity); apply (le_INR 1); lia). field. lra. }
      assert (Kp : span_of f s q0 1 = Z.of_nat p1).
      { assert (Sf : - / 2 <= shift p1 <= 0) by (unfold shift; destruct (Nat.odd p1); lra). destruct (knots_gap PERIODIC n1 p1 o1 w1 De W1) as (Hp & _).
        assert (span_of f s q0 1 < Z.of_nat p1 + 1)%Z; [|lia]. apply lt_IZR. rewrite plus_IZR, <- INR_IZR_INZ. destruct S0 as [_ [Q _]]. unfold uniform_knot in Q. set (h := w1 / (INR n1 - 1)) in *.
        assert ((IZR (span_of f s q0 1) - INR p1 + shift p1) * h <= 0) by lra. assert (IZR (span_of f s q0 1) - INR p1 + shift p1 <= 0) by nra. lra. }
      replace (Z.of_nat a) with (Z.of_nat (a - (n1 - 1)) + (Z.of_nat n1 - 1))%Z by lia. rewrite (bspline_shift _ _ w1 _ _ _ U), <- Kp. rewrite <- N1. apply P0. }
    assert (GF : forall d, (d < 3)%nat -> (forall a, 0 <= G d a) /\ rsum (count f s d) (G d) = 1).
    { intros d Hd. destruct d as [|[|[|d]]]; try lia; [apply (dir_ok q0 0 I0 ltac:(lia))| |apply (dir_ok q0 2 I0 ltac:(lia))].
      split; [exact Pos|]. rewrite <- U0. pose proof (Sm (fun _ => 1) eq_refl) as Q. erewrite rsum_ext; [|intros b _; symmetry; apply Rmult_1_r]. rewrite Q. apply rsum_ext. intros b _. apply Rmult_1_r. }
    assert (Eq : mean q0 i = weighted_mean (count f s) G (fun a b c => w (node f s 0 a) (node f s 1 b) (node f s 2 c)) (fun a b c => vent (y (node f s 0 a) (node f s 1 b) (node f s 2 c)) i)).
    { unfold mean. symmetry. apply (mean_seam (count f s) G (N q0) _ _ (fun a b c => w (node f s 0 a) b (node f s 2 c)) (fun a b c => vent (y (node f s 0 a) b (node f s 2 c)) i) (node f s 1)); try reflexivity.
      intros F (g & HF). apply Sm. rewrite !HF. apply rsum_ext. intros a Ha. apply rsum_ext. intros c Hc. unfold n1.
      rewrite (ends_joined _ _ _ _ Hw K T) by (apply node_lt; try lia; assumption). rewrite (ends_joined _ _ _ _ Hy K T) by (apply node_lt; try lia; assumption). reflexivity. }
    rewrite Eq. apply cv_mean.
    + apply mean_den; [exact GF|apply weights_ok].
    + intros d a Hd _. destruct d as [|[|[|d]]]; try lia.
      * apply Cd; [lia|]. destruct (A 0%nat ltac:(lia)) as [Y|(_ & Q & _)]; [exact Y|discriminate].
      * assert (S1' : in_span (knots_of f s 1) (Z.of_nat p1 + (Z.of_nat n1 - 1)) (o1 + w1)) by (unfold knots_of; rewrite T; exact S1).
        pose proof (dir_cv q 1 ltac:(lia) B _ _ S1' X a) as Y. unfold knots_of in Y. rewrite T in Y. exact Y.
      * apply Cd; [lia|]. destruct (A 2%nat ltac:(lia)) as [Y|(_ & Q & _)]; [exact Y|discriminate].
Qed.
End Continuous.

(** ** Boxes: points that tend to a point *)
Lemma box_approach s q q0 : s_kind s = CUBE -> tends q q0 -> approach s q q0.
Proof.
  intros K T d Hd. left.
  assert (Cx : forall r, Un_cv (fun n => dot (vsub (q n) (s_origin s)) r) (dot (vsub q0 (s_origin s)) r)).
  { intros r. pose proof (T 0%nat ltac:(lia)) as X. pose proof (T 1%nat ltac:(lia)) as Y. pose proof (T 2%nat ltac:(lia)) as Z. cbn [vent] in X, Y, Z. unfold dot, vsub. cbn [vx vy vz].
    assert (M : forall (x : nat -> R) l c k, Un_cv x l -> Un_cv (fun n => (x n - c) * k) ((l - c) * k)).
    { intros x l c k H. apply (CV_mult (fun n => x n - c) (fun _ => k)); [|apply cv_const]. apply (CV_minus x (fun _ => c)); [exact H|apply cv_const]. }
    apply (CV_plus (fun n => (vx (q n) - _) * _ + (vy (q n) - _) * _) (fun n => (vz (q n) - _) * _)); [|apply M, Z].
    apply (CV_plus (fun n => (vx (q n) - _) * _) (fun n => (vy (q n) - _) * _)); apply M; assumption. }
  unfold toLocalCoord. rewrite K. destruct d as [|[|[|d]]]; try lia; cbn [vent vx vy vz cdiv dots]; unfold Rdiv;
    (apply (CV_mult (fun n => dot (vsub (q n) (s_origin s)) _) (fun _ => / _)); [apply Cx|apply cv_const]).
Qed.
