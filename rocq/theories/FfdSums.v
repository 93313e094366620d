(** Finite sums, and the accumulation loops of the evaluators. *)
From Coq Require Import Reals List Arith ZArith Bool Lia Lra.
From Verif Require Import Vec Shape Mesh Lattice Ffd FfdSpec FfdBasis FfdKnots FfdCurve.
Import ListNotations.
Open Scope R_scope.

Lemma rsum_ext n f g : (forall i, (i < n)%nat -> f i = g i) -> rsum n f = rsum n g.
Proof. induction n as [|n IH]; intros H; cbn [rsum]; [reflexivity|]. rewrite IH, H by (intros; try apply H; lia). reflexivity. Qed.
Lemma rsum_plus n f g : rsum n (fun i => f i + g i) = rsum n f + rsum n g.
Proof. induction n as [|n IH]; cbn [rsum]; [lra|]. rewrite IH. lra. Qed.
Lemma rsum_scale n k f : rsum n (fun i => k * f i) = k * rsum n f.
Proof. induction n as [|n IH]; cbn [rsum]; [lra|]. rewrite IH. lra. Qed.
Lemma rsum_scale_r n k f : rsum n (fun i => f i * k) = rsum n f * k.
Proof. induction n as [|n IH]; cbn [rsum]; [lra|]. rewrite IH. lra. Qed.
Lemma rsum_zero n f : (forall i, (i < n)%nat -> f i = 0) -> rsum n f = 0.
Proof. induction n as [|n IH]; intros H; cbn [rsum]; [reflexivity|]. rewrite IH, H by (intros; try apply H; lia). lra. Qed.
Lemma rsum_swap n m f : rsum n (fun i => rsum m (fun j => f i j)) = rsum m (fun j => rsum n (fun i => f i j)).
Proof. induction n as [|n IH]; cbn [rsum]; [symmetry; apply rsum_zero; reflexivity|]. rewrite IH, <- rsum_plus. reflexivity. Qed.
Lemma rsum_nonneg n f : (forall i, (i < n)%nat -> 0 <= f i) -> 0 <= rsum n f.
Proof. induction n as [|n IH]; intros H; cbn [rsum]; [lra|]. pose proof (IH ltac:(intros; apply H; lia)). pose proof (H n ltac:(lia)). lra. Qed.
Lemma rsum_le n f g : (forall i, (i < n)%nat -> f i <= g i) -> rsum n f <= rsum n g.
Proof. induction n as [|n IH]; intros H; cbn [rsum]; [lra|]. pose proof (IH ltac:(intros; apply H; lia)). pose proof (H n ltac:(lia)). lra. Qed.
Lemma rsum_app n m f : rsum (n + m) f = rsum n f + rsum m (fun i => f (n + i)%nat).
Proof. induction m as [|m IH]; [rewrite Nat.add_0_r; cbn [rsum]; lra|]. rewrite Nat.add_succ_r. cbn [rsum]. rewrite IH. lra. Qed.
(** a sum with a window of non zero terms *)
Lemma rsum_window n s m f : (s + m <= n)%nat -> (forall a, (a < n)%nat -> (a < s \/ s + m <= a)%nat -> f a = 0) -> rsum n f = rsum m (fun i => f (s + i)%nat).
Proof.
  intros H Z. replace n with (s + (m + (n - s - m)))%nat by lia. rewrite rsum_app, rsum_app.
  rewrite (rsum_zero s) by (intros; apply Z; lia). rewrite (rsum_zero (n - s - m)) by (intros; apply Z; lia). lra.
Qed.
(** a sum of weights with an indicator *)
Lemma rsum_pick n k f : (k < n)%nat -> rsum n (fun i => if Nat.eqb k i then f i else 0) = f k.
Proof.
  intros H. rewrite (rsum_window n k 1); [cbn [rsum]; rewrite Nat.add_0_r, Nat.eqb_refl; lra|lia|].
  intros a A B. destruct (Nat.eqb_spec k a); [lia|reflexivity].
Qed.
Lemma total_rsum l : total l = rsum (length l) (fun i => nth i l 0).
Proof.
  induction l as [|x l IH]; [reflexivity|]. cbn [total fold_right length]. fold (total l). rewrite IH.
  change (S (length l)) with (1 + length l)%nat. rewrite rsum_app. cbn [rsum nth plus]. lra.
Qed.

Definition hsum (n : nat) (f : nat -> hom) : hom := (vtotal n (fun i => fst (f i)), rsum n (fun i => snd (f i))).
Lemma accumulate_is n f g : (forall i, (i < n)%nat -> f i = Some (g i)) -> accumulate n f = Some (hsum n g).
Proof.
  intros H. unfold accumulate. induction n as [|n IH]; [reflexivity|]. rewrite seq_S, loop_snoc, IH by (intros; apply H; lia). cbn [bind plus].
  rewrite H by lia. reflexivity.
Qed.

(** the value of one component of the accumulated four numbers *)
Definition hc (c : nat) (h : hom) : R := match c with 0%nat => vx (fst h) | 1%nat => vy (fst h) | 2%nat => vz (fst h) | _ => snd h end.
Lemma hc_sum c n f : hc c (hsum n f) = rsum n (fun i => hc c (f i)).
Proof. destruct c as [|[|[|c]]]; reflexivity. Qed.
Lemma hc_scale c k h : hc c (hscale k h) = k * hc c h.
Proof. destruct h as [v w]. destruct c as [|[|[|c]]]; reflexivity. Qed.
Lemma hom_ext h h' : (forall c, (c < 4)%nat -> hc c h = hc c h') -> h = h'.
Proof.
  intros H. destruct h as [[x y z] w], h' as [[x' y' z'] w']. pose proof (H 0%nat ltac:(lia)). pose proof (H 1%nat ltac:(lia)). pose proof (H 2%nat ltac:(lia)). pose proof (H 3%nat ltac:(lia)).
  cbn in *. congruence.
Qed.

(** ** One direction at one coordinate: the values of all the basis functions, those of the window
    being the computed ones *)
Record one_dir (c : curve) (dim : nat) (x : R) (N : nat -> R) : Prop := {
  od_pos : forall a, 0 <= N a;
  od_sum : rsum (length (c_nodes c)) N = 1;
  od_run : exists k b off, getKnotInterval c x = Some k /\ basisITS0 c k x = Some b /\ length b = S (c_deg c) /\ (k - Z.of_nat (c_deg c) = Z.of_nat off)%Z /\
    (off + S (c_deg c) <= length (c_nodes c))%nat /\ (forall i, (i < S (c_deg c))%nat -> get b i = Some (N (off + i)%nat)) /\
    (forall a, (a < off \/ off + S (c_deg c) <= a)%nat -> N a = 0);
  od_nodes : forall i, (i < length (c_nodes c))%nat -> exists z, zget (c_nodes c) (Z.of_nat i) = Some z /\ (0 <= z < Z.of_nat dim)%Z }.

Lemma direction c dim u lo hi x : fits c dim u lo hi -> lo <= x <= hi ->
  exists k, getKnotInterval c x = Some k /\ in_span u k x /\ one_dir c dim x (fun a => bspline u k (c_deg c) (Z.of_nat a) x).
Proof.
  intros F X. destruct (fit_span _ _ _ _ _ F x X) as (k & G & K1 & K2 & S & K3). exists k. split; [exact G|]. split; [exact S|].
  set (n := c_deg c) in *. assert (T : (Z.of_nat n <= k)%Z) by exact K1.
  assert (Low : forall a, (1 <= a <= n)%nat -> getKnotValue c (k + 1 - Z.of_nat a) = Some (u (k + 1 - Z.of_nat a)%Z)) by (intros a A; apply (fit_value _ _ _ _ _ F); lia).
  assert (High : forall a, (1 <= a <= n)%nat -> getKnotValue c (k + Z.of_nat a) = Some (u (k + Z.of_nat a)%Z)) by (intros a A; apply (fit_value _ _ _ _ _ F); lia).
  destruct S as [S1 S2].
  assert (In : forall a, (1 <= a <= n)%nat -> u (k + 1 - Z.of_nat a)%Z <= u k /\ u (k + 1)%Z <= u (k + Z.of_nat a)%Z).
  { intros a A. split; apply (fit_mono _ _ _ _ _ F); lia. }
  assert (Ap : forall a b, (1 <= a)%nat -> (1 <= b)%nat -> (a + b <= n + 1)%nat -> u (k + 1 - Z.of_nat b)%Z < u (k + Z.of_nat a)%Z).
  { intros a b A B C. pose proof (In a ltac:(lia)). pose proof (In b ltac:(lia)). lra. }
  pose proof (basis_level c k x u Low High Ap) as B. fold n in B.
  pose proof (turns_level c k x u Ap n (le_n _)) as TL.
  pose proof (turns_sum c k x u Ap n (le_n _)) as TS.
  assert (TP : Forall (Rle 0) (turns k x u n)). { apply (turns_pos c k x u Ap n (le_n _)). intros a A. pose proof (In a A). lra. }
  assert (Nth : forall i, (i < S n)%nat -> nth i (level k x u n) 0 = bspline u k n (k - Z.of_nat n + Z.of_nat i) x).
  { intros i Hi. unfold level. match goal with |- nth _ (map ?F _) _ = _ => rewrite (nth_indep _ 0 (F 0%nat)) by (rewrite map_length, seq_length; exact Hi); rewrite (map_nth F) end.
    rewrite seq_nth by exact Hi. reflexivity. }
  assert (Len : length (level k x u n) = S n) by (unfold level; rewrite map_length, seq_length; reflexivity).
  set (off := Z.to_nat (k - Z.of_nat n)). assert (Off : (k - Z.of_nat n = Z.of_nat off)%Z) by (unfold off; lia). clearbody off.
  assert (Out : forall a, (a < off \/ off + S n <= a)%nat -> bspline u k n (Z.of_nat a) x = 0) by (intros a A; apply (bspline_out c); lia).
  assert (LN : (off + S n <= length (c_nodes c))%nat) by lia.
  constructor.
  - intros a. fold n. destruct (le_lt_dec off a) as [A|A]; [|rewrite Out by lia; lra]. destruct (le_lt_dec (off + S n) a) as [A'|A']; [rewrite Out by lia; lra|].
    replace (Z.of_nat a) with (k - Z.of_nat n + Z.of_nat (a - off))%Z by lia. rewrite <- Nth by lia. rewrite <- TL. rewrite Forall_forall in TP. apply TP. apply nth_In. rewrite TL, Len. lia.
  - fold n. rewrite (rsum_window _ off (S n)); [|lia|intros a A1 A2; apply Out; exact A2]. rewrite <- TS, TL, total_rsum, Len. apply rsum_ext. intros i Hi. rewrite Nth by exact Hi. f_equal. lia.
  - exists k, (level k x u n), off. split; [exact G|]. split; [exact B|]. split; [exact Len|]. split; [exact Off|]. split; [exact LN|]. split; [|exact Out].
    intros i Hi. rewrite (get_ok _ i 0) by (rewrite Len; exact Hi). rewrite Nth by exact Hi. f_equal. f_equal. lia.
  - intros i Hi. apply (fit_nodes _ _ _ _ _ F). lia.
Qed.
