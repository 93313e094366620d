(** The three nested loops of the evaluators as one sum over the nodes. *)
From Coq Require Import Reals List Arith ZArith Bool Lia Lra.
From Verif Require Import Vec Shape ShapeSpec Mesh MeshSpec MeshProofs Lattice LatticeSpec LatticeProofs LatticeBuild Ffd FfdSpec FfdBasis FfdKnots FfdCurve FfdSums.
Import ListNotations.
Open Scope R_scope.

Definition block (c0 c1 c2 : curve) (x0 x1 x2 : R) (g : Z -> Z -> Z -> R -> option hom) : option hom :=
  do k0 <- getKnotInterval c0 x0; do k1 <- getKnotInterval c1 x1; do k2 <- getKnotInterval c2 x2;
  do b0 <- basisITS0 c0 k0 x0; do b1 <- basisITS0 c1 k1 x1; do b2 <- basisITS0 c2 k2 x2;
  let u := (k0 - Z.of_nat (c_deg c0))%Z in let v := (k1 - Z.of_nat (c_deg c1))%Z in let w := (k2 - Z.of_nat (c_deg c2))%Z in
  accumulate (S (c_deg c0)) (fun i =>
    do y0 <- get b0 i;
    do t1 <- accumulate (S (c_deg c1)) (fun j =>
      do y1 <- get b1 j;
      do t2 <- accumulate (S (c_deg c2)) (fun k => do y2 <- get b2 k; g (u + Z.of_nat i)%Z (v + Z.of_nat j)%Z (w + Z.of_nat k)%Z y2);
      Some (hscale y1 t2));
    Some (hscale y0 t1)).
Notation "# c" := (length (c_nodes c)) (at level 5).
Lemma block_is c0 c1 c2 x0 x1 x2 d0 d1 d2 N0 N1 N2 g T :
  one_dir c0 d0 x0 N0 -> one_dir c1 d1 x1 N1 -> one_dir c2 d2 x2 N2 ->
  (forall a b c y, (a < #c0)%nat -> (b < #c1)%nat -> (c < #c2)%nat -> g (Z.of_nat a) (Z.of_nat b) (Z.of_nat c) y = Some (hscale y (T a b c))) ->
  exists h, block c0 c1 c2 x0 x1 x2 g = Some h /\
    forall e, hc e h = rsum (#c0) (fun a => rsum (#c1) (fun b => rsum (#c2) (fun c => N0 a * N1 b * N2 c * hc e (T a b c)))).
Proof.
  intros [P0 S0 (k0 & b0 & o0 & G0 & B0 & L0 & O0 & W0 & V0 & Z0) _] [P1 S1 (k1 & b1 & o1 & G1 & B1 & L1 & O1 & W1 & V1 & Z1) _] [P2 S2 (k2 & b2 & o2 & G2 & B2 & L2 & O2 & W2 & V2 & Z2) _] H.
  set (h2 := fun i j k => hscale (N2 (o2 + k)%nat) (T (o0 + i)%nat (o1 + j)%nat (o2 + k)%nat)).
  set (h1 := fun i j => hscale (N1 (o1 + j)%nat) (hsum (S (c_deg c2)) (h2 i j))).
  set (h0 := fun i => hscale (N0 (o0 + i)%nat) (hsum (S (c_deg c1)) (h1 i))).
  exists (hsum (S (c_deg c0)) h0). split.
  - unfold block. rewrite G0, G1, G2. cbn [bind]. rewrite B0, B1, B2. cbn [bind]. rewrite O0, O1, O2.
    apply accumulate_is. intros i Hi. rewrite V0 by exact Hi. cbn [bind].
    rewrite (accumulate_is _ _ (h1 i)); [reflexivity|]. intros j Hj. rewrite V1 by exact Hj. cbn [bind].
    rewrite (accumulate_is _ _ (h2 i j)); [reflexivity|]. intros k Hk. rewrite V2 by exact Hk. cbn [bind].
    rewrite <- !Nat2Z.inj_add. rewrite H by lia. reflexivity.
  - intros e. rewrite hc_sum. rewrite (rsum_window (#c0) o0 (S (c_deg c0))); [|exact W0|].
    2:{ intros a _ A. rewrite Z0 by exact A. apply rsum_zero. intros b _. apply rsum_zero. intros c _. lra. }
    apply rsum_ext. intros i Hi. unfold h0. rewrite hc_scale, hc_sum. rewrite (rsum_window (#c1) o1 (S (c_deg c1))); [|exact W1|].
    2:{ intros b _ A. rewrite Z1 by exact A. apply rsum_zero. intros c _. lra. }
    rewrite <- rsum_scale. apply rsum_ext. intros j Hj. unfold h1. rewrite hc_scale, hc_sum. rewrite (rsum_window (#c2) o2 (S (c_deg c2))); [|exact W2|].
    2:{ intros c _ A. rewrite Z2 by exact A. lra. }
    rewrite <- !rsum_scale. apply rsum_ext. intros k Hk. unfold h2. rewrite hc_scale. lra.
Qed.

(** ** The lattice *)
Section Grid.
Variables (f : ffd) (s : shape) (q : vec) (N0 N1 N2 : nat -> R).
Let m := f_mesh f.
Hypothesis G : good_lat (f_lat f) s.
Hypothesis E0 : one_dir (f_c0 f) (Z.to_nat (dim m 0)) (vx q) N0.
Hypothesis E1 : one_dir (f_c1 f) (Z.to_nat (dim m 1)) (vy q) N1.
Hypothesis E2 : one_dir (f_c2 f) (Z.to_nat (dim m 2)) (vz q) N2.
Hypothesis Ord : exists a b c, f_order f = orderDimension a b c.

(** the index on the grid of a node of the map *)
Definition at_node (c : curve) (a : nat) : Z := match zget (c_nodes c) (Z.of_nat a) with Some z => z | None => 0%Z end.
Definition numb (a b c : nat) : nat :=
  Z.to_nat (match accessDOFFromGrid (f_lat f) (accessPointIndex m (at_node (f_c0 f) a) (at_node (f_c1 f) b) (at_node (f_c2 f) c)) with Some d => d | None => 0%Z end).
Notation n0 := (#(f_c0 f)). Notation n1 := (#(f_c1 f)). Notation n2 := (#(f_c2 f)).
Lemma node_point a b c : (a < n0)%nat -> (b < n1)%nat -> (c < n2)%nat -> point_index m (at_node (f_c0 f) a, at_node (f_c1 f) b, at_node (f_c2 f) c).
Proof.
  intros A B C. pose proof (od_nodes _ _ _ _ E0 a A) as (z0 & Q0 & R0). pose proof (od_nodes _ _ _ _ E1 b B) as (z1 & Q1 & R1). pose proof (od_nodes _ _ _ _ E2 c C) as (z2 & Q2 & R2).
  unfold at_node. rewrite Q0, Q1, Q2. intros i Hi. destruct i as [|[|[|i]]]; cbn [comp]; lia.
Qed.
Lemma node_access a b c : (a < n0)%nat -> (b < n1)%nat -> (c < n2)%nat ->
  accessMapNodes f (Z.of_nat a, Z.of_nat b, Z.of_nat c) = Some (accessPointIndex m (at_node (f_c0 f) a) (at_node (f_c1 f) b) (at_node (f_c2 f) c)).
Proof.
  intros A B C. pose proof (od_nodes _ _ _ _ E0 a A) as (z0 & Q0 & R0). pose proof (od_nodes _ _ _ _ E1 b B) as (z1 & Q1 & R1). pose proof (od_nodes _ _ _ _ E2 c C) as (z2 & Q2 & R2).
  unfold at_node, accessMapNodes. rewrite Q0, Q1, Q2. reflexivity.
Qed.
Lemma node_number a b c : (a < n0)%nat -> (b < n1)%nat -> (c < n2)%nat ->
  accessDOFFromGrid (f_lat f) (accessPointIndex m (at_node (f_c0 f) a) (at_node (f_c1 f) b) (at_node (f_c2 f) c)) = Some (Z.of_nat (numb a b c)) /\
  (numb a b c < Z.to_nat (getNNodes (f_lat f)))%nat.
Proof.
  intros A B C. pose proof (api_range m _ (node_point a b c A B C)) as [Rg _].
  destruct (numbers (f_lat f) s G) as (_ & Nu & _). destruct (Nu _ Rg) as (d & D & Dr). unfold numb.
  change (api m (at_node (f_c0 f) a, at_node (f_c1 f) b, at_node (f_c2 f) c)) with (accessPointIndex m (at_node (f_c0 f) a) (at_node (f_c1 f) b) (at_node (f_c2 f) c)) in D.
  rewrite D. split; [f_equal; lia|lia].
Qed.
Lemma recover_node {A} (v : list A) (d : A) a b c : length v = Z.to_nat (getNNodes (f_lat f)) -> (a < n0)%nat -> (b < n1)%nat -> (c < n2)%nat ->
  recover f v (accessPointIndex m (at_node (f_c0 f) a) (at_node (f_c1 f) b) (at_node (f_c2 f) c)) = Some (nth (numb a b c) v d).
Proof.
  intros L Ha Hb Hc. destruct (node_number a b c Ha Hb Hc) as [D Dr]. unfold recover. unfold accessDOFFromGrid in D. rewrite D. cbn [bind].
  rewrite (zget_nth _ _ d) by lia. rewrite Nat2Z.id. reflexivity.
Qed.
(** the terms of the sum *)
Definition share (w : list R) (a b c : nat) : R := N0 a * N1 b * N2 c * nth (numb a b c) w 0.
Definition sum_nodes (g : nat -> nat -> nat -> R) : R := rsum n0 (fun a => rsum n1 (fun b => rsum n2 (fun c => g a b c))).
Lemma sum_ext g h : (forall a b c, (a < n0)%nat -> (b < n1)%nat -> (c < n2)%nat -> g a b c = h a b c) -> sum_nodes g = sum_nodes h.
Proof. intros H. unfold sum_nodes. apply rsum_ext. intros a A. apply rsum_ext. intros b B. apply rsum_ext. intros c C. apply H; assumption. Qed.

Lemma nested_is (w : list R) (D : list vec) : length w = Z.to_nat (getNNodes (f_lat f)) -> length D = Z.to_nat (getNNodes (f_lat f)) ->
  exists h, nested f (f_order f) (fun index x => do g <- recover f w index; do d <- recover f D index; Some (vscale (x * g) d, x * g)) q = Some h /\
    snd h = sum_nodes (share w) /\ forall i, (i < 3)%nat -> vent (fst h) i = sum_nodes (fun a b c => share w a b c * vent (nth (numb a b c) D vzero) i).
Proof.
  intros Lw LD. set (T := fun a b c => let g := nth (numb a b c) w 0 in (vscale g (nth (numb a b c) D vzero), g)).
  set (term := fun index x => do g <- recover f w index; do d <- recover f D index; Some (vscale (x * g) d, x * g)).
  assert (Te : forall a b c y, (a < n0)%nat -> (b < n1)%nat -> (c < n2)%nat ->
    (do index <- accessMapNodes f (Z.of_nat a, Z.of_nat b, Z.of_nat c); term index y) = Some (hscale y (T a b c))).
  { intros a b c y A B C. rewrite node_access by assumption. cbn [bind]. unfold term. rewrite (recover_node w 0), (recover_node D vzero) by assumption. cbn [bind].
    unfold hscale, T, vscale. cbn [fst snd vx vy vz]. apply (f_equal (@Some hom)). apply f_equal2; [|reflexivity]. f_equal; ring. }
  assert (Fin : forall h, (forall e, hc e h = sum_nodes (fun a b c => N0 a * N1 b * N2 c * hc e (T a b c))) ->
    snd h = sum_nodes (share w) /\ forall i, (i < 3)%nat -> vent (fst h) i = sum_nodes (fun a b c => share w a b c * vent (nth (numb a b c) D vzero) i)).
  { intros h H. split; [exact (H 3%nat)|]. intros i Hi. assert (X : vent (fst h) i = hc i h) by (destruct i as [|[|[|i]]]; try reflexivity; lia).
    rewrite X, H. apply sum_ext. intros a b c _ _ _. unfold share, T. destruct i as [|[|[|i]]]; try lia; cbn; ring. }
  destruct Ord as (oa & ob & oc & Oe). unfold nested. rewrite Oe. unfold orderDimension.
  assert (R012 : forall g, sum_nodes g = rsum n0 (fun a => rsum n1 (fun b => rsum n2 (fun c => g a b c)))) by reflexivity.
  assert (R021 : forall g, sum_nodes g = rsum n0 (fun a => rsum n2 (fun c => rsum n1 (fun b => g a b c)))).
  { intros g. unfold sum_nodes. apply rsum_ext. intros a _. apply rsum_swap. }
  assert (R102 : forall g, sum_nodes g = rsum n1 (fun b => rsum n0 (fun a => rsum n2 (fun c => g a b c)))).
  { intros g. unfold sum_nodes. apply (rsum_swap n0 n1 (fun a b => rsum n2 (fun c => g a b c))). }
  assert (R201 : forall g, sum_nodes g = rsum n2 (fun c => rsum n0 (fun a => rsum n1 (fun b => g a b c)))).
  { intros g. rewrite R021. apply (rsum_swap n0 n2 (fun a c => rsum n1 (fun b => g a b c))). }
  assert (R120 : forall g, sum_nodes g = rsum n1 (fun b => rsum n2 (fun c => rsum n0 (fun a => g a b c)))).
  { intros g. rewrite R102. apply rsum_ext. intros b _. apply rsum_swap. }
  assert (R210 : forall g, sum_nodes g = rsum n2 (fun c => rsum n1 (fun b => rsum n0 (fun a => g a b c)))).
  { intros g. rewrite R201. apply rsum_ext. intros c _. apply rsum_swap. }
  destruct (Z.leb oa ob); [destruct (Z.leb ob oc); [|destruct (Z.leb oa oc)]|destruct (Z.leb oa oc); [|destruct (Z.leb ob oc)]].
  - destruct (block_is (f_c0 f) (f_c1 f) (f_c2 f) (vx q) (vy q) (vz q) _ _ _ _ _ _ (fun a b c y => do index <- accessMapNodes f (a, b, c); term index y) (fun a b c => T a b c) E0 E1 E2) as (h & B & H); [|exists h; split; [exact B|]].
    + intros a b c y A1 A2 A3. exact (Te a b c y A1 A2 A3).
    + apply Fin. intros e. rewrite H, R012. reflexivity.
  - destruct (block_is (f_c0 f) (f_c2 f) (f_c1 f) (vx q) (vz q) (vy q) _ _ _ _ _ _ (fun a b c y => do index <- accessMapNodes f (a, c, b); term index y) (fun a b c => T a c b) E0 E2 E1) as (h & B & H); [|exists h; split; [exact B|]].
    + intros a b c y A1 A2 A3. exact (Te a c b y A1 A3 A2).
    + apply Fin. intros e. rewrite H, R021. apply rsum_ext. intros a _. apply rsum_ext. intros b _. apply rsum_ext. intros c _. ring.
  - destruct (block_is (f_c2 f) (f_c0 f) (f_c1 f) (vz q) (vx q) (vy q) _ _ _ _ _ _ (fun a b c y => do index <- accessMapNodes f (b, c, a); term index y) (fun a b c => T b c a) E2 E0 E1) as (h & B & H); [|exists h; split; [exact B|]].
    + intros a b c y A1 A2 A3. exact (Te b c a y A2 A3 A1).
    + apply Fin. intros e. rewrite H, R201. apply rsum_ext. intros a _. apply rsum_ext. intros b _. apply rsum_ext. intros c _. ring.
  - destruct (block_is (f_c1 f) (f_c0 f) (f_c2 f) (vy q) (vx q) (vz q) _ _ _ _ _ _ (fun a b c y => do index <- accessMapNodes f (b, a, c); term index y) (fun a b c => T b a c) E1 E0 E2) as (h & B & H); [|exists h; split; [exact B|]].
    + intros a b c y A1 A2 A3. exact (Te b a c y A2 A1 A3).
    + apply Fin. intros e. rewrite H, R102. apply rsum_ext. intros a _. apply rsum_ext. intros b _. apply rsum_ext. intros c _. ring.
  - destruct (block_is (f_c1 f) (f_c2 f) (f_c0 f) (vy q) (vz q) (vx q) _ _ _ _ _ _ (fun a b c y => do index <- accessMapNodes f (c, a, b); term index y) (fun a b c => T c a b) E1 E2 E0) as (h & B & H); [|exists h; split; [exact B|]].
    + intros a b c y A1 A2 A3. exact (Te c a b y A3 A1 A2).
    + apply Fin. intros e. rewrite H, R120. apply rsum_ext. intros a _. apply rsum_ext. intros b _. apply rsum_ext. intros c _. ring.
  - destruct (block_is (f_c2 f) (f_c1 f) (f_c0 f) (vz q) (vy q) (vx q) _ _ _ _ _ _ (fun a b c y => do index <- accessMapNodes f (c, b, a); term index y) (fun a b c => T c b a) E2 E1 E0) as (h & B & H); [|exists h; split; [exact B|]].
    + intros a b c y A1 A2 A3. exact (Te c b a y A3 A2 A1).
    + apply Fin. intros e. rewrite H, R210. apply rsum_ext. intros a _. apply rsum_ext. intros b _. apply rsum_ext. intros c _. ring.
Qed.

(** ** As a sum over the degrees of freedom *)
Variable w : list R.
Hypothesis Lw : length w = Z.to_nat (getNNodes (f_lat f)).
Hypothesis Wp : Forall (Rlt 0) w.
Let np := Z.to_nat (getNNodes (f_lat f)).
Lemma nth_pos n : (n < np)%nat -> 0 < nth n w 0.
Proof. intros H. rewrite Forall_forall in Wp. apply Wp, nth_In. rewrite Lw. exact H. Qed.
Lemma share_pos a b c : (a < n0)%nat -> (b < n1)%nat -> (c < n2)%nat -> 0 <= share w a b c.
Proof.
  intros A B C. unfold share. pose proof (od_pos _ _ _ _ E0 a). pose proof (od_pos _ _ _ _ E1 b). pose proof (od_pos _ _ _ _ E2 c).
  pose proof (nth_pos _ (proj2 (node_number a b c A B C))). repeat apply Rmult_le_pos; lra.
Qed.
Lemma low_bound : exists lo, 0 < lo /\ forall n, (n < np)%nat -> lo <= nth n w 0.
Proof.
  unfold np. rewrite <- Lw. clear Lw. induction w as [|x l IH].
  - exists 1. split; [lra|]. cbn [length]. intros; lia.
  - pose proof (Forall_inv Wp) as X. destruct (IH (Forall_inv_tail Wp)) as (lo & P & H). exists (Rmin x lo). split; [apply Rmin_glb_lt; assumption|].
    intros [|n] Hn; cbn [nth length] in *; [apply Rmin_l|]. eapply Rle_trans; [apply Rmin_r|]. apply H. lia.
Qed.
Lemma all_pos : 0 < sum_nodes (share w).
Proof.
  destruct low_bound as (lo & P & H). eapply Rlt_le_trans; [exact P|].
  assert (X : sum_nodes (fun a b c => N0 a * N1 b * N2 c * lo) = lo).
  { unfold sum_nodes. erewrite rsum_ext.
    2:{ intros a A. erewrite rsum_ext. 2:{ intros b B. rewrite rsum_scale_r. rewrite (rsum_scale n2 (N0 a * N1 b) N2), (od_sum _ _ _ _ E2). rewrite Rmult_1_r, (Rmult_comm (N0 a)), Rmult_assoc. reflexivity. }
        rewrite rsum_scale_r, (od_sum _ _ _ _ E1), Rmult_1_l. reflexivity. }
    rewrite rsum_scale_r, (od_sum _ _ _ _ E0). lra. }
  rewrite <- X at 1. unfold sum_nodes. apply rsum_le. intros a A. apply rsum_le. intros b B. apply rsum_le. intros c C. unfold share.
  apply Rmult_le_compat_l; [|apply H, node_number; assumption].
  pose proof (od_pos _ _ _ _ E0 a). pose proof (od_pos _ _ _ _ E1 b). pose proof (od_pos _ _ _ _ E2 c). repeat apply Rmult_le_pos; lra.
Qed.
Definition lambda (n : nat) : R := sum_nodes (fun a b c => if Nat.eqb (numb a b c) n then share w a b c else 0) / sum_nodes (share w).
Lemma lambda_pos n : 0 <= lambda n.
Proof.
  unfold lambda. apply Rmult_le_pos; [|apply Rlt_le, Rinv_0_lt_compat, all_pos]. unfold sum_nodes.
  apply rsum_nonneg. intros a A. apply rsum_nonneg. intros b B. apply rsum_nonneg. intros c C. destruct (Nat.eqb _ _); [apply share_pos; assumption|lra].
Qed.
Lemma lambda_sum (v : nat -> R) : rsum np (fun n => lambda n * v n) = sum_nodes (fun a b c => share w a b c * v (numb a b c)) / sum_nodes (share w).
Proof.
  unfold lambda. set (S := sum_nodes (share w)).
  erewrite rsum_ext. 2:{ intros n _. instantiate (1 := fun n => rsum n0 (fun a => rsum n1 (fun b => rsum n2 (fun c => if Nat.eqb (numb a b c) n then share w a b c * v n else 0))) * / S).
    cbv beta. unfold Rdiv. rewrite (Rmult_comm _ (/ S)), (Rmult_comm _ (/ S)), Rmult_assoc. f_equal. unfold sum_nodes. rewrite <- rsum_scale_r. apply rsum_ext. intros a _.
    rewrite <- rsum_scale_r. apply rsum_ext. intros b _. rewrite <- rsum_scale_r. apply rsum_ext. intros c _. destruct (Nat.eqb _ _); lra. }
  rewrite rsum_scale_r. unfold Rdiv. f_equal. unfold sum_nodes. rewrite rsum_swap. apply rsum_ext. intros a A. rewrite rsum_swap. apply rsum_ext. intros b B. rewrite rsum_swap. apply rsum_ext. intros c C.
  rewrite (rsum_pick np (numb a b c) (fun n => share w a b c * v n)); [reflexivity|]. apply node_number; assumption.
Qed.
Lemma lambda_one : rsum np lambda = 1.
Proof.
  pose proof (lambda_sum (fun _ => 1)) as H. erewrite rsum_ext in H; [|intros n _; apply Rmult_1_r]. rewrite H.
  erewrite sum_ext; [|intros a b c _ _ _; rewrite Rmult_1_r; reflexivity].
  assert (sum_nodes (fun a b c => share w a b c) <> 0) by (pose proof all_pos; change (sum_nodes (fun a b c => share w a b c)) with (sum_nodes (share w)); lra).
  change (sum_nodes (fun a b c => share w a b c)) with (sum_nodes (share w)) in *. field. assumption.
Qed.
End Grid.
