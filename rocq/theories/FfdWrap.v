(** Clamped, periodic and symmetric directions: the formula of the rational B-splines; the seam. *)
From Coq Require Import Reals List Arith ZArith Bool Lia Lra.
From Verif Require Import Vec Shape ShapeSpec Mesh MeshSpec MeshProofs Lattice LatticeSpec LatticeProofs LatticeBuild Ffd FfdSpec FfdBasis FfdKnots FfdCurve FfdSums FfdEval FfdReady FfdProofs FfdForms FfdMoves.
Import ListNotations.
Open Scope R_scope.

Lemma pre_half deg : (1 <= deg)%nat -> Z.of_nat (pre deg) = (Z.of_nat deg / 2)%Z.
Proof.
  intros D. unfold pre. pose proof (Nat.div_mod (deg - 1) 2 ltac:(lia)). pose proof (Nat.mod_upper_bound (deg - 1) 2 ltac:(lia)).
  pose proof (Z.div_mod (Z.of_nat deg) 2 ltac:(lia)). pose proof (Z.mod_pos_bound (Z.of_nat deg) 2 ltac:(lia)). lia.
Qed.
Lemma map_nodes t n p a : t <> UNCLAMPED -> (1 <= p < n)%nat -> length (setMapNodes t n p) = controls t n p /\
  ((a < controls t n p)%nat -> zget (setMapNodes t n p) (Z.of_nat a) = Some (Z.of_nat (control t n p a))).
Proof.
  intros T D. assert (P2 : (2 * pre p <= p)%nat /\ (p <= 2 * pre p + 1)%nat).
  { unfold pre. pose proof (Nat.div_mod (p - 1) 2 ltac:(lia)). pose proof (Nat.mod_upper_bound (p - 1) 2 ltac:(lia)). lia. }
  pose proof (pre_half p ltac:(lia)) as H. unfold setMapNodes, controls, control. rewrite <- H. clear H. destruct t; [contradiction| | |]; rewrite map_length, seq_length; (split; [lia|]); intros A.
  - rewrite (zget_nth _ _ (Z.of_nat 0)) by (rewrite map_length, seq_length; lia). rewrite map_nth, seq_nth by lia. f_equal. lia.
  - match goal with |- zget (map ?F _) _ = _ => rewrite (zget_nth _ _ (F 0%nat)) by (rewrite map_length, seq_length; lia); rewrite (map_nth F) end.
    rewrite seq_nth by lia. rewrite plus_O_n, Nat2Z.id. f_equal.
    destruct (Nat.ltb_spec a (pre p)); [|destruct (Nat.ltb_spec a (pre p + n))]; (destruct (Z.ltb_spec (Z.of_nat a - Z.of_nat (pre p)) 0); [|destruct (Z.ltb_spec (Z.of_nat n - 1) (Z.of_nat a - Z.of_nat (pre p)))]); lia.
  - match goal with |- zget (map ?F _) _ = _ => rewrite (zget_nth _ _ (F 0%nat)) by (rewrite map_length, seq_length; lia); rewrite (map_nth F) end.
    rewrite seq_nth by lia. rewrite plus_O_n, Nat2Z.id. f_equal.
    destruct (Nat.ltb_spec a (pre p)); [|destruct (Nat.ltb_spec a (pre p + n))]; (destruct (Z.ltb_spec (Z.of_nat a - Z.of_nat (pre p)) 0); [|destruct (Z.ltb_spec (Z.of_nat n - 1) (Z.of_nat a - Z.of_nat (pre p)))]); rewrite ?Z.rem_small by lia; lia.
Qed.

(** ** Three directions *)
Section Wrapped.
Variables (f : ffd) (s : shape) (q : vec).
Hypothesis C : core f s.
Hypothesis So : ShapeSpec.solid s.
Hypothesis Sp : spaced f s.
Hypothesis Nu : never_unclamped s.
Hypothesis In : in_box s q.
Hypothesis Wp : positive_weights f.
Let p := toLocalCoord s q.
Definition knots_of (d : nat) : Z -> R := knot_of (coord_type s d) (points f d) (degree f d) (vent (getLocalOrigin s) d) (vent (s_span s) d).
Definition count (d : nat) : nat := controls (coord_type s d) (points f d) (degree f d).
Definition node (d a : nat) : nat := control (coord_type s d) (points f d) (degree f d) a.
Lemma wrapped_dir d : (d < 3)%nat -> exists k, getKnotInterval (curve_of f d) (vent p d) = Some k /\ in_span (knots_of d) k (vent p d) /\ (Z.of_nat (degree f d) <= k < Z.of_nat (count d))%Z /\ (1 <= degree f d < points f d)%nat /\ length (c_nodes (curve_of f d)) = count d /\
  (forall a, (a < count d)%nat -> at_node (curve_of f d) a = Z.of_nat (node d a)) /\
  one_dir (curve_of f d) (dimn f d) (vent p d) (fun a => bspline (knots_of d) k (degree f d) (Z.of_nat a) (vent p d)).
Proof.
  intros Hd. destruct (co_curve _ _ C d Hd) as (e & De & Dg & E). destruct (gl_reach _ _ (co_good _ _ C)) as (kk & Re).
  destruct (span_pos kk s d Re So Hd) as [W _]. pose proof (In d Hd) as X. fold p in X. assert (De' : degree f d = e) by (unfold degree; rewrite Dg; lia).
  assert (F : c_deg (curve_of f d) = e /\ c_nodes (curve_of f d) = setMapNodes (coord_type s d) (dimn f d) e /\
     fits (curve_of f d) (dimn f d) (knot_of (coord_type s d) (dimn f d) e (vent (getLocalOrigin s) d) (vent (s_span s) d)) (vent (getLocalOrigin s) d) (vent (getLocalOrigin s) d + vent (s_span s) d)).
  { assert (Un : wraps (coord_type s d) -> 2 * tol <= vent (s_span s) d / INR (dimn f d - 1)).
    { intros Wt. pose proof (Sp d Hd Wt) as Y. unfold tol. rewrite INR_IZR_INZ. replace (Z.of_nat (dimn f d - 1)) with (dim (f_mesh f) d - 1)%Z by (unfold dimn in *; lia). lra. }
    assert (G : wraps (coord_type s d) -> c_deg (curve_of f d) = e /\ c_nodes (curve_of f d) = setMapNodes (coord_type s d) (dimn f d) e /\
       fits (curve_of f d) (dimn f d) (uniform_knot (dimn f d) e (vent (getLocalOrigin s) d) (vent (s_span s) d)) (vent (getLocalOrigin s) d) (vent (getLocalOrigin s) d + vent (s_span s) d)).
    { intros Wt. destruct (uniform_fits (dimn f d) e (vent (getLocalOrigin s) d) (vent (s_span s) d) De W (origin_cases s d Hd) (Un Wt) _ Wt) as (c & E' & Dc & _ & Nc & F).
      rewrite E in E'. injection E' as E'. rewrite <- E' in *. split; [exact Dc|]. split; [exact Nc|exact F]. }
    pose proof (Nu d Hd) as Tu. destruct (coord_type s d) eqn:T; [contradiction| |apply G; left; reflexivity|apply G; right; reflexivity].
    destruct (clamped_fits _ _ _ _ De W _ E) as (Dc & _ & _ & _ & F). split; [exact Dc|]. split; [|exact F].
    unfold setKnotsStructure in E. destruct (setKnots _ _ _ _ _); [|discriminate]. cbn [bind] in E. injection E as <-. reflexivity. }
  destruct F as (Dc & Nc & F). destruct (fit_span _ _ _ _ _ F (vent p d) X) as (k0 & G0 & K0 & _ & _ & K1).
  destruct (direction _ _ _ _ _ _ F X) as (k & G & S & O). rewrite G in G0. injection G0 as <-. exists k. unfold knots_of, count, node. change (points f d) with (dimn f d). rewrite De'. rewrite Dc in O.
  split; [exact G|]. split; [exact S|]. destruct (map_nodes (coord_type s d) (dimn f d) e 0 (Nu d Hd) De) as [Ln _]. rewrite <- Nc in Ln.
  split; [rewrite <- Ln; lia|]. split; [exact De|]. split; [exact Ln|]. split; [|exact O].
  intros a Ha. unfold at_node. destruct (map_nodes (coord_type s d) (dimn f d) e a (Nu d Hd) De) as [_ Na]. rewrite Nc, Na by exact Ha. reflexivity.
Qed.
Lemma wrapped_values {A} (v : list A) F d0 : length v = nodes f -> node_values f v F -> forall a b c, (a < count 0)%nat -> (b < count 1)%nat -> (c < count 2)%nat -> nth (numb f a b c) v d0 = F (node 0 a) (node 1 b) (node 2 c).
Proof.
  intros Lv H a b c Ha Hb Hc. destruct (wrapped_dir 0 ltac:(lia)) as (k0 & _ & _ & _ & _ & L0 & A0 & O0). destruct (wrapped_dir 1 ltac:(lia)) as (k1 & _ & _ & _ & _ & L1 & A1 & O1). destruct (wrapped_dir 2 ltac:(lia)) as (k2 & _ & _ & _ & _ & L2 & A2 & O2).
  cbn [curve_of vent] in *.
  assert (Ha' : (a < length (c_nodes (f_c0 f)))%nat) by (rewrite L0; exact Ha). assert (Hb' : (b < length (c_nodes (f_c1 f)))%nat) by (rewrite L1; exact Hb). assert (Hc' : (c < length (c_nodes (f_c2 f)))%nat) by (rewrite L2; exact Hc).
  pose proof (node_point f p _ _ _ O0 O1 O2 a b c Ha' Hb' Hc') as P.
  destruct (node_number f s p _ _ _ (co_good _ _ C) O0 O1 O2 a b c Ha' Hb' Hc') as [Nu' Nr].
  rewrite A0, A1, A2 in P, Nu' by assumption. pose proof (H _ _ _ _ P Nu') as Z. rewrite (zget_nth _ _ d0) in Z by (rewrite Lv; unfold nodes; lia). rewrite Nat2Z.id in Z. injection Z as Z. exact Z.
Qed.
Definition span_of (d : nat) : Z := match getKnotInterval (curve_of f d) (vent p d) with Some k => k | None => 0%Z end.
Lemma wrapped_form : let k := span_of in (forall d, (d < 3)%nat -> in_span (knots_of d) (k d) (vent p d) /\ (Z.of_nat (degree f d) <= k d < Z.of_nat (count d))%Z /\ (1 <= degree f d < points f d)%nat /\
      (forall a, 0 <= bspline (knots_of d) (k d) (degree f d) (Z.of_nat a) (vent p d)) /\
      rsum (count d) (fun a => bspline (knots_of d) (k d) (degree f d) (Z.of_nat a) (vent p d)) = 1) /\
    forall w D y world m, length D = nodes f -> node_values f (f_weights f) w -> node_values f D y ->
      (forall i, (i < 3)%nat -> vent m i = weighted_mean count (fun d a => bspline (knots_of d) (k d) (degree f d) (Z.of_nat a) (vent p d))
         (fun a b c => w (node 0 a) (node 1 b) (node 2 c)) (fun a b c => vent (y (node 0 a) (node 1 b) (node 2 c)) i)) ->
      evaluates f s D world q m.
Proof.
  intros k.
  destruct (wrapped_dir 0 ltac:(lia)) as (k0 & G0 & S0 & K0 & De0 & L0 & _ & O0). destruct (wrapped_dir 1 ltac:(lia)) as (k1 & G1 & S1 & K1 & De1 & L1 & _ & O1). destruct (wrapped_dir 2 ltac:(lia)) as (k2 & G2 & S2 & K2 & De2 & L2 & _ & O2).
  assert (E0 : k 0%nat = k0) by (unfold k, span_of; rewrite G0; reflexivity). assert (E1 : k 1%nat = k1) by (unfold k, span_of; rewrite G1; reflexivity). assert (E2 : k 2%nat = k2) by (unfold k, span_of; rewrite G2; reflexivity).
  clearbody k. rewrite <- E0, <- E1, <- E2 in *. clear G0 G1 G2 E0 E1 E2. split.
  - assert (K : forall d n c x N, one_dir c d x N -> length (c_nodes c) = n -> (forall a, 0 <= N a) /\ rsum n N = 1) by (intros d n c x N [P S _ _] Ln; rewrite Ln in S; split; assumption).
    intros d Hd. destruct d as [|[|[|d]]]; try lia; (split; [assumption|split; [assumption|split; [assumption|eapply K; eassumption]]]).
  - intros w D y world m LD Hw Hy M f' L Ed Eg. subst D world. cbn [curve_of vent] in O0, O1, O2, L0, L1, L2.
    destruct (evaluate_sum f s q C So _ _ _ O0 O1 O2 Wp f' L LD) as (m' & E & M'). rewrite E. f_equal. f_equal. apply vent_ext. intros i Hi. rewrite M, M' by exact Hi.
    unfold weighted_mean, sum_nodes. rewrite L0, L1, L2. fold p. cbn [vent].
    unfold Rdiv. apply f_equal2; [|apply f_equal]; apply rsum_ext; intros a Ha; apply rsum_ext; intros b Hb; apply rsum_ext; intros c Hc; unfold share; cbn [vent];
      rewrite (wrapped_values (f_weights f) w 0 (co_weights _ _ C) Hw) by assumption; try reflexivity.
    rewrite (wrapped_values (f_displ f') y vzero LD Hy) by assumption. reflexivity.
Qed.
End Wrapped.
