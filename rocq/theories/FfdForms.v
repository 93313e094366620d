(** Clamped directions: the formula of the rational B-splines, Bezier volumes, corners. *)
From Coq Require Import Reals List Arith ZArith Bool Lia Lra.
From Verif Require Import Vec Shape ShapeSpec Mesh MeshSpec MeshProofs Lattice LatticeSpec LatticeProofs LatticeBuild Ffd FfdSpec FfdBasis FfdKnots FfdCurve FfdSums FfdEval FfdReady FfdProofs.
Import ListNotations.
Open Scope R_scope.

(** ** One direction *)
Lemma ratio_one a b : b <> 0 -> a = b -> ratio a b = 1.
Proof. intros H ->. unfold ratio. destruct (Req_EM_T b 0); [contradiction|]. field. exact H. Qed.
(** at the first knot of a run of equal knots *)
Lemma bspline_first u k p x : u k = x -> u k < u (k + 1)%Z -> (forall j, (1 <= j <= p)%nat -> u (k - Z.of_nat j + 1)%Z = x) -> bspline u k p (k - Z.of_nat p) x = 1.
Proof.
  intros K L E. induction p as [|p IH]; cbn [bspline]; [rewrite Z.sub_0_r, Z.eqb_refl; reflexivity|].
  rewrite (bspline_out (Cu 0 [] [] []) k x u p (k - Z.of_nat (S p))) by lia. rewrite Rmult_0_r, Rplus_0_l.
  replace (k - Z.of_nat (S p) + Z.of_nat (S p) + 1)%Z with (k + 1)%Z by lia.
  replace (bspline u k p (k - Z.of_nat (S p) + 1) x) with 1. 2:{ replace (k - Z.of_nat (S p) + 1)%Z with (k - Z.of_nat p)%Z by lia. symmetry. apply IH. intros j Hj. apply E. lia. }
  rewrite (E (S p)) by lia. rewrite ratio_one; [lra|lra|reflexivity].
Qed.
Lemma bspline_last u k p x : u (k + 1)%Z = x -> u k < u (k + 1)%Z -> (forall j, (1 <= j <= p)%nat -> u (k + Z.of_nat j)%Z = x) -> bspline u k p k x = 1.
Proof.
  intros K L E. induction p as [|p IH]; cbn [bspline]; [rewrite Z.eqb_refl; reflexivity|].
  rewrite (bspline_out (Cu 0 [] [] []) k x u p (k + 1)) by lia. rewrite IH by (intros j Hj; apply E; lia). rewrite (E (S p)) by lia.
  rewrite ratio_one; [lra|lra|reflexivity].
Qed.
Lemma only_one n N a : (a < n)%nat -> (forall i, 0 <= N i) -> rsum n N = 1 -> N a = 1 -> forall i, (i < n)%nat -> i <> a -> N i = 0.
Proof.
  intros Ha P S A i Hi Ne. assert (X : rsum n N - 1 = rsum n (fun i => if Nat.eqb a i then 0 else N i)).
  { rewrite <- A, <- (rsum_pick n a N Ha). replace (rsum n N) with (rsum n (fun i => (if Nat.eqb a i then N i else 0) + (if Nat.eqb a i then 0 else N i))).
    - rewrite rsum_plus. lra.
    - apply rsum_ext. intros j _. destruct (Nat.eqb a j); lra. }
  assert (Y : (if Nat.eqb a i then 0 else N i) <= rsum n (fun i => if Nat.eqb a i then 0 else N i)).
  { set (g := fun i => if Nat.eqb a i then 0 else N i). change (g i <= rsum n g). assert (Pg : forall i, 0 <= g i) by (intros j; unfold g; destruct (Nat.eqb a j); [lra|apply P]).
    clear - Hi Pg. induction n as [|n IH]; [lia|]. cbn [rsum]. destruct (Nat.eq_dec i n) as [->|Ne].
    - pose proof (rsum_nonneg n g (fun i _ => Pg i)). lra.
    - pose proof (IH ltac:(lia)). pose proof (Pg n). lra. }
  destruct (Nat.eqb_spec a i); [congruence|]. pose proof (P i). lra.
Qed.

Section Bezier.
Variables (p : nat) (o w x : R).
Hypothesis W : 0 < w.
Let u := clamped_knot (S p) p o w.
Let t := (x - o) / w.
Lemma knot_low i : (i <= Z.of_nat p)%Z -> u i = o.
Proof. intros H. unfold u, clamped_knot. destruct (Z.leb_spec i (Z.of_nat p)); [reflexivity|lia]. Qed.
Lemma knot_high i : (Z.of_nat p < i)%Z -> u i = o + w.
Proof. intros H. unfold u, clamped_knot. destruct (Z.leb_spec i (Z.of_nat p)); [lia|]. destruct (Z.leb_spec (Z.of_nat (S p)) i); [reflexivity|lia]. Qed.
Lemma bezier_level j : (j <= p)%nat -> forall r, (r <= j)%nat -> bspline u (Z.of_nat p) j (Z.of_nat p - Z.of_nat j + Z.of_nat r) x = bernstein j r t.
Proof.
  induction j as [|j IH]; intros Hj r Hr.
  - replace r with 0%nat by lia. cbn [bspline]. unfold bernstein. cbn [Nat.sub pow]. unfold Z.of_nat at 2 3. rewrite Z.sub_0_r, Z.add_0_r, Z.eqb_refl. unfold Binomial.C. cbn. field.
  - cbn [bspline].
    assert (A : ratio (x - u (Z.of_nat p - Z.of_nat (S j) + Z.of_nat r)%Z) (u (Z.of_nat p - Z.of_nat (S j) + Z.of_nat r + Z.of_nat (S j))%Z - u (Z.of_nat p - Z.of_nat (S j) + Z.of_nat r)%Z)
       * bspline u (Z.of_nat p) j (Z.of_nat p - Z.of_nat (S j) + Z.of_nat r) x = match r with O => 0 | S r' => t * bernstein j r' t end).
    { destruct r as [|r'].
      - rewrite (bspline_out (Cu 0 [] [] [])) by lia. lra.
      - replace (Z.of_nat p - Z.of_nat (S j) + Z.of_nat (S r') + Z.of_nat (S j))%Z with (Z.of_nat p + Z.of_nat (S r'))%Z by lia.
        replace (Z.of_nat p - Z.of_nat (S j) + Z.of_nat (S r'))%Z with (Z.of_nat p - Z.of_nat j + Z.of_nat r')%Z by lia.
        rewrite IH by lia. rewrite knot_low, knot_high by lia. unfold ratio. destruct (Req_EM_T _ 0); [lra|]. f_equal. unfold t. field. lra. }
    assert (B : ratio (u (Z.of_nat p - Z.of_nat (S j) + Z.of_nat r + Z.of_nat (S j) + 1)%Z - x) (u (Z.of_nat p - Z.of_nat (S j) + Z.of_nat r + Z.of_nat (S j) + 1)%Z - u (Z.of_nat p - Z.of_nat (S j) + Z.of_nat r + 1)%Z)
       * bspline u (Z.of_nat p) j (Z.of_nat p - Z.of_nat (S j) + Z.of_nat r + 1) x = if Nat.eqb r (S j) then 0 else (1 - t) * bernstein j r t).
    { destruct (Nat.eqb_spec r (S j)) as [->|Ne].
      - rewrite (bspline_out (Cu 0 [] [] [])) by lia. lra.
      - replace (Z.of_nat p - Z.of_nat (S j) + Z.of_nat r + Z.of_nat (S j) + 1)%Z with (Z.of_nat p + Z.of_nat r + 1)%Z by lia.
        replace (Z.of_nat p - Z.of_nat (S j) + Z.of_nat r + 1)%Z with (Z.of_nat p - Z.of_nat j + Z.of_nat r)%Z by lia.
        rewrite IH by lia. rewrite knot_high, knot_low by lia. unfold ratio. destruct (Req_EM_T _ 0); [lra|]. f_equal. unfold t. field. lra. }
    rewrite A, B. unfold bernstein. destruct r as [|r'].
    + destruct (Nat.eqb_spec 0 (S j)); [lia|]. unfold Binomial.C. rewrite !Nat.sub_0_r. cbn [pow fact INR].
      assert (Fj : INR (fact j) <> 0) by apply INR_fact_neq_0. assert (Fj' : INR (fact (S j)) <> 0) by apply INR_fact_neq_0. cbn [fact INR] in Fj'. field. split; assumption.
    + destruct (Nat.eqb_spec (S r') (S j)) as [E|Ne].
      * injection E as ->. rewrite !Nat.sub_diag. cbn [pow]. unfold Binomial.C. rewrite !Nat.sub_diag. cbn [fact INR].
        assert (Fj : INR (fact j) <> 0) by apply INR_fact_neq_0. assert (Fj' : INR (fact (S j)) <> 0) by apply INR_fact_neq_0. cbn [fact INR] in Fj'. field. split; assumption.
      * rewrite <- (pascal j r') by lia. replace (S j - S r')%nat with (S (j - S r'))%nat by lia. replace (j - r')%nat with (S (j - S r'))%nat by lia. cbn [pow]. ring.
Qed.
Lemma bezier_basis i : (i <= p)%nat -> bspline u (Z.of_nat p) p (Z.of_nat i) x = bernstein p i t.
Proof. intros H. rewrite <- bezier_level by lia. f_equal. lia. Qed.
Lemma bezier_span k : in_span u k x -> (0 <= k)%Z -> k = Z.of_nat p.
Proof.
  intros [A _] K. destruct (Z_lt_ge_dec k (Z.of_nat p)) as [L|L].
  - rewrite !knot_low in A by lia. lra.
  - destruct (Z_lt_ge_dec (Z.of_nat p) k); [|lia]. rewrite !knot_high in A by lia. lra.
Qed.
End Bezier.

(** the knots of a clamped direction *)
Section Ends.
Variables (n p : nat) (o w : R).
Hypothesis D : (1 <= p < n)%nat.
Hypothesis W : 0 < w.
Let u := clamped_knot n p o w.
Lemma step_pos : 0 < w / (INR n - 1).
Proof. apply Rdiv_lt_0_compat; [exact W|]. assert (1 < INR n) by (apply (lt_INR 1); lia). lra. Qed.
Lemma inner_knot i : (Z.of_nat p < i < Z.of_nat n)%Z -> o < u i < o + w.
Proof.
  intros H. unfold u, clamped_knot. destruct (Z.leb_spec i (Z.of_nat p)); [lia|]. destruct (Z.leb_spec (Z.of_nat n) i); [lia|]. pose proof step_pos as S.
  assert (N : 1 < INR n) by (apply (lt_INR 1); lia). assert (P : 1 <= INR p) by (apply (le_INR 1); lia). assert (I : IZR i <= INR n - 1).
  { rewrite INR_IZR_INZ. replace (IZR (Z.of_nat n) - 1) with (IZR (Z.of_nat n - 1)) by (rewrite minus_IZR; lra). apply IZR_le. lia. }
  assert (J : INR p + 1 <= IZR i). { rewrite INR_IZR_INZ. replace (IZR (Z.of_nat p) + 1) with (IZR (Z.of_nat p + 1)) by (rewrite plus_IZR; lra). apply IZR_le. lia. }
  assert (E : (INR n - 1) * (w / (INR n - 1)) = w) by (field; lra). set (h := w / (INR n - 1)) in *. clearbody h. split.
  - assert (0 < (IZR i - INR p + (INR p - 1) / 2) * h) by (apply Rmult_lt_0_compat; lra). lra.
  - assert ((IZR i - INR p + (INR p - 1) / 2) * h < (INR n - 1) * h) by (apply Rmult_lt_compat_r; lra). lra.
Qed.
Lemma first_knot i : (i <= Z.of_nat p)%Z -> u i = o.
Proof. intros H. unfold u, clamped_knot. destruct (Z.leb_spec i (Z.of_nat p)); [reflexivity|lia]. Qed.
Lemma last_knot i : (Z.of_nat n <= i)%Z -> u i = o + w.
Proof. intros H. unfold u, clamped_knot. destruct (Z.leb_spec i (Z.of_nat p)); [lia|]. destruct (Z.leb_spec (Z.of_nat n) i); [reflexivity|lia]. Qed.
Lemma above i : (Z.of_nat p < i)%Z -> o < u i.
Proof. intros H. destruct (Z_lt_ge_dec i (Z.of_nat n)); [apply inner_knot; lia|]. rewrite last_knot by lia. lra. Qed.
Lemma below i : (i < Z.of_nat n)%Z -> u i < o + w.
Proof. intros H. destruct (Z_lt_ge_dec (Z.of_nat p) i); [apply inner_knot; lia|]. rewrite first_knot by lia. lra. Qed.
Lemma at_first k : in_span u k o -> bspline u k p 0 o = 1.
Proof.
  intros [A [B B']]. assert (K : k = Z.of_nat p).
  { destruct (Z_lt_ge_dec (Z.of_nat p) k); [pose proof (above k ltac:(lia)); lra|]. destruct (Z_lt_ge_dec k (Z.of_nat p)); [rewrite !first_knot in A by lia; lra|lia]. }
  replace 0%Z with (k - Z.of_nat p)%Z by lia. apply bspline_first; [apply first_knot; lia|exact A|]. intros j Hj. apply first_knot. lia.
Qed.
Lemma at_last k : in_span u k (o + w) -> bspline u k p (Z.of_nat (n - 1)) (o + w) = 1.
Proof.
  intros [A [B B']]. assert (K : k = Z.of_nat (n - 1)).
  { destruct (Z_lt_ge_dec k (Z.of_nat n - 1)); [pose proof (below (k + 1) ltac:(lia)); lra|]. destruct (Z_lt_ge_dec (Z.of_nat n - 1) k); [rewrite !last_knot in A by lia; lra|lia]. }
  rewrite <- K. apply bspline_last; [apply last_knot; lia|exact A|]. intros j Hj. apply last_knot. lia.
Qed.
End Ends.

(** ** Three clamped directions *)
Section Clamped.
Variables (f : ffd) (s : shape) (q : vec).
Hypothesis C : core f s.
Hypothesis So : ShapeSpec.solid s.
Hypothesis Cl : all_clamped s.
Hypothesis In : in_box s q.
Hypothesis Wp : positive_weights f.
Let p := toLocalCoord s q.
Definition knot (d : nat) : Z -> R := clamped_knot (points f d) (degree f d) (vent (getLocalOrigin s) d) (vent (s_span s) d).
Lemma clamped_dir d : (d < 3)%nat -> exists k, in_span (knot d) k (vent p d) /\ (0 <= k)%Z /\ (1 <= degree f d < points f d)%nat /\ length (c_nodes (curve_of f d)) = points f d /\
  (forall a, (a < points f d)%nat -> at_node (curve_of f d) a = Z.of_nat a) /\
  one_dir (curve_of f d) (dimn f d) (vent p d) (fun a => bspline (knot d) k (degree f d) (Z.of_nat a) (vent p d)).
Proof.
  intros Hd. destruct (co_curve _ _ C d Hd) as (e & De & Dg & E). destruct (gl_reach _ _ (co_good _ _ C)) as (kk & Re).
  destruct (span_pos kk s d Re So Hd) as [W _]. rewrite (Cl d Hd) in E.
  destruct (clamped_fits _ _ _ _ De W _ E) as (Dc & Ln & _ & Nd & F). pose proof (In d Hd) as X. fold p in X.
  assert (De' : degree f d = e) by (unfold degree; rewrite Dg; lia). change (points f d) with (dimn f d).
  destruct (fit_span _ _ _ _ _ F (vent p d) X) as (k0 & G0 & K0 & _).
  destruct (direction _ _ _ _ _ _ F X) as (k & G & S & O). exists k. unfold knot. change (points f d) with (dimn f d). rewrite De'. rewrite Dc in O. rewrite G in G0. injection G0 as <-.
  split; [exact S|]. split; [lia|]. split; [exact De|]. split; [exact Ln|]. split; [|exact O].
  intros a Ha. unfold at_node. rewrite Nd by lia. reflexivity.
Qed.
(** what the sums are *)
Lemma clamped_values {A} (v : list A) F d0 : length v = nodes f -> node_values f v F -> forall a b c, (a < points f 0)%nat -> (b < points f 1)%nat -> (c < points f 2)%nat -> nth (numb f a b c) v d0 = F a b c.
Proof.
  intros Lv H a b c Ha Hb Hc. destruct (clamped_dir 0 ltac:(lia)) as (k0 & _ & _ & _ & L0 & A0 & O0). destruct (clamped_dir 1 ltac:(lia)) as (k1 & _ & _ & _ & L1 & A1 & O1). destruct (clamped_dir 2 ltac:(lia)) as (k2 & _ & _ & _ & L2 & A2 & O2).
  cbn [curve_of vent] in *.
  assert (Ha' : (a < length (c_nodes (f_c0 f)))%nat) by (rewrite L0; exact Ha). assert (Hb' : (b < length (c_nodes (f_c1 f)))%nat) by (rewrite L1; exact Hb). assert (Hc' : (c < length (c_nodes (f_c2 f)))%nat) by (rewrite L2; exact Hc).
  pose proof (node_point f p _ _ _ O0 O1 O2 a b c Ha' Hb' Hc') as P.
  destruct (node_number f s p _ _ _ (co_good _ _ C) O0 O1 O2 a b c Ha' Hb' Hc') as [Nu Nr].
  rewrite A0, A1, A2 in P, Nu by assumption. pose proof (H a b c _ P Nu) as Z. rewrite (zget_nth _ _ d0) in Z by (rewrite Lv; unfold nodes; lia). rewrite Nat2Z.id in Z. injection Z as Z. exact Z.
Qed.
Lemma clamped_evaluate k : (forall d, (d < 3)%nat -> one_dir (curve_of f d) (dimn f d) (vent p d) (fun a => bspline (knot d) (k d) (degree f d) (Z.of_nat a) (vent p d))) ->
  forall f' w y, like f f' -> length (f_displ f') = nodes f -> node_values f (f_weights f) w -> node_values f (f_displ f') y ->
  forall m, (forall i, (i < 3)%nat -> vent m i = weighted_mean (points f) (fun d a => bspline (knot d) (k d) (degree f d) (Z.of_nat a) (vent p d)) w (fun a b c => vent (y a b c) i)) ->
  evaluate f' q = Some (displaced s (f_global f') q m).
Proof.
  intros O f' w y L LD Hw Hy m M. pose proof (O 0%nat ltac:(lia)) as O0. pose proof (O 1%nat ltac:(lia)) as O1. pose proof (O 2%nat ltac:(lia)) as O2.
  cbn [curve_of vent] in O0, O1, O2.
  destruct (evaluate_sum f s q C So _ _ _ O0 O1 O2 Wp f' L LD) as (m' & E & M'). rewrite E. f_equal. f_equal. apply vent_ext. intros i Hi. rewrite M, M' by exact Hi.
  destruct (clamped_dir 0 ltac:(lia)) as (_ & _ & _ & _ & L0 & _). destruct (clamped_dir 1 ltac:(lia)) as (_ & _ & _ & _ & L1 & _). destruct (clamped_dir 2 ltac:(lia)) as (_ & _ & _ & _ & L2 & _).
  cbn [curve_of] in L0, L1, L2. unfold weighted_mean, sum_nodes. rewrite L0, L1, L2. fold p. cbn [vent].
  unfold Rdiv. apply f_equal2; [|apply f_equal]; apply rsum_ext; intros a Ha; apply rsum_ext; intros b Hb; apply rsum_ext; intros c Hc; unfold share; cbn [vent];
    rewrite (clamped_values (f_weights f) w 0 (co_weights _ _ C) Hw) by assumption; try reflexivity.
  rewrite (clamped_values (f_displ f') y vzero LD Hy) by assumption. reflexivity.
Qed.
End Clamped.
