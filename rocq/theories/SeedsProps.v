(** C114-C117: points spread on a surface. *)
From Coq Require Import Reals List Arith Bool ZArith Lia Lra Permutation.
From Verif Require Import Vec Seeds SeedsSpec SkdDistProofs SeedsProofs.
Import ListNotations.
Open Scope R_scope.

(** C114: the points are as many as asked, all different candidates, the first one first; any two of them are farther than the
    distance reported, and unless that is the one it started from no candidate is farther than 10/9 of it from all of them. *)
Theorem C114_distribution : forall l fuel n h0 idx h, (0 < n)%nat -> 0 <= h0 -> decimate l fuel n h0 = Some (idx, h) ->
  selection l n idx /\ nth_error idx 0 = Some 0%nat /\ separated l h idx /\ 0 <= h <= h0 /\ (0 < h0 -> 0 < h) /\
  (h = h0 \/ covering l (h / (9 / 10)) idx) /\ ~ covering l h idx.
Proof.
  intros l fuel n h0 idx h K H E. destruct (decimate_some l _ _ _ _ _ K H E) as (A & B & P & (D & R0 & S0) & L & F & Q & (j & J & U)).
  split; [split; [exact L|split; [exact D|exact R0]]|]. split; [exact F|]. split; [intros x y X Y NE; rewrite <- gap_apart by auto; apply S0; assumption|]. split; [lra|]. split; [exact P|]. split.
  - destruct Q as [Q|Q]; [left; exact Q|right]. intros x X. destruct (Q x X) as (i & I & G). exists i. split; [exact I|]. rewrite <- gap_apart by auto. exact G.
  - intro C. destruct (C j J) as (i & I & G). apply U. exists i. split; [exact I|]. rewrite gap_apart by auto. exact G.
Qed.
Print Assumptions C114_distribution.
(** C114: no choice of one point more can keep them all farther than 20/9 of the distance reported. *)
Theorem C114_quality : forall l fuel n h0 idx h other, (0 < n)%nat -> 0 <= h0 -> decimate l fuel n h0 = Some (idx, h) -> h < h0 ->
  selection l (S n) other -> exists i j, In i other /\ In j other /\ i <> j /\ apart l i j <= 20 / 9 * h.
Proof.
  intros l fuel n h0 idx h other K H E LT (OL & OD & OR). destruct (C114_distribution _ _ _ _ _ _ K H E) as ((L & _ & _) & _ & _ & _ & _ & [Q|Q] & _); [lra|].
  destruct (crowded l _ _ _ Q OD OR) as (i & j & I & J & NE & A); [lia|]. exists i, j. repeat split; auto. lra.
Qed.
Print Assumptions C114_quality.
(** C114: it ends exactly when there are more places than points asked. *)
Theorem C114_ends : forall l n h0, (0 < n)%nat -> 0 <= h0 -> ((exists fuel r, decimate l fuel n h0 = Some r) <-> different_places l (S n)).
Proof. intros l n h0 K H. split; [intros (f & r & E); exact (decimate_places l f n h0 r K H E)|]. apply decimate_ends. exact H. Qed.
Print Assumptions C114_ends.
(** C114: without sensitivities, from the candidates in any order: points among the candidates, the nearest to the seed first,
    apart by more than the distance reported. *)
Theorem C114_seeds : forall fuel n span seed cands pts h, (0 < n)%nat -> unitary cands -> seeds fuel n span seed cands = Some (pts, h) ->
  length pts = n /\ (exists rest, Permutation cands (pts ++ rest)) /\
  (exists p s, nth_error pts 0 = Some (p, s) /\ forall e, In e cands -> norm (vsub seed p) <= norm (vsub seed (fst e))) /\
  (forall a b p q, a <> b -> nth_error pts a = Some p -> nth_error pts b = Some q -> h < norm (vsub (fst p) (fst q))) /\
  0 <= h <= norm span / 2 /\
  (h = norm span / 2 \/ forall e, In e cands -> exists p, In p pts /\ norm (vsub (fst e) (fst p)) <= h / (9 / 10)).
Proof.
  intros fuel n span seed cands pts h K U E. unfold seeds in E. set (l := sort_from seed cands) in *. pose proof (sort_perm seed cands) as PM. fold l in PM.
  destruct (decimate l fuel n (norm span / 2)) as [[idx h1]|] eqn:DE; [|discriminate]. injection E as <- <-.
  assert (H0 : 0 <= norm span / 2) by (pose proof (norm_ge span); lra).
  assert (UL : unitary l). { intros e I. apply U. exact (Permutation_in _ PM I). }
  destruct (C114_distribution _ _ _ _ _ _ K H0 DE) as ((L & D & R0) & F & SP & B & _ & Q & _).
  split; [rewrite map_length; exact L|]. split.
  { destruct (nth_perm l (vzero, 0) idx D R0) as (rest & P). exists rest. transitivity l; [symmetry; exact PM|exact P]. }
  split.
  { destruct idx as [|z idx]; [discriminate|]. injection F as ->. pose proof (R0 0%nat (or_introl eq_refl)) as Z. pose proof (sort_least seed cands) as SL. fold l in SL.
    destruct l as [|[p s] r]; [cbn in Z; lia|]. exists p, s. split; [reflexivity|]. intros e I. apply (Permutation_in _ (Permutation_sym PM)) in I. destruct I as [<- |I]; [cbn; lra|]. exact (SL e I). }
  split.
  { intros a b p q NE A C. rewrite nth_error_map in A, C. destruct (nth_error idx a) as [i|] eqn:I; [|discriminate]. destruct (nth_error idx b) as [j|] eqn:J; [|discriminate].
    injection A as <-. injection C as <-. pose proof (nth_error_In _ _ I) as I'. pose proof (nth_error_In _ _ J) as J'. rewrite <- unit_apart by auto. apply SP; auto.
    intros ->. apply NE. rewrite NoDup_nth_error in D. apply D; [apply nth_error_Some; rewrite I; discriminate|congruence]. }
  split; [exact B|]. destruct Q as [Q|Q]; [left; exact Q|right]. intros e I. apply (Permutation_in _ (Permutation_sym PM)) in I. destruct (In_nth _ _ (vzero, 0) I) as (j & J & <-).
  destruct (Q j J) as (i & I' & G). exists (nth i l (vzero, 0)). split; [apply in_map_iff; exists i; auto|]. rewrite <- unit_apart by auto. exact G.
Qed.
Print Assumptions C114_seeds.
(** C114: without sensitivities, the random engine gives the points asked when its candidates are in different positions. *)
Theorem C114_random : forall n span seed cands, (0 < n)%nat -> unitary cands -> NoDup (map fst cands) -> length cands = random_candidates n ->
  exists fuel pts h, seeds fuel n span seed cands = Some (pts, h) /\ length pts = n.
Proof.
  intros n span seed cands K U D L. set (l := sort_from seed cands). pose proof (sort_perm seed cands) as PM. fold l in PM.
  assert (UL : unitary l) by (intros e I; apply U; exact (Permutation_in _ PM I)).
  assert (DL : NoDup (map fst l)) by (refine (Permutation_NoDup _ D); apply Permutation_map; symmetry; exact PM).
  assert (LL : length l = (5 * n)%nat) by (rewrite (Permutation_length PM), L; reflexivity).
  assert (DP : different_places l (S n)).
  { exists (seq 0 (S n)). split; [apply seq_length|]. split; [intros i I; apply in_seq in I; lia|]. rewrite NoDup_nth_error in DL. apply NoDup_nth_error. intros i j I E.
    rewrite map_length, seq_length in I. rewrite !nth_error_map in E. rewrite (nth_error_nth' _ 0%nat) in E by (rewrite seq_length; exact I). rewrite seq_nth in E by exact I. cbn [option_map] in E.
    destruct (nth_error (seq 0 (S n)) j) as [j'|] eqn:J; [|discriminate]. cbn in E. assert (JN : (j < S n)%nat) by (rewrite <- (seq_length (S n) 0); apply nth_error_Some; rewrite J; discriminate).
    rewrite (nth_error_nth' _ 0%nat), seq_nth in J by (try rewrite seq_length; exact JN). injection J as <-. cbn in E. injection E as E. unfold place in E.
    assert (at_ : forall k, (k < S n)%nat -> exists p, nth_error l k = Some (p, 1)).
    { intros k B. destruct (nth_error l k) as [[p s]|] eqn:N; [|apply nth_error_None in N; lia]. exists p. rewrite <- (UL (p, s) (nth_error_In _ _ N)). reflexivity. }
    destruct (at_ i I) as (p & P), (at_ j JN) as (q & Q), (at_ 0%nat ltac:(lia)) as (o & O'). rewrite P, Q, O' in E. unfold vscale, vsub in E. injection E as E1 E2 E3.
    apply DL; [rewrite map_length; lia|]. rewrite !nth_error_map, P, Q. cbn. f_equal. destruct p, q. cbn in *. f_equal; lra. }
  destruct (proj2 (C114_ends l n (norm span / 2) K ltac:(pose proof (norm_ge span); lra)) DP) as (fuel & [idx h] & E).
  assert (E' : exists pts, seeds fuel n span seed cands = Some (pts, h)) by (unfold seeds; fold l; rewrite E; eexists; reflexivity). destruct E' as (pts & E').
  exists fuel, pts, h. split; [exact E'|]. exact (proj1 (C114_seeds _ _ _ _ _ _ _ K U E')).
Qed.
Print Assumptions C114_random.
(** C114 refuted: the grid engine never gives one point, whatever the surface, nor any number of points on one that is narrow in
    two of its directions for them. *)
Theorem C114_grid_refuted : forall n span seed cands fuel, (0 < n)%nat -> 0 <= vx span -> 0 <= vy span -> 0 <= vz span -> 0 < vx span + vy span + vz span ->
  (n = 1%nat \/ (vy span * INR n < 3 / 2 * (vx span + vy span + vz span) /\ vz span * INR n < 3 / 2 * (vx span + vy span + vz span))) ->
  length cands = grid_candidates span n -> seeds fuel n span seed cands = None.
Proof.
  intros n span seed cands fuel K X Y Z P C L. unfold seeds. destruct (decimate (sort_from seed cands) fuel n (norm span / 2)) as [r|] eqn:E; [|reflexivity]. exfalso.
  assert (H0 : 0 <= norm span / 2) by (pose proof (norm_ge span); lra). destruct (decimate_places _ _ _ _ _ K H0 E) as (idx & IL & IR & ND).
  assert (LE : (S n <= length cands)%nat).
  { rewrite <- (Permutation_length (sort_perm seed cands)), <- IL, <- (seq_length (length (sort_from seed cands)) 0). apply NoDup_incl_length; [exact (NoDup_map_inv _ _ ND)|]. intros i I. apply in_seq. specialize (IR i I). lia. }
  assert (NN : 1 <= INR n) by (apply (le_INR 1); lia).
  assert (YZ : vy span * INR n < 3 / 2 * (vx span + vy span + vz span) /\ vz span * INR n < 3 / 2 * (vx span + vy span + vz span)).
  { destruct C as [-> |C]; [|exact C]. cbn. split; nra. }
  rewrite L in LE. unfold grid_candidates in LE. destruct YZ as (Y' & Z').
  assert (GY : (grid_cells (vy span) (vx span + vy span + vz span) n <= 1)%nat) by (apply grid_cells_le; [exact P|lia|cbn; lra]).
  assert (GZ : (grid_cells (vz span) (vx span + vy span + vz span) n <= 1)%nat) by (apply grid_cells_le; [exact P|lia|cbn; lra]).
  assert (GX : (grid_cells (vx span) (vx span + vy span + vz span) n <= n)%nat) by (apply grid_cells_le; [exact P|lia|nra]).
  assert (grid_cells (vx span) (vx span + vy span + vz span) n * grid_cells (vy span) (vx span + vy span + vz span) n <= n * 1)%nat by (apply Nat.mul_le_mono; assumption).
  assert (grid_cells (vx span) (vx span + vy span + vz span) n * grid_cells (vy span) (vx span + vy span + vz span) n * grid_cells (vz span) (vx span + vy span + vz span) n <= n * 1 * 1)%nat by (apply Nat.mul_le_mono; assumption). lia.
Qed.
Print Assumptions C114_grid_refuted.
(** the hypotheses hold for a cube and four points *)
Example C114_nonvacuous_grid : let span := V3 1 1 1 in vy span * INR 4 < 3 / 2 * (vx span + vy span + vz span) /\ vz span * INR 4 < 3 / 2 * (vx span + vy span + vz span).
Proof. cbn. lra. Qed.

(** Candidates on a line and beside it, the third of half sensitivity. *)
Definition line : list (vec * R) := [(V3 0 0 0, 1); (V3 1 0 0, 1); (V3 (101 / 100) 0 0, / 2); (V3 0 (/ 10) 0, 1)].
Lemma line_places : different_places line 4.
Proof.
  exists [0; 1; 2; 3]%nat. split; [reflexivity|]. split; [intros i I; cbn in *; intuition lia|]. cbn. unfold vscale, vsub; cbn.
  repeat constructor; cbn; intuition; match goal with H : V3 _ _ _ = V3 _ _ _ |- _ => injection H; lra end.
Qed.
Lemma abs_norm_x : forall a b, norm (vsub (V3 a 0 0) (V3 b 0 0)) = Rabs (a - b).
Proof. intros a b. unfold norm, dot, vsub. cbn. replace ((a - b) * (a - b) + (0 - 0) * (0 - 0) + (0 - 0) * (0 - 0)) with (Rsqr (a - b)) by (unfold Rsqr; ring). apply sqrt_Rsqr_abs. Qed.
(** C114 refuted: with sensitivities the points can be nearer than the distance reported. *)
Theorem C114_sensitivity_refuted : exists l fuel n h0 idx h, (forall e, In e l -> 0 <= snd e <= 1) /\ (0 < n)%nat /\ 0 < h0 /\ decimate l fuel n h0 = Some (idx, h) /\
  exists i j, In i idx /\ In j idx /\ i <> j /\ norm (vsub (fst (nth i l (vzero, 0))) (fst (nth j l (vzero, 0)))) < h.
Proof.
  destruct (proj2 (C114_ends line 3 (/ 2) ltac:(lia) ltac:(lra)) line_places) as (fuel & [idx h] & E).
  exists line, fuel, 3%nat, (/ 2), idx, h. split; [intros e I; cbn in I; intuition; subst; cbn; lra|]. split; [lia|]. split; [lra|]. split; [exact E|].
  destruct (C114_distribution line fuel 3 (/ 2) idx h ltac:(lia) ltac:(lra) E) as ((L & D & R0) & F & SP & B & P & Q & _).
  assert (P0 : place line 0 = V3 0 0 0) by (cbn; unfold vscale, vsub; cbn; f_equal; lra).
  assert (P1 : place line 1 = V3 1 0 0) by (cbn; unfold vscale, vsub; cbn; f_equal; lra).
  assert (P2 : place line 2 = V3 (101 / 200) 0 0) by (cbn; unfold vscale, vsub; cbn; f_equal; lra).
  assert (P3 : place line 3 = V3 0 (/ 10) 0) by (cbn; unfold vscale, vsub; cbn; f_equal; lra).
  assert (A01 : apart line 1 0 = 1) by (unfold apart; rewrite P0, P1, abs_norm_x; rewrite Rabs_right; lra).
  assert (A12 : apart line 1 2 = 99 / 200) by (unfold apart; rewrite P1, P2, abs_norm_x; rewrite Rabs_right; lra).
  assert (A20 : apart line 2 0 = 101 / 200) by (unfold apart; rewrite P0, P2, abs_norm_x; rewrite Rabs_right; lra).
  assert (A30 : apart line 3 0 = / 10). { unfold apart. rewrite P0, P3. unfold norm, dot, vsub. cbn. replace ((0 - 0) * (0 - 0) + (/ 10 - 0) * (/ 10 - 0) + (0 - 0) * (0 - 0)) with (/ 10 * / 10) by ring. apply sqrt_square. lra. }
  assert (far : forall i, (i < 3)%nat -> / 10 <= apart line 3 i).
  { intros i I. unfold apart. rewrite P3. pose proof (coord_le (vsub (V3 0 (/ 10) 0) (place line i))) as (_ & Cy & _). refine (Rle_trans _ _ _ _ Cy). destruct i as [|[|[|i]]]; [rewrite P0|rewrite P1|rewrite P2|lia]; cbn; (rewrite Rabs_right; lra). }
  assert (A13 : 1 <= apart line 1 3). { unfold apart. rewrite P1, P3. pose proof (coord_le (vsub (V3 1 0 0) (V3 0 (/ 10) 0))) as (Cx & _). refine (Rle_trans _ _ _ _ Cx). cbn. rewrite Rabs_right; lra. }
  assert (A23 : 101 / 200 <= apart line 2 3). { unfold apart. rewrite P2, P3. pose proof (coord_le (vsub (V3 (101 / 200) 0 0) (V3 0 (/ 10) 0))) as (Cx & _). refine (Rle_trans _ _ _ _ Cx). cbn. rewrite Rabs_right; lra. }
  assert (Z0 : In 0%nat idx) by (destruct idx as [|z r]; [discriminate|injection F as ->; left; reflexivity]).
  assert (A21 : apart line 2 1 = 99 / 200) by (unfold apart in *; rewrite norm_sym; exact A12).
  assert (N3 : ~ In 3%nat idx).
  { intro I3. pose proof (SP 3%nat 0%nat I3 Z0 ltac:(lia)) as S3. rewrite A30 in S3. destruct Q as [Q|Q]; [lra|].
    assert (M : ~ (In 1%nat idx /\ In 2%nat idx)).
    { intros (I1 & I2). assert (4 <= length idx)%nat; [|lia]. apply (NoDup_incl_length (l := [0; 1; 2; 3]%nat)); [repeat constructor; cbn; intuition lia|]. intros x X. cbn in X. intuition (subst; assumption). }
    destruct (in_dec Nat.eq_dec 1%nat idx) as [I1|I1].
    - destruct (Q 2%nat) as (i & I & G); [cbn; lia|]. assert (i < 4)%nat by (apply (R0 i I)). destruct i as [|[|[|[|i]]]]; [lra|lra|tauto|lra|lia].
    - destruct (Q 1%nat) as (i & I & G); [cbn; lia|]. assert (i < 4)%nat by (apply (R0 i I)). destruct i as [|[|[|[|i]]]]; [lra|tauto|lra|lra|lia]. }
  assert (HH : / 12 < h).
  { destruct Q as [Q|Q]; [lra|]. destruct (Q 3%nat) as (i & I & G); [cbn; lia|]. assert (i < 4)%nat by (apply (R0 i I)). assert (i <> 3%nat) by (intros ->; contradiction). specialize (far i ltac:(lia)). lra. }
  assert (I12 : In 1%nat idx /\ In 2%nat idx).
  { assert (IN : incl [0; 1; 2]%nat idx). { apply NoDup_length_incl; [exact D|cbn; lia|]. intros x X. pose proof (R0 x X) as RX. cbn in RX. assert (x <> 3%nat) by (intros ->; contradiction). cbn. lia. }
    split; apply IN; cbn; auto. }
  exists 1%nat, 2%nat. split; [apply I12|]. split; [apply I12|]. split; [lia|]. cbn [nth line fst]. rewrite norm_sym, abs_norm_x, Rabs_right; lra.
Qed.
Print Assumptions C114_sensitivity_refuted.
(** candidates for which it ends, with its result *)
Example C114_nonvacuous : exists fuel idx h, decimate line fuel 3 (/ 2) = Some (idx, h) /\ h < / 2 /\ length idx = 3%nat.
Proof.
  destruct (proj2 (C114_ends line 3 (/ 2) ltac:(lia) ltac:(lra)) line_places) as (fuel & [idx h] & E). exists fuel, idx, h. split; [exact E|].
  destruct (C114_distribution line fuel 3 (/ 2) idx h ltac:(lia) ltac:(lra) E) as ((L & D & R0) & F & SP & B & P & Q & _). split; [|exact L].
  assert (P0 : place line 0 = V3 0 0 0) by (cbn; unfold vscale, vsub; cbn; f_equal; lra).
  assert (P1 : place line 1 = V3 1 0 0) by (cbn; unfold vscale, vsub; cbn; f_equal; lra).
  assert (P2 : place line 2 = V3 (101 / 200) 0 0) by (cbn; unfold vscale, vsub; cbn; f_equal; lra).
  assert (P3 : place line 3 = V3 0 (/ 10) 0) by (cbn; unfold vscale, vsub; cbn; f_equal; lra).
  assert (A12 : apart line 1 2 = 99 / 200) by (unfold apart; rewrite P1, P2, abs_norm_x; rewrite Rabs_right; lra).
  assert (A30 : apart line 3 0 = / 10). { unfold apart. rewrite P0, P3. unfold norm, dot, vsub. cbn. replace ((0 - 0) * (0 - 0) + (/ 10 - 0) * (/ 10 - 0) + (0 - 0) * (0 - 0)) with (/ 10 * / 10) by ring. apply sqrt_square. lra. }
  assert (Z0 : In 0%nat idx) by (destruct idx as [|z r]; [discriminate|injection F as ->; left; reflexivity]).
  destruct (in_dec Nat.eq_dec 3%nat idx) as [I3|I3]; [pose proof (SP 3%nat 0%nat I3 Z0 ltac:(lia)); lra|].
  assert (IN : incl [0; 1; 2]%nat idx). { apply NoDup_length_incl; [exact D|cbn; lia|]. intros x X. pose proof (R0 x X) as RX. cbn in RX. assert (x <> 3%nat) by (intros ->; contradiction). cbn. lia. }
  pose proof (SP 1%nat 2%nat (IN 1%nat ltac:(cbn; auto)) (IN 2%nat ltac:(cbn; auto)) ltac:(lia)). lra.
Qed.

(** C115: the sensitivity used goes from 0 at the least value given to 1 at the greatest, in proportion; it is 1 everywhere when
    the values do not differ. *)
Theorem C115_sensitivity : forall tiny l, 0 <= tiny -> l <> [] ->
  (rescaled l (normalize tiny l) \/ ((forall u v, In u l -> In v l -> u - v <= tiny) /\ normalize tiny l = map (fun _ => 1) l)) /\
  ((exists u v, In u l /\ In v l /\ tiny < u - v) -> rescaled l (normalize tiny l)).
Proof.
  intros tiny l T N. destruct (least_spec l N) as (A & B). destruct (greatest_spec l N) as (C & D). unfold normalize. cbn zeta. destruct (Rle_dec (greatest l - least l) tiny) as [Q|Q].
  - assert (S0 : forall u v, In u l -> In v l -> u - v <= tiny) by (intros u v U V; specialize (B v V); specialize (D u U); lra).
    split; [right; auto|]. intros (u & v & U & V & X). specialize (S0 u v U V). lra.
  - assert (RS : rescaled l (map (fun v => (v + -1 * least l) / (greatest l - least l)) l)); [|auto].
    exists (least l), (greatest l). repeat split; auto; try lra. apply map_ext. intro v. f_equal. ring.
Qed.
Print Assumptions C115_sensitivity.
(** C115: normalizing again changes nothing, so executing twice uses the same sensitivity. *)
Theorem C115_twice : forall tiny l, 0 <= tiny < 1 -> l <> [] -> normalize tiny (normalize tiny l) = normalize tiny l.
Proof.
  intros tiny l T N. destruct (C115_sensitivity tiny l ltac:(lra) N) as ([R0|(_ & E)] & _).
  - destruct R0 as (lo & hi & LO & HI & LT & BD & E). rewrite E. set (m := map _ l).
    assert (MN : m <> []) by (destruct l; [contradiction|discriminate]).
    assert (M0 : In 0 m) by (apply in_map_iff; exists lo; split; [unfold Rdiv; ring|exact LO]).
    assert (M1 : In 1 m) by (apply in_map_iff; exists hi; split; [field; lra|exact HI]).
    assert (MB : forall v, In v m -> 0 <= v <= 1).
    { intros v V. apply in_map_iff in V. destruct V as (x & <- & X). specialize (BD x X). split; [apply Rmult_le_pos; [lra|left; apply Rinv_0_lt_compat; lra]|].
      apply Rmult_le_reg_r with (hi - lo); [lra|]. unfold Rdiv. rewrite Rmult_assoc, Rinv_l by lra. lra. }
    destruct (least_spec m MN) as (A & B). destruct (greatest_spec m MN) as (C & D).
    assert (L0 : least m = 0) by (pose proof (B 0 M0); pose proof (MB _ A); lra). assert (G1 : greatest m = 1) by (pose proof (D 1 M1); pose proof (MB _ C); lra).
    unfold normalize. cbn zeta. rewrite L0, G1. destruct (Rle_dec (1 - 0) tiny); [lra|]. rewrite <- (map_id m) at 2. apply map_ext. intro v. field.
  - rewrite E. assert (MN : map (fun _ => 1) l <> []) by (destruct l; [contradiction|discriminate]).
    destruct (C115_sensitivity tiny _ ltac:(lra) MN) as ([R0|(_ & E')] & _).
    + destruct R0 as (lo & hi & LO & HI & LT & _). apply in_map_iff in LO. apply in_map_iff in HI. destruct LO as (? & <- & _). destruct HI as (? & <- & _). lra.
    + rewrite E', map_map. reflexivity.
Qed.
Print Assumptions C115_twice.
Example C115_nonvacuous : rescaled [3; 1; 2] (normalize (/ 1000) [3; 1; 2]).
Proof. apply (C115_sensitivity (/ 1000) [3; 1; 2]); [lra|discriminate|]. exists 3, 1. cbn. repeat split; auto; lra. Qed.

(** C116: with vertices of positive sensitivity enough, the level set engine gives the vertex nearest to the seed and then, each
    time, one where the distance from those already chosen, times the sensitivity, is greatest; all different. *)
Theorem C116_level_set : forall verts geodesic sensitivity n first, distance_like geodesic -> (forall v, In v verts -> 0 <= sensitivity v) -> In first verts -> (0 < n)%nat ->
  (exists good, NoDup good /\ length good = n /\ forall v, In v good -> In v verts /\ 0 < sensitivity v) ->
  exists l, level_set verts geodesic sensitivity n (Some first) = Some l /\ length l = n /\ NoDup l /\ (forall v, In v l -> In v verts) /\
    nth_error l 0 = Some first /\ farthest_first verts geodesic sensitivity l.
Proof.
  intros verts geodesic sensitivity n first DL SP F K G.
  destruct (grow_good verts geodesic sensitivity (n - 1) [first] n) as (A & B & C & D & (d & E)); auto; try discriminate.
  - cbn. lia.
  - repeat constructor. intros [].
  - intros v [<- |[]]. exact F.
  - intros k v X. destruct k; discriminate.
  - exists (grow verts geodesic sensitivity (n - 1) [first]). unfold level_set. cbn zeta.
    replace (forallb _ (grow verts geodesic sensitivity (n - 1) [first])) with true.
    + split; [reflexivity|]. split; [rewrite A; cbn; lia|]. split; [exact B|]. split; [exact C|]. split; [rewrite E; reflexivity|exact D].
    + symmetry. apply forallb_forall. intros x X. apply existsb_exists. exists x. split; [apply C, X|apply Nat.eqb_refl].
Qed.
Print Assumptions C116_level_set.
(** C116: the distance reported is the least between two of the points. *)
Theorem C116_min_distance : forall top points, (exists i j p q, (i < j)%nat /\ nth_error points i = Some p /\ nth_error points j = Some q /\ norm (vsub p q) <= top) ->
  (forall i j p q, i <> j -> nth_error points i = Some p -> nth_error points j = Some q -> level_set_distance top points <= norm (vsub p q)) /\
  exists i j p q, i <> j /\ nth_error points i = Some p /\ nth_error points j = Some q /\ level_set_distance top points = norm (vsub p q).
Proof.
  intros top points (i0 & j0 & p0 & q0 & L0 & X0 & Y0 & T0). destruct (level_set_distance_spec points top) as (A & B & C). cbn zeta in *. split.
  - intros i j p q NE X Y. destruct (Nat.lt_total i j) as [L|[L|L]]; [exact (B i j p q L X Y)|contradiction|]. rewrite norm_sym. exact (B j i q p L Y X).
  - destruct C as [C|(i & j & p & q & L & X & Y & C)].
    + exists i0, j0, p0, q0. repeat split; auto; [lia|]. pose proof (B i0 j0 p0 q0 L0 X0 Y0). lra.
    + exists i, j, p, q. repeat split; auto. lia.
Qed.
Print Assumptions C116_min_distance.
(** C116 refuted: with no sensitivity left the vertex 0 is repeated, or, when there is no such vertex, the execution fails. *)
Theorem C116_repeated_refuted : forall verts geodesic sensitivity n first, distance_like geodesic -> In first verts -> (forall v, In v verts -> v <> first -> sensitivity v = 0) ->
  (In 0%nat verts -> level_set verts geodesic sensitivity n (Some first) = Some (first :: repeat 0%nat (n - 1))) /\
  (~ In 0%nat verts -> (1 < n)%nat -> level_set verts geodesic sensitivity n (Some first) = None).
Proof.
  intros verts geodesic sensitivity n first DL F Z.
  assert (Q : forall c v, In first c -> In v verts -> geodesic c v * sensitivity v <= 0).
  { intros c v I V. destruct (Nat.eq_dec v first) as [E|E]; [|rewrite (Z v V E); lra]. subst v. rewrite (proj1 (DL c first) I). lra. }
  assert (G : grow verts geodesic sensitivity (n - 1) [first] = first :: repeat 0%nat (n - 1)).
  { rewrite (grow_none verts geodesic sensitivity first); [reflexivity|exact Q|left; reflexivity]. }
  unfold level_set. cbn zeta. rewrite G. split.
  - intro I. replace (forallb _ _) with true; [reflexivity|]. symmetry. apply forallb_forall. intros x [<- |X]; apply existsb_exists; [exists first; split; [exact F|apply Nat.eqb_refl]|].
    apply repeat_spec in X. subst x. exists 0%nat. split; [exact I|reflexivity].
  - intros I K. destruct (n - 1)%nat as [|k] eqn:E; [lia|]. cbn [repeat forallb]. replace (existsb (Nat.eqb 0) verts) with false; [rewrite andb_false_r; reflexivity|].
    symmetry. apply not_true_iff_false. intro X. apply existsb_exists in X. destruct X as (y & Y & B). apply Nat.eqb_eq in B. subst y. contradiction.
Qed.
Print Assumptions C116_repeated_refuted.
(** C116 refuted: with no points asked it gives one. *)
Theorem C116_none_asked_refuted : forall verts geodesic sensitivity first, In first verts -> level_set verts geodesic sensitivity 0 (Some first) = Some [first].
Proof.
  intros verts geodesic sensitivity first F. unfold level_set. cbn. replace (existsb (Nat.eqb first) verts) with true; [reflexivity|]. symmetry. apply existsb_exists. exists first. split; [exact F|apply Nat.eqb_refl].
Qed.
Print Assumptions C116_none_asked_refuted.
(** a distance, on a line of vertices, and the points chosen on it *)
Definition hops (l : list nat) (v : nat) : R := if in_dec Nat.eq_dec v l then 0 else INR (fold_left Nat.min (map (fun w => (v - w) + (w - v))%nat l) 1000%nat) + 1.
Example C116_nonvacuous : distance_like hops /\
  exists good, NoDup good /\ length good = 3%nat /\ forall v, In v good -> In v [4; 5; 6; 7]%nat /\ 0 < (fun v => if Nat.eqb v 5 then 0 else 1) v.
Proof.
  split.
  - intros l v. unfold hops. destruct (in_dec Nat.eq_dec v l) as [I|I]; split; intro H; try contradiction; [reflexivity|]. pose proof (pos_INR (fold_left Nat.min (map (fun w => (v - w) + (w - v))%nat l) 1000%nat)). lra.
  - exists [4; 6; 7]%nat. split; [repeat constructor; cbn; intuition lia|]. split; [reflexivity|]. intros v V. cbn in V. intuition (subst; cbn; auto; lra).
Qed.

(** C117: an execution with a random distribution is repeated exactly by fixing it, at any other time; fixed from the start, it
    depends only on the signature. *)
Theorem C117_repeatable : forall (A : Type) (points : Z -> A) t1 t2 p,
  fst (execute_random points t2 (setRandomFixed true (snd (execute_random points t1 p)))) = fst (execute_random points t1 p) /\
  (q_fixed p = true -> fst (execute_random points t1 p) = fst (execute_random points t2 p)).
Proof. intros A points t1 t2 p. unfold execute_random, signature_used. cbn. split; [reflexivity|]. intro F. rewrite F. reflexivity. Qed.
Print Assumptions C117_repeatable.
(** C117: written to XML and read back, the number of points, the engine, the seed and the use of the barycentre are kept. *)
Theorem C117_xml : forall p, (0 <= q_engine p <= 2)%Z ->
  let r := absorb (flush p) defaults in q_points r = q_points p /\ q_engine r = q_engine p /\ q_seed r = q_seed p /\ q_center r = q_center p.
Proof.
  intros [n e [[a b] c] m f s] E. cbn [q_engine] in E. unfold flush, absorb. cbn [q_points q_engine q_seed q_center q_fixed q_signature x_points x_engine x_seed x_center x_fixed].
  assert (SE : forall q, (0 <= q <= 2)%Z -> forall p, setEngine (Z.min (Z.max q 0) 2) p = Params (q_points p) q (q_seed p) (q_center p) (q_fixed p) (q_signature p)).
  { intros q Q p. unfold setEngine. replace (Z.min (Z.max q 0) 2) with q by lia. replace ((q <? 0)%Z || (2 <? q)%Z) with false by (symmetry; apply orb_false_iff; split; apply Z.ltb_ge; lia). reflexivity. }
  assert (SD : match (match (a, b, c) with (0, 0, 0)%Z => None | t => Some t end) with Some t => t | None => (0, 0, 0)%Z end = (a, b, c)) by (destruct a, b, c; reflexivity).
  destruct (match (a, b, c) with (0, 0, 0)%Z => None | t => Some t end) as [t|]; subst;
  destruct (Nat.eqb n 0) eqn:N0; try (apply Nat.eqb_eq in N0; subst n); destruct (Z.eqb e 2) eqn:E2; try (apply Z.eqb_eq in E2; subst e); rewrite ?(SE e E);
    destruct m; destruct (negb (s =? -1)%Z && _); cbn; rewrite ?Z.max_l, ?Nat2Z.id by lia; repeat split; assumption.
Qed.
Print Assumptions C117_xml.
(** C117 refuted: a fixed random distribution is not restored: the signature comes back as 1, and a signature 0 as one not
    fixed; one that was not fixed comes back fixed. *)
Theorem C117_signature_refuted : forall p, q_engine p = 0%Z -> (0 <= q_signature p)%Z ->
  let r := absorb (flush p) defaults in q_signature r = 1%Z /\ (q_signature p = 0%Z -> q_fixed r = false) /\ (q_signature p <> 0%Z -> q_fixed r = true).
Proof.
  intros [n e s m f g] E G. cbn [q_engine q_signature] in *. subst e. unfold flush, absorb. cbn [q_points q_engine q_seed q_center q_fixed q_signature x_points x_engine x_seed x_center x_fixed].
  replace (negb (g =? -1)%Z && (0 =? 0)%Z) with true by (symmetry; apply andb_true_iff; split; [apply negb_true_iff, Z.eqb_neq; lia|reflexivity]). cbn [q_fixed q_signature].
  split; [|split; [intros ->; reflexivity|intro N; apply negb_true_iff, Z.eqb_neq; exact N]].
  destruct s as [[a b] c]. destruct (match (a, b, c) with (0, 0, 0)%Z => None | t => Some t end); destruct (Nat.eqb n 0), m; reflexivity.
Qed.
Print Assumptions C117_signature_refuted.
Example C117_nonvacuous : let p := Params 12 0 (1, 2, 3)%Z false false 1700000000 in (0 <= q_engine p <= 2)%Z /\ q_engine p = 0%Z /\ q_fixed p = false /\ q_fixed (absorb (flush p) defaults) = true.
Proof. vm_compute. intuition congruence. Qed.
