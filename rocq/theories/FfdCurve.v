(** The four kinds of knots. *)
From Coq Require Import Reals List Arith ZArith Bool Lia Lra.
From Verif Require Import Vec Shape Mesh Lattice Ffd FfdSpec FfdBasis FfdKnots.
Import ListNotations.
Open Scope R_scope.
Notation "l ? i" := (nth i l 0) (at level 9, format "l ? i").

(** [u] are the knots of the curve, with all the intervals of the coordinates from lo to hi *)
Record fits (c : curve) (dim : nat) (u : Z -> R) (lo hi : R) : Prop := {
  fit_mono : forall i j, (0 <= i <= j)%Z -> (j < Z.of_nat (length (c_eff c)))%Z -> u i <= u j;
  fit_value : forall i, (0 <= i < Z.of_nat (length (c_eff c)))%Z -> getKnotValue c i = Some (u i);
  fit_span : forall x, lo <= x <= hi -> exists k, getKnotInterval c x = Some k /\ (Z.of_nat (c_deg c) <= k)%Z /\
    (k + Z.of_nat (c_deg c) < Z.of_nat (length (c_eff c)))%Z /\ in_span u k x /\ (k < Z.of_nat (length (c_nodes c)))%Z;
  fit_nodes : forall i, (0 <= i < Z.of_nat (length (c_nodes c)))%Z -> exists z, zget (c_nodes c) i = Some z /\ (0 <= z < Z.of_nat dim)%Z }.

(** the result of a function, kept as it is written *)
Ltac take_some := match goal with |- Some ?x = Some ?y -> _ => let H := fresh in intros H; assert (x = y) as <- by congruence; clear H end.
Lemma zget_nth {A} (l : list A) i d : (0 <= i < Z.of_nat (length l))%Z -> zget l i = Some (nth (Z.to_nat i) l d).
Proof. intros H. unfold zget. destruct (Z.ltb_spec i 0); [lia|]. apply nth_error_nth'. lia. Qed.
Lemma spacing_last o d n : (1 <= n)%nat -> get (map (fun i => o + INR i * d) (seq 0 n)) (length (map (fun i => o + INR i * d) (seq 0 n)) - 1) = Some (o + INR (n - 1) * d).
Proof.
  intros H. rewrite map_length, seq_length. rewrite (get_ok _ _ (o + INR 0 * d)) by (rewrite map_length, seq_length; lia).
  rewrite (map_nth (fun i => o + INR i * d)), seq_nth by lia. reflexivity.
Qed.
Lemma spacing_first o d n : (1 <= n)%nat -> get (map (fun i => o + INR i * d) (seq 0 n)) 0 = Some o.
Proof. intros H. destruct n; [lia|]. cbn. f_equal. lra. Qed.

(** ** clamped *)
Definition theo_len (t : coordtype) (dim deg : nat) : nat :=
  match t with PERIODIC | SYMMETRIC => (dim + deg - 1 + deg + 1)%nat | _ => (dim + deg + 1)%nat end.
Lemma eff_len t dim deg : length (setEff t dim deg) = theo_len t dim deg.
Proof. destruct t; cbn [setEff theo_len]; rewrite ?map_length, seq_length; reflexivity. Qed.

Section Clamped.
Variables (dim deg : nat) (o w : R).
Hypothesis D : (1 <= deg < dim)%nat.
Hypothesis W : 0 < w.
Let dK := w / INR (dim - 1).
Fact dK_pos : 0 < dK.
Proof. unfold dK. apply Rmult_lt_0_compat; [exact W|]. apply Rinv_0_lt_compat, lt_0_INR. lia. Qed.
Fact dK_all : INR (dim - 1) * dK = w.
Proof. unfold dK. field. apply not_0_INR. lia. Qed.
Fact dK_is : dK = w / (INR dim - 1).
Proof. unfold dK. rewrite minus_INR by lia. reflexivity. Qed.
Let kEff := (dim - deg + 1)%nat.
Let mid i := o + (INR i + (INR deg - 1) / 2) * dK.
Lemma clamped_knots : exists k, setKnots CLAMPED dim deg w o = Some k /\ length k = kEff /\ k ? 0 = o /\ k ? (kEff - 1) = o + w /\
  forall p, (1 <= p < kEff - 1)%nat -> k ? p = mid p.
Proof.
  unfold setKnots. cbv zeta. fold kEff. unfold getNodeSpacing. fold dK.
  rewrite spacing_first, spacing_last by lia. cbn [bind]. rewrite dK_all.
  rewrite put_ok by (rewrite repeat_length; unfold kEff; lia). cbn [bind].
  rewrite put_ok by (rewrite upd_len, repeat_length; unfold kEff; lia). cbn [bind].
  set (l := upd (upd (repeat 0 kEff) 0 o) (kEff - 1) (o + w)).
  assert (Len : length l = kEff) by (unfold l; rewrite !upd_len; apply repeat_length).
  destruct (averages_is (map (fun i => o + INR i * dK) (seq 0 dim)) deg 0 1 (kEff - 1) mid l) as (k & E & L & N).
  { unfold kEff; lia. } { unfold kEff in *; lia. }
  { intros i Hi. apply average_is; unfold kEff in Hi; lia. }
  exists k. split; [exact E|]. split; [congruence|].
  assert (N0 : forall p, l ? p = if Nat.eqb p (kEff - 1) then o + w else if Nat.eqb p 0 then o else (repeat 0 kEff) ? p).
  { intros p. unfold l. rewrite !nth_upd by (rewrite ?upd_len, repeat_length; unfold kEff; lia). reflexivity. }
  split; [|split].
  - rewrite N. cbn [Nat.leb plus andb]. rewrite N0. destruct (Nat.eqb_spec 0 (kEff - 1)); [unfold kEff in *; lia|]. reflexivity.
  - rewrite N, N0. destruct (Nat.ltb_spec (kEff - 1) (0 + (kEff - 1))); [lia|]. rewrite andb_false_r, Nat.eqb_refl. reflexivity.
  - intros p Hp. rewrite N. destruct (Nat.leb_spec (0 + 1) p); [|lia]. destruct (Nat.ltb_spec p (0 + (kEff - 1))); [|lia]. cbn [andb]. f_equal. lia.
Qed.
Lemma clamped_fits c : setKnotsStructure CLAMPED dim deg w o = Some c ->
  c_deg c = deg /\ length (c_nodes c) = dim /\ length (c_eff c) = (dim + deg + 1)%nat /\ (forall i, (0 <= i < Z.of_nat dim)%Z -> zget (c_nodes c) i = Some i) /\
  fits c dim (clamped_knot dim deg o w) o (o + w).
Proof.
  unfold setKnotsStructure. destruct clamped_knots as (k & E & Len & K0 & K1 & Km). rewrite E. cbn [bind]. take_some. cbn [c_deg c_nodes c_eff setMapNodes].
  split; [reflexivity|]. rewrite (eff_len CLAMPED), map_length, seq_length. split; [reflexivity|]. split; [reflexivity|].
  pose proof dK_pos as dKp. pose proof dK_all as dKa.
  assert (Nodes : forall i, (0 <= i < Z.of_nat dim)%Z -> zget (map Z.of_nat (seq 0 dim)) i = Some i).
  { intros i Hi. rewrite (zget_nth _ _ (Z.of_nat 0)) by (rewrite map_length, seq_length; exact Hi). rewrite map_nth, seq_nth by lia. f_equal. lia. }
  split; [exact Nodes|].
  assert (Incr : increasing k).
  { intros p Hp. rewrite Len in Hp. pose proof (pos_INR deg) as Dp. assert (1 <= INR deg) by (apply (le_INR 1); lia).
    assert (M : forall i, o < mid i \/ i = 0%nat).
    { intros i. destruct (Nat.eq_dec i 0) as [->|Ni]; [right; reflexivity|left]. unfold mid.
      assert (1 <= INR i) by (apply (le_INR 1); lia). assert (0 < (INR i + (INR deg - 1) / 2) * dK) by (apply Rmult_lt_0_compat; lra). lra. }
    assert (M2 : forall i, (i < kEff - 1)%nat -> mid i < o + w).
    { intros i Hi. unfold mid. rewrite <- dKa. apply Rplus_lt_compat_l. apply Rmult_lt_compat_r; [exact dKp|].
      rewrite minus_INR by lia. assert (INR i <= INR (dim - deg - 1)) by (apply le_INR; unfold kEff in Hi; lia).
      rewrite !minus_INR in H0 by lia. cbn [INR] in *. lra. }
    destruct (Nat.eq_dec p 0) as [->|Np].
    - rewrite K0. destruct (Nat.eq_dec (0 + 1) (kEff - 1)) as [Ek|Ek]; [rewrite Ek, K1; lra|]. rewrite Km by lia. destruct (M (0 + 1)%nat); [assumption|lia].
    - rewrite (Km p) by lia. destruct (Nat.eq_dec (p + 1) (kEff - 1)) as [Ek|Ek]; [rewrite Ek, K1; apply M2; lia|].
      rewrite Km by lia. unfold mid. rewrite plus_INR. cbn [INR]. apply Rplus_lt_compat_l, Rmult_lt_compat_r; [exact dKp|]. lra. }
  (* the knot with theoretical index i *)
  assert (Eff : forall p, (p < dim + deg + 1)%nat -> nth p (setEff CLAMPED dim deg) 0%nat = (if Nat.ltb p deg then 0 else if Nat.ltb p (deg + kEff) then p - deg else kEff - 1)%nat).
  { intros p Hp. unfold setEff. fold kEff.
    match goal with |- nth _ (map ?F _) _ = _ => rewrite (nth_indep _ 0%nat (F 0%nat)) by (rewrite map_length, seq_length; exact Hp) end.
    match goal with |- nth _ (map ?F _) _ = _ => rewrite (map_nth F) end. rewrite seq_nth by exact Hp. reflexivity. }
  assert (Val : forall i, (0 <= i < Z.of_nat (dim + deg + 1))%Z -> k ? (nth (Z.to_nat i) (setEff CLAMPED dim deg) 0%nat) = clamped_knot dim deg o w i).
  { intros i Hi. rewrite Eff by lia. unfold clamped_knot. destruct (Z.leb_spec i (Z.of_nat deg)) as [A|A].
    - destruct (Nat.ltb_spec (Z.to_nat i) deg); [exact K0|]. destruct (Nat.ltb_spec (Z.to_nat i) (deg + kEff)); [|unfold kEff in *; lia].
      replace (Z.to_nat i - deg)%nat with 0%nat by lia. exact K0.
    - destruct (Nat.ltb_spec (Z.to_nat i) deg); [lia|]. destruct (Z.leb_spec (Z.of_nat dim) i) as [B|B].
      + destruct (Nat.ltb_spec (Z.to_nat i) (deg + kEff)); [|exact K1]. replace (Z.to_nat i - deg)%nat with (kEff - 1)%nat by (unfold kEff in *; lia). exact K1.
      + destruct (Nat.ltb_spec (Z.to_nat i) (deg + kEff)); [|unfold kEff in *; lia]. rewrite Km by (unfold kEff; lia). unfold mid. rewrite <- dK_is.
        rewrite minus_INR by lia. rewrite INR_IZR_INZ, Z2Nat.id by lia. reflexivity || (f_equal; f_equal; lra). }
  constructor; cbn [c_eff c_knots c_nodes c_deg]; rewrite ?(eff_len CLAMPED), ?map_length, ?seq_length; cbn [theo_len].
  - intros i j Hi Hj. rewrite <- !Val by lia. apply increasing_le; [exact Incr|]. rewrite Len. rewrite !Eff by lia.
    repeat match goal with |- context [Nat.ltb ?a ?b] => destruct (Nat.ltb_spec a b) end; unfold kEff in *; lia.
  - intros i Hi. unfold getKnotValue. cbn [c_eff c_knots]. rewrite (zget_nth _ _ 0%nat) by (rewrite (eff_len CLAMPED); exact Hi).
    rewrite <- Val by exact Hi. apply get_ok. rewrite Len, Eff by lia. repeat match goal with |- context [Nat.ltb ?a ?b] => destruct (Nat.ltb_spec a b) end; unfold kEff in *; lia.
  - intros x Hx.
    destruct (interval_ok (Cu deg k (setEff CLAMPED dim deg) (map Z.of_nat (seq 0 dim))) x) as (m & G & Lm & Xm & _); cbn [c_knots] in *; try rewrite Len.
    { exact Incr. } { unfold kEff; lia. } { rewrite K0; apply Hx. } { rewrite K1; apply Hx. }
    rewrite Len in Lm. rewrite G.
    assert (T : getTheoreticalKnotIndex (Cu deg k (setEff CLAMPED dim deg) (map Z.of_nat (seq 0 dim))) m = Z.of_nat (m + deg)).
    { unfold getTheoreticalKnotIndex. cbn [c_knots c_eff]. rewrite Len. destruct (Nat.ltb_spec m kEff); [|lia].
      rewrite (last_pos_is _ m (m + deg)); [lia| | |]; rewrite ?eff_len; cbn [theo_len].
      - unfold kEff in *; lia.
      - rewrite Eff by (unfold kEff in *; lia). destruct (Nat.ltb_spec (m + deg) deg); [lia|]. destruct (Nat.ltb_spec (m + deg) (deg + kEff)); lia.
      - intros q Hq. rewrite Eff by lia. destruct (Nat.ltb_spec q deg); [lia|]. destruct (Nat.ltb_spec q (deg + kEff)); unfold kEff in *; lia. }
    rewrite T. exists (Z.of_nat (m + deg)). split; [reflexivity|]. split; [lia|]. split; [unfold kEff in *; lia|]. split; [|unfold kEff in *; lia].
    assert (V1 : clamped_knot dim deg o w (Z.of_nat (m + deg)) = k ? m).
    { rewrite <- Val by (unfold kEff in *; lia). rewrite Eff by (unfold kEff in *; lia). rewrite Nat2Z.id. destruct (Nat.ltb_spec (m + deg) deg); [lia|].
      destruct (Nat.ltb_spec (m + deg) (deg + kEff)); [|lia]. f_equal. lia. }
    assert (V2 : clamped_knot dim deg o w (Z.of_nat (m + deg) + 1) = k ? (m + 1)).
    { rewrite <- Val by (unfold kEff in *; lia). replace (Z.to_nat (Z.of_nat (m + deg) + 1)) with (m + deg + 1)%nat by lia. rewrite Eff by (unfold kEff in *; lia).
      destruct (Nat.ltb_spec (m + deg + 1) deg); [lia|]. destruct (Nat.ltb_spec (m + deg + 1) (deg + kEff)); [|lia]. f_equal. lia. }
    unfold in_span. rewrite V1, V2. split; [apply Incr; rewrite Len; exact Lm|exact Xm].
  - intros i Hi. exists i. split; [apply Nodes; exact Hi|exact Hi].
Qed.
End Clamped.

(** ** all the knots stored *)
Lemma seq_last n m : (m < n)%nat -> forall a f, last_pos (seq 0 n) m a f = (a + Z.of_nat m)%Z.
Proof.
  intros H. apply last_pos_is; rewrite ?seq_length; [exact H|apply seq_nth; exact H|]. intros q Hq. rewrite seq_nth by lia. lia.
Qed.
Lemma full_fits deg k nodes dim top lo hi : increasing k -> (deg < top)%nat \/ (deg <= top)%nat -> (top + deg < length k)%nat -> (1 <= deg)%nat -> (top < length nodes)%nat ->
  k ? deg <= lo -> hi < k ? (top + 1) ->
  (forall i, (0 <= i < Z.of_nat (length nodes))%Z -> exists z, zget nodes i = Some z /\ (0 <= z < Z.of_nat dim)%Z) ->
  fits (Cu deg k (seq 0 (length k)) nodes) dim (fun i => k ? (Z.to_nat i)) lo hi.
Proof.
  intros I Dt T D Tn Lo Hi N. constructor; cbn [c_deg c_knots c_eff c_nodes]; rewrite ?seq_length.
  - intros i j Hi' Hj. apply increasing_le; [exact I|lia].
  - intros i Hi'. unfold getKnotValue. cbn [c_eff c_knots]. rewrite (zget_nth _ _ 0%nat) by (rewrite seq_length; exact Hi'). rewrite seq_nth by lia. apply get_ok. lia.
  - intros x Hx.
    destruct (interval_ok (Cu deg k (seq 0 (length k)) nodes) x) as (m & G & Lm & Xm & B); cbn [c_knots] in *.
    { exact I. } { lia. } { pose proof (increasing_le k I 0 deg ltac:(lia)). lra. } { pose proof (increasing_le k I (top + 1) (length k - 1) ltac:(lia)). lra. }
    rewrite G. unfold getTheoreticalKnotIndex. cbn [c_knots c_eff]. destruct (Nat.ltb_spec m (length k)); [|lia]. rewrite seq_last by lia.
    exists (Z.of_nat m). split; [reflexivity|].
    assert (M1 : (deg <= m)%nat).
    { destruct (le_lt_dec deg m) as [|C]; [assumption|exfalso]. pose proof (increasing_le k I (m + 1) deg ltac:(lia)). destruct B as [B|B]; [lra|lia]. }
    assert (M2 : (m <= top)%nat).
    { destruct (le_lt_dec m top) as [|C]; [assumption|exfalso]. pose proof (increasing_le k I (top + 1) m ltac:(lia)). lra. }
    split; [lia|]. split; [lia|]. split; [|lia]. unfold in_span. rewrite Nat2Z.id. replace (Z.to_nat (Z.of_nat m + 1)) with (m + 1)%nat by lia.
    split; [apply I; lia|exact Xm].
  - exact N.
Qed.
Lemma fits_ext c dim u v lo hi : (forall i, (0 <= i < Z.of_nat (length (c_eff c)))%Z -> u i = v i) -> (1 <= c_deg c)%nat -> fits c dim u lo hi -> fits c dim v lo hi.
Proof.
  intros E D [F1 F2 F3 F4]. constructor; [| | |exact F4].
  - intros i j Hi Hj. rewrite <- !E by lia. apply F1; assumption.
  - intros i Hi. rewrite <- E by exact Hi. apply F2, Hi.
  - intros x Hx. destruct (F3 x Hx) as (k & G & A & B & C & N). exists k. split; [exact G|]. split; [exact A|]. split; [exact B|]. split; [|exact N].
    unfold in_span in *. rewrite <- !E by lia. exact C.
Qed.
Lemma nodes_ok t dim deg : (1 <= deg < dim)%nat -> forall i, (0 <= i < Z.of_nat (length (setMapNodes t dim deg)))%Z ->
  exists z, zget (setMapNodes t dim deg) i = Some z /\ (0 <= z < Z.of_nat dim)%Z.
Proof.
  intros D i Hi.
  assert (P2 : (2 * pre deg <= deg)%nat).
  { unfold pre. pose proof (Nat.div_mod (deg - 1) 2 ltac:(lia)). pose proof (Nat.mod_upper_bound (deg - 1) 2 ltac:(lia)). lia. }
  assert (P3 : (deg <= 2 * pre deg + 1)%nat).
  { unfold pre. pose proof (Nat.div_mod (deg - 1) 2 ltac:(lia)). pose proof (Nat.mod_upper_bound (deg - 1) 2 ltac:(lia)). lia. }
  unfold setMapNodes in *. destruct t; rewrite map_length, seq_length in Hi.
  - exists i. rewrite (zget_nth _ _ (Z.of_nat 0)) by (rewrite map_length, seq_length; exact Hi). rewrite map_nth, seq_nth by lia. split; [f_equal; lia|lia].
  - exists i. rewrite (zget_nth _ _ (Z.of_nat 0)) by (rewrite map_length, seq_length; exact Hi). rewrite map_nth, seq_nth by lia. split; [f_equal; lia|lia].
  - eexists. split.
    + match goal with |- zget (map ?F _) _ = _ => rewrite (zget_nth _ _ (F 0%nat)) by (rewrite map_length, seq_length; exact Hi); rewrite (map_nth F) end.
      rewrite seq_nth by lia. reflexivity.
    + rewrite plus_O_n. destruct (Nat.ltb_spec (Z.to_nat i) (pre deg)); [lia|]. destruct (Nat.ltb_spec (Z.to_nat i) (pre deg + dim)); lia.
  - eexists. split.
    + match goal with |- zget (map ?F _) _ = _ => rewrite (zget_nth _ _ (F 0%nat)) by (rewrite map_length, seq_length; exact Hi); rewrite (map_nth F) end.
      rewrite seq_nth by lia. reflexivity.
    + rewrite plus_O_n. destruct (Nat.ltb_spec (Z.to_nat i) (pre deg)); [|destruct (Nat.ltb_spec (Z.to_nat i) (pre deg + dim))].
      * match goal with |- (0 <= Z.rem ?a ?b < _)%Z => pose proof (Z.rem_bound_pos a b ltac:(lia) ltac:(lia)) end. lia.
      * lia.
      * match goal with |- (0 <= Z.rem ?a ?b < _)%Z => pose proof (Z.rem_bound_pos a b ltac:(lia) ltac:(lia)) end. lia.
Qed.
Lemma pre_shift deg : (1 <= deg)%nat -> INR (pre deg) = (INR deg - 1) / 2 - shift deg.
Proof.
  intros D. unfold pre, shift. destruct (Nat.Even_or_Odd deg) as [[q Q]|[q Q]].
  - replace (Nat.odd deg) with false by (symmetry; rewrite <- Nat.negb_even; apply negb_false_iff, Nat.even_spec; exists q; exact Q).
    replace (deg - 1)%nat with (1 + (q - 1) * 2)%nat by lia. rewrite Nat.div_add, Nat.mod_add by lia.
    change (1 / 2)%nat with 0%nat. change (1 mod 2)%nat with 1%nat. replace (0 + (q - 1) + 1)%nat with q by lia. rewrite Q, mult_INR. cbn [INR]. lra.
  - replace (Nat.odd deg) with true by (symmetry; apply Nat.odd_spec; exists q; exact Q).
    replace (deg - 1)%nat with (0 + q * 2)%nat by lia. rewrite Nat.div_add, Nat.mod_add by lia.
    change (0 / 2)%nat with 0%nat. change (0 mod 2)%nat with 0%nat. replace (0 + q + 0)%nat with q by lia. rewrite Q, plus_INR, mult_INR. cbn [INR]. lra.
Qed.

Section Full.
Variables (dim deg : nat) (o w : R).
Hypothesis D : (1 <= deg < dim)%nat.
Hypothesis W : 0 < w.
Let dK := w / INR (dim - 1).
Let mid i := o + (INR i + (INR deg - 1) / 2) * dK.

Lemma unclamped_fits : exists c, setKnotsStructure UNCLAMPED dim deg w o = Some c /\ c_deg c = deg /\ exists u, fits c dim u o (o + w).
Proof.
  assert (dKp : 0 < dK) by exact (dK_pos dim deg w D W). assert (dKa : INR (dim - 1) * dK = w) by exact (dK_all dim deg w D).
  set (kEff := (dim - deg + 1)%nat). unfold setKnotsStructure, setKnots. cbv zeta. fold kEff. unfold getNodeSpacing. fold dK.
  rewrite spacing_first, spacing_last by lia. cbn [bind]. rewrite dKa.
  rewrite put_ok by (rewrite repeat_length; unfold kEff; lia). cbn [bind].
  rewrite put_ok by (rewrite upd_len, repeat_length; unfold kEff; lia). cbn [bind].
  set (kend := (deg + kEff - 1)%nat).
  set (l := upd (upd (repeat 0 (dim + deg + 1)) deg o) kend (o + w + tol)).
  assert (Tol : 0 < tol) by (unfold tol; apply Rinv_0_lt_compat, pow_lt; lra).
  assert (Len : length l = (dim + deg + 1)%nat) by (unfold l; rewrite !upd_len; apply repeat_length).
  destruct (averages_is (map (fun i => o + INR i * dK) (seq 0 dim)) deg deg 1 (kEff - 1) mid l) as (k & E & L & N).
  { unfold kEff; lia. } { unfold kEff in *; lia. }
  { intros i Hi. apply average_is; unfold kEff in Hi; lia. }
  rewrite E. cbn [bind].
  assert (N0 : forall p, l ? p = if Nat.eqb p kend then o + w + tol else if Nat.eqb p deg then o else (repeat 0 (dim + deg + 1)) ? p).
  { intros p. unfold l. rewrite !nth_upd by (rewrite ?upd_len, repeat_length; unfold kend, kEff; lia). reflexivity. }
  assert (K0 : k ? deg = o).
  { rewrite N, N0. destruct (Nat.leb_spec (deg + 1) deg); [lia|]. cbn [andb]. destruct (Nat.eqb_spec deg kend); [unfold kend, kEff in *; lia|]. now rewrite Nat.eqb_refl. }
  assert (K1 : k ? kend = o + w + tol).
  { rewrite N, N0. destruct (Nat.ltb_spec kend (deg + (kEff - 1))); [unfold kend, kEff in *; lia|]. rewrite andb_false_r. now rewrite Nat.eqb_refl. }
  assert (Km : forall p, (deg < p < kend)%nat -> k ? p = mid (p - deg)).
  { intros p Hp. rewrite N. destruct (Nat.leb_spec (deg + 1) p); [|lia]. destruct (Nat.ltb_spec p (deg + (kEff - 1))); [reflexivity|unfold kend, kEff in *; lia]. }
  assert (1 <= INR deg) by (apply (le_INR 1); lia).
  destruct (unclamp_is (Rlt 0) deg kend k) as (k' & E' & L' & P' & C' & _).
  { lia. } { unfold kend, kEff; lia. } { unfold kend, kEff in *; lia. }
  { intros p Hp.
    assert (M : forall i, (1 <= i)%nat -> o < mid i).
    { intros i Ni. unfold mid. assert (1 <= INR i) by (apply (le_INR 1); lia). assert (0 < (INR i + (INR deg - 1) / 2) * dK) by (apply Rmult_lt_0_compat; lra). lra. }
    assert (M2 : forall i, (i < kEff - 1)%nat -> mid i < o + w).
    { intros i Hi. unfold mid. rewrite <- dKa. apply Rplus_lt_compat_l. apply Rmult_lt_compat_r; [exact dKp|].
      rewrite minus_INR by lia. assert (INR i <= INR (dim - deg - 1)) as Hj by (apply le_INR; unfold kEff in Hi; lia).
      rewrite !minus_INR in Hj by lia. cbn [INR] in *. lra. }
    destruct (Nat.eq_dec p deg) as [->|Np].
    - rewrite K0. destruct (Nat.eq_dec (deg + 1) kend) as [Ek|Ek]; [rewrite Ek, K1; lra|]. rewrite Km by lia. pose proof (M (deg + 1 - deg)%nat ltac:(lia)). lra.
    - rewrite (Km p) by lia. destruct (Nat.eq_dec (p + 1) kend) as [Ek|Ek].
      + rewrite Ek, K1. pose proof (M2 (p - deg)%nat ltac:(unfold kend, kEff in *; lia)). lra.
      + rewrite Km by lia. replace (p + 1 - deg)%nat with (p - deg + 1)%nat by lia. unfold mid. rewrite plus_INR. cbn [INR]. lra. }
  rewrite E'. cbn [bind]. eexists. split; [reflexivity|]. split; [reflexivity|]. eexists.
  assert (L2 : length k' = (dim + deg + 1)%nat) by congruence.
  replace (setEff UNCLAMPED dim deg) with (seq 0 (length k')) by (rewrite L2; reflexivity).
  apply (full_fits deg k' _ dim (kend - 1) o (o + w)).
  - intros p Hp. pose proof (P' p ltac:(unfold kend, kEff in *; lia)). lra.
  - unfold kend, kEff; lia.
  - unfold kend, kEff in *; lia.
  - lia.
  - unfold setMapNodes. rewrite map_length, seq_length. unfold kend, kEff; lia.
  - rewrite C' by (unfold kend, kEff; lia). lra.
  - replace (kend - 1 + 1)%nat with kend by (unfold kend, kEff; lia). rewrite C' by (unfold kend, kEff; lia). lra.
  - apply nodes_ok, D.
Qed.

(** equal distances *)
Hypothesis O : o = 0 \/ o <= - / 2.
Hypothesis Wide : 2 * tol <= dK.
Definition wraps (t : coordtype) : Prop := t = PERIODIC \/ t = SYMMETRIC.
Lemma uniform_fits t : wraps t -> exists c, setKnotsStructure t dim deg w o = Some c /\ c_deg c = deg /\ length (c_eff c) = (dim + deg + deg)%nat /\
  c_nodes c = setMapNodes t dim deg /\ fits c dim (uniform_knot dim deg o w) o (o + w).
Proof.
  intros Wt.
  assert (dKp : 0 < dK) by exact (dK_pos dim deg w D W). assert (dKa : INR (dim - 1) * dK = w) by exact (dK_all dim deg w D).
  assert (Tol : 0 < tol < / 2).
  { unfold tol. split; [apply Rinv_0_lt_compat, pow_lt; lra|]. apply Rinv_lt_contravar; [|lra]. apply Rmult_lt_0_compat; [lra|apply pow_lt; lra]. }
  assert (1 <= INR deg) by (apply (le_INR 1); lia).
  set (e := map (fun i => (o - 1 * INR (pre deg) * dK) + INR i * dK) (seq 0 (dim + deg - 1))).
  set (v := fun i => o + (INR i + shift deg) * dK).
  assert (Av : forall i, (i < dim)%nat -> average e deg i = Some (v i)).
  { intros i Hi. unfold e. rewrite average_is by lia. f_equal. unfold v. rewrite pre_shift by lia. lra. }
  assert (Sh : shift deg = 0 \/ shift deg = - 1 / 2) by (unfold shift; destruct (Nat.odd deg); [left|right]; reflexivity).
  assert (Cl : clean (v 0%nat) = v 0%nat).
  { unfold clean. destruct (Rlt_dec (Rabs (v 0%nat)) tol) as [C|C]; [|reflexivity]. apply Rabs_def2 in C. unfold v in *. cbn [INR] in *.
    destruct O as [Oo|Oo], Sh as [Ss|Ss]; rewrite Ss in *; try rewrite Oo in *; lra. }
  set (kEff := (dim + deg - 1 - deg + 1)%nat). set (kTheo := (dim + deg - 1 + deg + 1)%nat).
  assert (K : kEff = dim) by (unfold kEff; lia).
  assert (Body : exists k', (do first <- average e deg 0; do l <- put (repeat 0 kTheo) deg (clean first); do l <- averages e deg deg 1 kEff l; unclamp deg (deg + kEff - 1) l) = Some k' /\
     length k' = kTheo /\ forall p, (p < kTheo)%nat -> k' ? p = o + (INR p - INR deg + shift deg) * dK).
  { rewrite Av by lia. cbn [bind]. rewrite put_ok by (rewrite repeat_length; unfold kTheo; lia). cbn [bind]. rewrite Cl, K.
    set (l := upd (repeat 0 kTheo) deg (v 0%nat)). assert (Len : length l = kTheo) by (unfold l; rewrite upd_len; apply repeat_length).
    destruct (averages_is e deg deg 1 dim v l) as (k & E & L & N).
    { lia. } { unfold kTheo in *; lia. } { intros i Hi. apply Av. lia. }
    rewrite E. cbn [bind].
    assert (Kp : forall p, (deg <= p <= deg + dim - 1)%nat -> k ? p = v (p - deg)%nat).
    { intros p Hp. rewrite N. destruct (Nat.eq_dec p deg) as [->|Np].
      - destruct (Nat.leb_spec (deg + 1) deg); [lia|]. cbn [andb]. unfold l. rewrite nth_upd by (rewrite repeat_length; unfold kTheo; lia). rewrite Nat.eqb_refl. f_equal. lia.
      - destruct (Nat.leb_spec (deg + 1) p); [|lia]. destruct (Nat.ltb_spec p (deg + dim)); [reflexivity|lia]. }
    destruct (unclamp_is (fun d => d = dK) deg (deg + dim - 1) k) as (k' & E' & L' & P' & C' & _).
    { lia. } { lia. } { unfold kTheo in *; lia. }
    { intros p Hp. rewrite !Kp by lia. replace (p + 1 - deg)%nat with (p - deg + 1)%nat by lia. unfold v. rewrite plus_INR. cbn [INR]. lra. }
    exists k'. split; [exact E'|]. split; [congruence|].
    assert (Base : k' ? deg = o + shift deg * dK). { rewrite C', Kp by lia. unfold v. replace (deg - deg)%nat with 0%nat by lia. cbn [INR]. lra. }
    assert (Up : forall q, (deg + q < kTheo)%nat -> k' ? (deg + q) = o + (INR q + shift deg) * dK).
    { induction q as [|q IH]; intros Hq; [rewrite Nat.add_0_r, Base; cbn [INR]; lra|]. pose proof (P' (deg + q)%nat ltac:(unfold kTheo in *; lia)) as Pq. rewrite IH in Pq by lia.
      replace (deg + S q)%nat with (deg + q + 1)%nat by lia. rewrite S_INR. lra. }
    assert (Down : forall q, (q <= deg)%nat -> k' ? (deg - q) = o + (- INR q + shift deg) * dK).
    { induction q as [|q IH]; intros Hq; [rewrite Nat.sub_0_r, Base; cbn [INR]; lra|]. pose proof (P' (deg - S q)%nat ltac:(lia)) as Pq.
      replace (deg - S q + 1)%nat with (deg - q)%nat in Pq by lia. rewrite IH in Pq by lia. rewrite S_INR. lra. }
    intros p Hp. destruct (le_lt_dec deg p) as [A|A].
    - replace p with (deg + (p - deg))%nat at 1 by lia. rewrite Up by lia. rewrite minus_INR by lia. lra.
    - replace p with (deg - (deg - p))%nat at 1 by lia. rewrite Down by lia. rewrite minus_INR by lia. lra. }
  destruct Body as (k' & E & L & V).
  assert (S : setKnots t dim deg w o = Some k'). { rewrite <- E. destruct Wt as [->| ->]; reflexivity. }
  unfold setKnotsStructure. rewrite S. cbn [bind]. eexists. split; [reflexivity|]. cbn [c_deg c_eff c_nodes]. split; [reflexivity|].
  assert (Ef : setEff t dim deg = seq 0 (length k')) by (rewrite L; destruct Wt as [->| ->]; reflexivity).
  rewrite Ef, seq_length. split; [unfold kTheo in L; lia|]. split; [reflexivity|].
  apply (fits_ext _ _ (fun i => k' ? (Z.to_nat i))); cbn [c_eff c_deg]; [|lia|].
  - rewrite seq_length. intros i Hi. rewrite V by lia. unfold uniform_knot. rewrite <- (dK_is dim deg w D). rewrite INR_IZR_INZ, Z2Nat.id by lia. reflexivity.
  - assert (LN : length (setMapNodes t dim deg) = (dim + deg)%nat).
    { destruct Wt as [->| ->]; unfold setMapNodes; rewrite map_length, seq_length; lia. }
    apply (full_fits deg k' _ dim (deg + dim - 1) o (o + w)).
    + intros p Hp. rewrite !V by lia. rewrite plus_INR. cbn [INR]. apply Rplus_lt_compat_l, Rmult_lt_compat_r; [exact dKp|lra].
    + lia.
    + unfold kTheo in L; lia.
    + lia.
    + lia.
    + rewrite V by (unfold kTheo; lia). destruct Sh as [->| ->]; [lra|]. replace (INR deg - INR deg + -1 / 2) with (- / 2) by lra. lra.
    + rewrite V by (unfold kTheo; lia). rewrite <- dKa. replace (deg + dim - 1 + 1)%nat with (deg + (dim - 1) + 1)%nat by lia. rewrite !plus_INR. cbn [INR].
      apply Rplus_lt_compat_l, Rmult_lt_compat_r; [exact dKp|]. destruct Sh as [->| ->]; lra.
    + apply nodes_ok, D.
Qed.
End Full.
