(** Lemmas for the Nastran files. *)
From Coq Require Import String List Arith NArith ZArith Bool Reals Lia Lra.
From Verif Require Import Text TextSpec TextProofs Nastran NastranSpec.
Import ListNotations.
Open Scope list_scope.

(** ** Digits *)
Definition all_digits (l : list N) : Prop := forall c, In c l -> is_digit c = true.
Lemma show_N_length : forall fuel n k, (n < 10 ^ N.of_nat (S k))%N -> (length (show_N fuel n) <= S k)%nat.
Proof.
  induction fuel as [|f IH]; intros n k H; [cbn; lia|]. cbn [show_N]. destruct (N.ltb_spec n 10) as [L|L]; [cbn; lia|]. rewrite app_length. cbn [length]. destruct k as [|k]; [cbn in H; lia|].
  specialize (IH (n / 10)%N k). enough (length (show_N f (n / 10)) <= S k)%nat by lia. apply IH. apply N.div_lt_upper_bound; [lia|]. rewrite Nat2N.inj_succ, N.pow_succ_r' in H. exact H.
Qed.
Lemma show_N_long : forall fuel n k, (N.log2 n < N.of_nat fuel)%N -> (10 ^ N.of_nat k <= n)%N -> (S k <= length (show_N fuel n))%nat.
Proof.
  induction fuel as [|f IH]; intros n k L H; [lia|]. cbn [show_N]. destruct k as [|k]; [destruct (N.ltb n 10); [cbn; lia|rewrite app_length; cbn; lia]|].
  rewrite Nat2N.inj_succ, N.pow_succ_r' in H. assert (P : (1 <= 10 ^ N.of_nat k)%N) by (apply N.lt_pred_le; cbn; apply N.neq_0_lt_0, N.pow_nonzero; lia). destruct (N.ltb_spec n 10) as [X|X]; [lia|]. rewrite app_length. cbn [length].
  enough (S k <= length (show_N f (n / 10)))%nat by lia. apply IH; [|apply N.div_le_lower_bound; lia].
  assert (D : (n / 10 <= n / 2)%N) by (apply N.div_le_compat_l; lia). apply N.log2_le_mono in D. rewrite <- N.div2_div, N.div2_spec, N.log2_shiftr in D. assert (0 < N.log2 n)%N by (apply N.log2_pos; lia). lia.
Qed.
Lemma show_nat_digits : forall n, all_digits (show_nat n).
Proof. intros n c I. exact (show_N_digits _ _ _ I). Qed.
Lemma show_nat_value : forall n, value_of_digits (show_nat n) = Z.of_N n /\ show_nat n <> [].
Proof. intro n. apply show_N_value. lia. Qed.
Lemma show_int_nat : forall z, (0 <= z)%Z -> show_int z = show_nat (Z.to_N z).
Proof. intros z H. unfold show_int, show_nat. rewrite Z.abs_eq by exact H. destruct (Z.ltb_spec z 0); [lia|reflexivity]. Qed.
Lemma value_shift : forall b v, fold_left (fun v c => (10 * v + (Z.of_N c - 48))%Z) b v = (v * 10 ^ Z.of_nat (length b) + value_of_digits b)%Z.
Proof.
  unfold value_of_digits. induction b as [|c b IH]; intro v; [cbn; lia|]. cbn [fold_left length]. rewrite IH, (IH (10 * 0 + _)%Z). rewrite Nat2Z.inj_succ, Z.pow_succ_r by lia. ring.
Qed.
Lemma value_app2 : forall a b, value_of_digits (a ++ b) = (value_of_digits a * 10 ^ Z.of_nat (length b) + value_of_digits b)%Z.
Proof. intros a b. rewrite value_app. apply value_shift. Qed.
Lemma value_bound : forall a, all_digits a -> (0 <= value_of_digits a < 10 ^ Z.of_nat (length a))%Z.
Proof.
  induction a as [|c a IH]; intro D; [cbn; lia|]. change (c :: a) with ([c] ++ a). rewrite value_app2. cbn [app length]. rewrite Nat2Z.inj_succ, Z.pow_succ_r by lia. destruct (IH ltac:(intros x I; apply D; right; exact I)) as (A & B).
  assert (C : is_digit c = true) by (apply D; left; reflexivity). unfold is_digit in C. apply andb_true_iff in C. destruct C as (C1 & C2). apply N.leb_le in C1, C2. assert (E : value_of_digits [c] = (Z.of_N c - 48)%Z) by (unfold value_of_digits; cbn [fold_left]; lia). rewrite E. nia.
Qed.
Lemma fixed_length : forall p n, length (fixed_digits p n) = p.
Proof. induction p as [|p IH]; intro n; [reflexivity|]. cbn. rewrite app_length, IH. cbn. lia. Qed.
Lemma fixed_all : forall p n, all_digits (fixed_digits p n).
Proof.
  induction p as [|p IH]; intros n c I; [destruct I|]. cbn [fixed_digits] in I. apply in_app_iff in I. destruct I as [I|[<- |[]]]; [exact (IH _ _ I)|]. unfold is_digit. assert (M : (n mod 10 < 10)%N) by (apply N.mod_lt; discriminate). revert M. generalize (n mod 10)%N. intros m M. apply andb_true_iff. split; apply N.leb_le; lia.
Qed.
Lemma fixed_value : forall p n, (n < 10 ^ N.of_nat p)%N -> value_of_digits (fixed_digits p n) = Z.of_N n.
Proof.
  induction p as [|p IH]; intros n H; [cbn in *; lia|]. cbn [fixed_digits]. rewrite value_app2, IH by (apply N.div_lt_upper_bound; [lia|]; rewrite Nat2N.inj_succ, N.pow_succ_r' in H; exact H).
  assert (E : value_of_digits [(48 + n mod 10)%N] = Z.of_N (n mod 10)) by (unfold value_of_digits; cbn [fold_left]; lia). rewrite E. cbn [length]. change (10 ^ Z.of_nat 1)%Z with 10%Z. rewrite (N.div_mod n 10) at 3 by lia. lia.
Qed.
(** ** Fields *)
Lemma value_length : forall w t, length (value w t) = width w.
Proof. intros w t. unfold value, pad_left. rewrite app_length, repeat_length. pose proof (firstn_le_length (width w) t). rewrite firstn_length in *. lia. Qed.
Lemma digit_not_space : forall c, is_digit c = true -> is_space c = false.
Proof. intros c H. unfold is_digit in H. apply andb_true_iff in H. destruct H as (A & B). apply N.leb_le in A, B. unfold is_space. apply orb_false_iff. split; [apply N.eqb_neq; lia|]. apply andb_false_iff. right. apply N.leb_gt. lia. Qed.
Lemma take_all : forall d, all_digits d -> take_digits d = (d, []).
Proof. intros d D. rewrite <- (app_nil_r d) at 1. apply take_digits_app; [exact D|exact I]. Qed.
Lemma sign_digits : forall d l, all_digits d -> d <> [] -> sign (d ++ l) = (false, d ++ l).
Proof.
  intros [|c d] l D N; [contradiction|]. cbn. assert (C : is_digit c = true) by (apply D; left; reflexivity). unfold is_digit in C. apply andb_true_iff in C. destruct C as (A & B). apply N.leb_le in A, B. unfold c_minus, c_plus. destruct (N.eqb_spec c 45); [lia|]. destruct (N.eqb_spec c 43); [lia|reflexivity].
Qed.
Lemma skip_id : forall l, (forall c, In c l -> is_space c = false) -> skip_space l = l.
Proof. intros [|c l] H; [reflexivity|]. apply no_skip, H. left. reflexivity. Qed.
Lemma trim_id : forall l, (forall c, In c l -> is_space c = false) -> trim l = l.
Proof. intros l H. unfold trim. rewrite (skip_id l H). rewrite skip_id by (intros c I; apply H, in_rev, I). apply rev_involutive. Qed.
Lemma stoi_label : forall z, label z -> stoi (value Short (show_int z)) = Some z.
Proof.
  intros z (L & U). rewrite show_int_nat by exact L. set (n := Z.to_N z). destruct (show_nat_value n) as (V & NE). assert (LN : (length (show_nat n) <= 8)%nat) by (apply show_N_length; unfold n; cbn; lia).
  unfold value, pad_left, stoi. cbn [width]. rewrite firstn_all2 by exact LN. rewrite skip_line by (intros c I; apply repeat_spec in I; subst; reflexivity). rewrite skip_id by (intros c I; apply digit_not_space, (show_nat_digits n), I).
  rewrite <- (app_nil_r (show_nat n)), sign_digits by (try apply show_nat_digits; exact NE). rewrite app_nil_r, take_all by apply show_nat_digits. destruct (show_nat n) as [|c r] eqn:E; [contradiction|]. rewrite V. unfold n, signed.
  rewrite Z2N.id by exact L. rewrite (proj2 (Z.leb_le _ _)) by lia. rewrite (proj2 (Z.leb_le _ _)) by lia. reflexivity.
Qed.
Lemma stoi_long : forall z, label z -> stoi (value Long (show_int z)) = Some z.
Proof.
  intros z (L & U). rewrite show_int_nat by exact L. set (n := Z.to_N z). destruct (show_nat_value n) as (V & NE). assert (LN : (length (show_nat n) <= 16)%nat) by (etransitivity; [apply (show_N_length _ _ 7); unfold n; cbn; lia|lia]).
  unfold value, pad_left, stoi. cbn [width]. rewrite firstn_all2 by exact LN. rewrite skip_line by (intros c I; apply repeat_spec in I; subst; reflexivity). rewrite skip_id by (intros c I; apply digit_not_space, (show_nat_digits n), I).
  rewrite <- (app_nil_r (show_nat n)), sign_digits by (try apply show_nat_digits; exact NE). rewrite app_nil_r, take_all by apply show_nat_digits. destruct (show_nat n) as [|c r] eqn:E; [contradiction|]. rewrite V. unfold n, signed.
  rewrite Z2N.id by exact L. rewrite (proj2 (Z.leb_le _ _)) by lia. rewrite (proj2 (Z.leb_le _ _)) by lia. reflexivity.
Qed.
Lemma last_none : forall c l, ~ In c l -> last_index c l = None.
Proof. intros c. induction l as [|x l IH]; intro H; [reflexivity|]. cbn. rewrite IH by (intro I; apply H; right; exact I). destruct (N.eqb_spec x c) as [-> |]; [exfalso; apply H; left; reflexivity|reflexivity]. Qed.
Lemma last_at : forall c a l, ~ In c l -> last_index c (a ++ c :: l) = Some (length a).
Proof. intros c a l H. induction a as [|x a IH]; cbn; [rewrite (last_none c l H), N.eqb_refl; reflexivity|]. rewrite IH. reflexivity. Qed.
Lemma digits_no : forall l c, all_digits l -> is_digit c = false -> ~ In c l.
Proof. intros l c D H I. rewrite (D c I) in H. discriminate. Qed.
Lemma stod_plain : forall (neg : bool) d f, all_digits d -> all_digits f -> d <> [] ->
  stod ((if neg then [c_minus] else []) ++ d ++ c_dot :: f) = Some (signed neg (value_of_digits (d ++ f)), (- Z.of_nat (length f))%Z).
Proof.
  intros neg d f D F NE. unfold stod. assert (SK : skip_space ((if neg then [c_minus] else []) ++ d ++ c_dot :: f) = (if neg then [c_minus] else []) ++ d ++ c_dot :: f).
  { destruct neg; [reflexivity|]. destruct d as [|c d]; [contradiction|]. apply no_skip, digit_not_space, D. left. reflexivity. }
  rewrite SK. assert (SG : sign ((if neg then [c_minus] else []) ++ d ++ c_dot :: f) = (neg, d ++ c_dot :: f)) by (destruct neg; [reflexivity|exact (sign_digits d (c_dot :: f) D NE)]). rewrite SG.
  rewrite take_digits_app by (try exact D; reflexivity). rewrite N.eqb_refl, take_all by exact F. destruct (d ++ f) as [|c r] eqn:E; [destruct d; [contradiction|discriminate]|]. cbn [exponent]. f_equal.
Qed.
Lemma plain_convert : forall (neg : bool) d f, all_digits d -> all_digits f -> convert_vertex ((if neg then [c_minus] else []) ++ d ++ c_dot :: f) = (if neg then [c_minus] else []) ++ d ++ c_dot :: f.
Proof.
  intros neg d f D F. assert (M : forall c, is_digit c = false -> c <> c_dot -> ~ In c (d ++ c_dot :: f)).
  { intros c C N I. apply in_app_iff in I. destruct I as [I|[I|I]]; [exact (digits_no d c D C I)|congruence|exact (digits_no f c F C I)]. }
  unfold convert_vertex. destruct neg; cbn [app].
  - cbn [last_index]. rewrite !last_none; [|apply M; [reflexivity|discriminate]|apply M; [reflexivity|discriminate]]. reflexivity.
  - rewrite !last_none; [reflexivity| |]; apply M; try reflexivity; discriminate.
Qed.
Lemma plain_trim : forall (neg : bool) d f, all_digits d -> all_digits f -> trim ((if neg then [c_minus] else []) ++ d ++ c_dot :: f) = (if neg then [c_minus] else []) ++ d ++ c_dot :: f.
Proof.
  intros neg d f D F. apply trim_id. intros c I. apply in_app_iff in I. destruct I as [I|I]; [destruct neg; [destruct I as [<- |[]]; reflexivity|destruct I]|]. apply in_app_iff in I. destruct I as [I|[<- |I]]; [apply digit_not_space, D, I|reflexivity|apply digit_not_space, F, I].
Qed.
Lemma ten_pos : forall z, (0 < powerRZ 10 z)%R.
Proof. intro z. apply powerRZ_lt. lra. Qed.
Lemma ten_mono : forall a b, (a <= b)%Z -> (powerRZ 10 a <= powerRZ 10 b)%R.
Proof.
  intros a b H. replace b with (a + (b - a))%Z by lia. rewrite ten_pow by lia. rewrite <- (Rmult_1_r (powerRZ 10 a)) at 1. apply Rmult_le_compat_l; [left; apply ten_pos|]. apply IZR_le. assert (0 < 10 ^ (b - a))%Z by (apply Z.pow_pos_nonneg; lia). lia.
Qed.
(** a coordinate as it is written and read *)
Lemma coord_read : forall c, small c -> exists d, stod (convert_vertex (trim (value Short (show_fixed 8 c)))) = Some d /\ six_digits c d.
Proof.
  intros [neg n] H. unfold small in H. cbn [snd] in H. unfold show_fixed. cbn [fst snd]. change (10 ^ N.of_nat 8)%N with 100000000%N. set (q := (n / 100000000)%N). set (r := (n mod 100000000)%N).
  assert (NQ : n = (100000000 * q + r)%N) by (apply N.div_mod; lia). assert (RB : (r < 100000000)%N) by (apply N.mod_lt; lia). set (D := show_nat q). set (F := fixed_digits 8 r).
  assert (DD : all_digits D) by apply show_nat_digits. assert (FD : all_digits F) by apply fixed_all. destruct (show_nat_value q) as (VD & ND). fold D in VD, ND. assert (LF : length F = 8%nat) by apply fixed_length. assert (VF : value_of_digits F = Z.of_N r) by (apply fixed_value; exact RB).
  assert (LD : (length D <= 6)%nat) by (apply show_N_length; cbn; unfold q; apply N.div_lt_upper_bound; lia).
  set (s := if neg then [c_minus] else []). assert (LS : (length s <= 1)%nat) by (unfold s; destruct neg; cbn; lia). set (j := (7 - length s - length D)%nat).
  assert (T : firstn 8 (s ++ D ++ c_dot :: F) = s ++ D ++ c_dot :: firstn j F).
  { rewrite firstn_app. rewrite (firstn_all2 s) by lia. f_equal. rewrite firstn_app. rewrite (firstn_all2 D) by lia. f_equal. replace (8 - length s - length D)%nat with (S j) by (unfold j; lia). reflexivity. }
  assert (JD : all_digits (firstn j F)) by (intros c I; apply FD; rewrite <- (firstn_skipn j F); apply in_app_iff; left; exact I).
  assert (KD : all_digits (skipn j F)) by (intros c I; apply FD; rewrite <- (firstn_skipn j F); apply in_app_iff; right; exact I).
  assert (LJ : length (firstn j F) = j) by (rewrite firstn_length; unfold j; lia). assert (LK : length (skipn j F) = (8 - j)%nat) by (rewrite skipn_length; lia).
  assert (V : value Short (s ++ D ++ c_dot :: F) = s ++ D ++ c_dot :: firstn j F).
  { unfold value, pad_left. cbn [width]. rewrite T. replace (8 - length (s ++ D ++ c_dot :: firstn j F))%nat with 0%nat; [reflexivity|]. rewrite !app_length. cbn [length]. rewrite LJ. unfold j. lia. }
  rewrite V. unfold s. rewrite plain_trim, plain_convert, stod_plain by assumption. eexists. split; [reflexivity|]. rewrite LJ. set (M := value_of_digits (D ++ firstn j F)). set (v2 := value_of_digits (skipn j F)).
  assert (VB : (0 <= v2 < 10 ^ Z.of_nat (8 - j))%Z) by (unfold v2; rewrite <- LK; apply value_bound, KD).
  assert (NM : Z.of_N n = (M * 10 ^ Z.of_nat (8 - j) + v2)%Z).
  { unfold M, v2. rewrite <- LK, <- value_app2, <- app_assoc, firstn_skipn, value_app2, VD, VF, LF. change (10 ^ Z.of_nat 8)%Z with 100000000%Z. rewrite NQ. lia. }
  assert (MP : (0 <= M)%Z) by (unfold M; apply value_bound; intros c I; apply in_app_iff in I; destruct I as [I|I]; [apply DD, I|apply JD, I]).
  intros k K X. unfold coordinate in *. cbn [fst snd] in *. unfold real. cbn [fst snd].
  assert (P8 : (0 < powerRZ 10 (- (8)))%R) by apply ten_pos.
  assert (XA : (IZR (Z.of_N n) * powerRZ 10 (- (8)) < powerRZ 10 k)%R).
  { rewrite Rabs_mult, (Rabs_right (powerRZ 10 (- (8)))) in X by lra. rewrite Rabs_mult in X. rewrite (Rabs_right (IZR (Z.of_N n))) in X by (apply Rle_ge, IZR_le; lia). destruct neg; [rewrite Rabs_left in X by lra|rewrite Rabs_right in X by lra]; lra. }
  assert (NB : (Z.of_N n < 10 ^ (k + 8))%Z).
  { apply lt_IZR. apply (Rmult_lt_reg_r (powerRZ 10 (- (8)))); [exact P8|]. eapply Rlt_le_trans; [exact XA|]. right. replace k with (- (8) + (k + 8))%Z at 1 by lia. rewrite ten_pow by lia. ring. }
  assert (QB : (Z.of_N q < 10 ^ k)%Z).
  { rewrite Z.pow_add_r in NB by lia. change (10 ^ 8)%Z with 100000000%Z in NB. nia. }
  assert (LQ : (Z.of_nat (length D) <= k)%Z).
  { assert (LL : (length D <= S (Z.to_nat (k - 1)))%nat). { apply show_N_length. apply N2Z.inj_lt. rewrite N2Z.inj_pow. replace (Z.of_N (N.of_nat (S (Z.to_nat (k - 1))))) with k by lia. exact QB. } lia. }
  assert (JK : (- Z.of_nat j <= k - 6)%Z) by (unfold j; lia).
  eapply Rlt_le_trans; [|apply (ten_mono _ _ JK)].
  assert (E : (IZR (Z.of_N n) * powerRZ 10 (- (8)) = IZR M * powerRZ 10 (- Z.of_nat j) + IZR v2 * powerRZ 10 (- (8)))%R).
  { rewrite NM, plus_IZR, mult_IZR, Rmult_plus_distr_r. f_equal. rewrite Rmult_assoc. f_equal. rewrite Rmult_comm, <- ten_pow by lia. f_equal. unfold j. lia. }
  assert (EB : (IZR v2 * powerRZ 10 (- (8)) < powerRZ 10 (- Z.of_nat j))%R).
  { replace (- Z.of_nat j)%Z with (- (8) + Z.of_nat (8 - j))%Z by (unfold j; lia). rewrite ten_pow by lia. rewrite (Rmult_comm (powerRZ 10 (- (8)))). apply Rmult_lt_compat_r; [exact P8|]. apply IZR_lt. lia. }
  assert (EN : (0 <= IZR v2 * powerRZ 10 (- (8)))%R) by (apply Rmult_le_pos; [apply IZR_le; lia|lra]).
  assert (GO : (Rabs (IZR (signed neg M) * powerRZ 10 (- Z.of_nat j) - (if neg then -1 else 1) * IZR (Z.of_N n) * powerRZ 10 (- (8))) = IZR v2 * powerRZ 10 (- (8)))%R).
  { destruct neg; unfold signed; [rewrite opp_IZR|]; rewrite Rmult_assoc, E.
    - rewrite Rabs_right by lra. lra.
    - rewrite Rabs_left1 by lra. lra. }
  rewrite GO. exact EB.
Qed.

(** the same in the long format *)
Lemma coord_long : forall c, (snd c < 1000000000000000000000000000000)%N -> exists d, stod (convert_vertex (trim (value Long (show_fixed 16 c)))) = Some d /\ fourteen_digits c d.
Proof.
  intros [neg n] H. cbn [snd] in H. unfold show_fixed. cbn [fst snd]. change (10 ^ N.of_nat 16)%N with 10000000000000000%N. set (q := (n / 10000000000000000)%N). set (r := (n mod 10000000000000000)%N).
  assert (NQ : n = (10000000000000000 * q + r)%N) by (apply N.div_mod; lia). assert (RB : (r < 10000000000000000)%N) by (apply N.mod_lt; lia). set (D := show_nat q). set (F := fixed_digits 16 r).
  assert (DD : all_digits D) by apply show_nat_digits. assert (FD : all_digits F) by apply fixed_all. destruct (show_nat_value q) as (VD & ND). fold D in VD, ND. assert (LF : length F = 16%nat) by apply fixed_length. assert (VF : value_of_digits F = Z.of_N r) by (apply fixed_value; exact RB).
  assert (LD : (length D <= 14)%nat) by (apply show_N_length; cbn; unfold q; apply N.div_lt_upper_bound; lia).
  set (s := if neg then [c_minus] else []). assert (LS : (length s <= 1)%nat) by (unfold s; destruct neg; cbn; lia). set (j := (15 - length s - length D)%nat).
  assert (T : firstn 16 (s ++ D ++ c_dot :: F) = s ++ D ++ c_dot :: firstn j F).
  { rewrite firstn_app. rewrite (firstn_all2 s) by lia. f_equal. rewrite firstn_app. rewrite (firstn_all2 D) by lia. f_equal. replace (16 - length s - length D)%nat with (S j) by (unfold j; lia). reflexivity. }
  assert (JD : all_digits (firstn j F)) by (intros c I; apply FD; rewrite <- (firstn_skipn j F); apply in_app_iff; left; exact I).
  assert (KD : all_digits (skipn j F)) by (intros c I; apply FD; rewrite <- (firstn_skipn j F); apply in_app_iff; right; exact I).
  assert (LJ : length (firstn j F) = j) by (rewrite firstn_length; unfold j; lia). assert (LK : length (skipn j F) = (16 - j)%nat) by (rewrite skipn_length; lia).
  assert (V : value Long (s ++ D ++ c_dot :: F) = s ++ D ++ c_dot :: firstn j F).
  { unfold value, pad_left. cbn [width]. rewrite T. replace (16 - length (s ++ D ++ c_dot :: firstn j F))%nat with 0%nat; [reflexivity|]. rewrite !app_length. cbn [length]. rewrite LJ. unfold j. lia. }
  rewrite V. unfold s. rewrite plain_trim, plain_convert, stod_plain by assumption. eexists. split; [reflexivity|]. rewrite LJ. set (M := value_of_digits (D ++ firstn j F)). set (v2 := value_of_digits (skipn j F)).
  assert (VB : (0 <= v2 < 10 ^ Z.of_nat (16 - j))%Z) by (unfold v2; rewrite <- LK; apply value_bound, KD).
  assert (NM : Z.of_N n = (M * 10 ^ Z.of_nat (16 - j) + v2)%Z).
  { unfold M, v2. rewrite <- LK, <- value_app2, <- app_assoc, firstn_skipn, value_app2, VD, VF, LF. change (10 ^ Z.of_nat 16)%Z with 10000000000000000%Z. rewrite NQ. lia. }
  assert (MP : (0 <= M)%Z) by (unfold M; apply value_bound; intros c I; apply in_app_iff in I; destruct I as [I|I]; [apply DD, I|apply JD, I]).
  intros k K X. unfold coordinate in *. cbn [fst snd] in *. unfold real. cbn [fst snd].
  assert (P8 : (0 < powerRZ 10 (- (16)))%R) by apply ten_pos.
  assert (XA : (IZR (Z.of_N n) * powerRZ 10 (- (16)) < powerRZ 10 k)%R).
  { rewrite Rabs_mult, (Rabs_right (powerRZ 10 (- (16)))) in X by lra. rewrite Rabs_mult in X. rewrite (Rabs_right (IZR (Z.of_N n))) in X by (apply Rle_ge, IZR_le; lia). destruct neg; [rewrite Rabs_left in X by lra|rewrite Rabs_right in X by lra]; lra. }
  assert (NB : (Z.of_N n < 10 ^ (k + 16))%Z).
  { apply lt_IZR. apply (Rmult_lt_reg_r (powerRZ 10 (- (16)))); [exact P8|]. eapply Rlt_le_trans; [exact XA|]. right. replace k with (- (16) + (k + 16))%Z at 1 by lia. rewrite ten_pow by lia. ring. }
  assert (QB : (Z.of_N q < 10 ^ k)%Z).
  { rewrite Z.pow_add_r in NB by lia. change (10 ^ 16)%Z with 10000000000000000%Z in NB. nia. }
  assert (LQ : (Z.of_nat (length D) <= k)%Z).
  { assert (LL : (length D <= S (Z.to_nat (k - 1)))%nat). { apply show_N_length. apply N2Z.inj_lt. rewrite N2Z.inj_pow. replace (Z.of_N (N.of_nat (S (Z.to_nat (k - 1))))) with k by lia. exact QB. } lia. }
  assert (JK : (- Z.of_nat j <= k - 14)%Z) by (unfold j; lia).
  eapply Rlt_le_trans; [|apply (ten_mono _ _ JK)].
  assert (E : (IZR (Z.of_N n) * powerRZ 10 (- (16)) = IZR M * powerRZ 10 (- Z.of_nat j) + IZR v2 * powerRZ 10 (- (16)))%R).
  { rewrite NM, plus_IZR, mult_IZR, Rmult_plus_distr_r. f_equal. rewrite Rmult_assoc. f_equal. rewrite Rmult_comm, <- ten_pow by lia. f_equal. unfold j. lia. }
  assert (EB : (IZR v2 * powerRZ 10 (- (16)) < powerRZ 10 (- Z.of_nat j))%R).
  { replace (- Z.of_nat j)%Z with (- (16) + Z.of_nat (16 - j))%Z by (unfold j; lia). rewrite ten_pow by lia. rewrite (Rmult_comm (powerRZ 10 (- (16)))). apply Rmult_lt_compat_r; [exact P8|]. apply IZR_lt. lia. }
  assert (EN : (0 <= IZR v2 * powerRZ 10 (- (16)))%R) by (apply Rmult_le_pos; [apply IZR_le; lia|lra]).
  assert (GO : (Rabs (IZR (signed neg M) * powerRZ 10 (- Z.of_nat j) - (if neg then -1 else 1) * IZR (Z.of_N n) * powerRZ 10 (- (16))) = IZR v2 * powerRZ 10 (- (16)))%R).
  { destruct neg; unfold signed; [rewrite opp_IZR|]; rewrite Rmult_assoc, E.
    - rewrite Rabs_right by lra. lra.
    - rewrite Rabs_left1 by lra. lra. }
  rewrite GO. exact EB.
Qed.

(** ** Lines *)
Lemma block : forall k (blocks : list line) i, (forall b, In b blocks -> length b = k) -> (i < length blocks)%nat -> substr (concat blocks) (i * k) k = Some (nth i blocks []).
Proof.
  intros k blocks i H B. assert (LC : forall bs : list line, (forall b, In b bs -> length b = k) -> length (concat bs) = (length bs * k)%nat).
  { induction bs as [|b bs IH]; intro Hb; [reflexivity|]. cbn. rewrite app_length, IH by (intros; apply Hb; right; assumption). rewrite (Hb b) by (left; reflexivity). lia. }
  unfold substr. rewrite LC by exact H. destruct (Nat.ltb_spec (length blocks * k) (i * k)); [nia|]. apply (f_equal (@Some line)). clear - H B. revert i B. induction blocks as [|b bs IH]; intros i B; [cbn in B; lia|].
  assert (LB : length b = k) by (apply H; left; reflexivity). destruct i as [|i].
  - cbn. rewrite firstn_app, LB, Nat.sub_diag, firstn_O, app_nil_r. apply firstn_all2. lia.
  - cbn [concat nth]. rewrite skipn_app, LB. rewrite (skipn_all2 b) by lia. cbn [app]. replace (S i * k - k)%nat with (i * k)%nat by lia. apply IH; [intros; apply H; right; assumption|cbn in B; lia].
Qed.
Lemma keyword_length : forall key, (length key <= 8)%nat -> length (keyword Short key) = 8%nat.
Proof. intros key H. unfold keyword, pad_right. rewrite app_length, repeat_length. lia. Qed.
Lemma first8 : forall a l : list N, length a = 8%nat -> firstn 8 (a ++ l) = a.
Proof. intros a l H. rewrite firstn_app, H, Nat.sub_diag, firstn_O, app_nil_r. apply firstn_all2. lia. Qed.
Lemma card_first : forall a l, length a = 8%nat -> card_of (a ++ l) = card_of a.
Proof. intros a l H. unfold card_of. rewrite first8 by exact H. rewrite firstn_all2 by lia. reflexivity. Qed.
Definition tell (x y z : dec) (id : Z) (d : data) : data := Data (d_points d ++ [(id, (x, y, z))]) (d_faces d).
Lemma int_at_blocks : forall (blocks : list line) i z, (forall b, In b blocks -> length b = 8%nat) -> (i < length blocks)%nat -> nth i blocks [] = value Short (show_int z) -> label z -> int_at (concat blocks) (i * 8) 8 = Some z.
Proof. intros blocks i z H B E L. unfold int_at. rewrite block by assumption. cbn [bind]. rewrite E. apply stoi_label, L. Qed.
Lemma ints_at_blocks : forall (blocks : list line) k i, (forall b, In b blocks -> length b = 8%nat) -> (forall v, In v k -> label v) -> skipn i blocks = map (fun v => value Short (show_int v)) k ->
  ints_at (concat blocks) (i * 8) 8 (length k) = Some k.
Proof.
  intros blocks. induction k as [|v k IH]; intros i H L E; [reflexivity|]. cbn [length ints_at]. assert (B : (i < length blocks)%nat) by (destruct (Nat.lt_ge_cases i (length blocks)) as [G|G]; [exact G|rewrite skipn_all2 in E by exact G; discriminate]).
  assert (N : nth i blocks [] = value Short (show_int v)) by (rewrite <- (firstn_skipn i blocks), E; rewrite app_nth2; rewrite firstn_length, Nat.min_l by lia; [rewrite Nat.sub_diag; reflexivity|lia]).
  rewrite (int_at_blocks blocks i v H B N (L v (or_introl eq_refl))). cbn [bind]. replace (i * 8 + 8)%nat with (S i * 8)%nat by lia. rewrite IH; [reflexivity|exact H|intros; apply L; right; assumption|].
  replace (S i) with (1 + i)%nat by lia. clear - E. revert i E. induction blocks as [|b bs IHb]; intros i E; [destruct i; discriminate|]. destruct i; [cbn in *; congruence|]. cbn in *. exact (IHb i E).
Qed.
Definition field (c : coord) : option dec := stod (convert_vertex (trim (value Short (show_fixed 8 c)))).
Lemma process_fields : forall id x y z dx dy dz d, label id -> field x = Some dx -> field y = Some dy -> field z = Some dz ->
  exists l, write_coord Short id (x, y, z) = [l] /\ card_of l = Grid 8 /\ process l d = Some (Data (d_points d ++ [(id, (dx, dy, dz))]) (d_faces d)).
Proof.
  intros id x y z dx dy dz d L EX EY EZ. unfold field in *.
  set (blocks := [keyword Short (chars "GRID"); value Short (show_int id); value Short []; value Short (show_fixed 8 x); value Short (show_fixed 8 y); value Short (show_fixed 8 z)]).
  exists (concat blocks). split; [unfold blocks, write_coord; cbn [concat width]; rewrite <- !app_assoc, app_nil_r; reflexivity|].
  assert (B8 : forall b, In b blocks -> length b = 8%nat) by (intros b [<- |[<- |[<- |[<- |[<- |[<- |[]]]]]]]; try apply value_length; reflexivity).
  assert (CG : card_of (concat blocks) = Grid 8) by (cbn [concat blocks]; unfold blocks; cbn [concat]; rewrite card_first by reflexivity; reflexivity).
  split; [exact CG|]. unfold process. rewrite CG.
  assert (NB : forall i t, (i < 6)%nat -> nth i blocks [] = value Short t -> num_at (concat blocks) (i * 8) 8 = stod (convert_vertex (trim (value Short t)))).
  { intros i t Hi E. unfold num_at. rewrite block; [cbn [bind]; rewrite E; reflexivity|exact B8|cbn; lia]. }
  pose proof (int_at_blocks blocks 1 id B8 ltac:(cbn; lia) eq_refl L) as I1. cbn [Nat.mul Nat.add] in I1. rewrite I1. cbn [bind].
  pose proof (NB 3%nat (show_fixed 8 x) ltac:(lia) eq_refl) as I3. pose proof (NB 4%nat (show_fixed 8 y) ltac:(lia) eq_refl) as I4. pose proof (NB 5%nat (show_fixed 8 z) ltac:(lia) eq_refl) as I5.
  cbn [Nat.mul Nat.add] in I3, I4, I5 |- *. rewrite I3, EX. cbn [bind]. rewrite I4, EY. cbn [bind]. rewrite I5, EZ. reflexivity.
Qed.
Lemma process_point : forall id p d, label id -> small_point p -> exists l q, write_coord Short id p = [l] /\ card_of l = Grid 8 /\ near p q /\ process l d = Some (Data (d_points d ++ [(id, q)]) (d_faces d)).
Proof.
  intros id [[x y] z] d L (SX & SY & SZ). cbn [fst snd] in *. destruct (coord_read x SX) as (dx & EX & NX). destruct (coord_read y SY) as (dy & EY & NY). destruct (coord_read z SZ) as (dz & EZ & NZ).
  destruct (process_fields id x y z dx dy dz d L EX EY EZ) as (l & A & B & C). exists l, (dx, dy, dz). split; [exact A|]. split; [exact B|]. split; [repeat split; assumption|exact C].
Qed.
Lemma process_face : forall key k conn id pid d, (length (chars key) <= 8)%nat -> card_of (keyword Short (chars key)) = Face 8 k -> length conn = k -> label id -> label pid -> (forall v, In v conn -> label v) ->
  card_of (write_face key conn id pid) = Face 8 k /\ process (write_face key conn id pid) d = Some (Data (d_points d) (d_faces d ++ [(id, pid, conn)])).
Proof.
  intros key k conn id pid d LK CK LC LI LP LV. set (blocks := keyword Short (chars key) :: value Short (show_int id) :: value Short (show_int pid) :: map (fun v => value Short (show_int v)) conn).
  assert (CB : write_face key conn id pid = concat blocks) by (unfold write_face, blocks; cbn [concat]; rewrite flat_map_concat_map; reflexivity).
  assert (B8 : forall b, In b blocks -> length b = 8%nat).
  { intros b [<- |[<- |[<- |I]]]; [apply keyword_length; lia|apply value_length|apply value_length|]. apply in_map_iff in I. destruct I as (v & <- & _). apply value_length. }
  rewrite CB. assert (CG : card_of (concat blocks) = Face 8 k) by (unfold blocks; cbn [concat]; rewrite card_first by (apply keyword_length; lia); exact CK). split; [exact CG|]. unfold process. rewrite CG. unfold read_face.
  pose proof (int_at_blocks blocks 1 id B8 ltac:(cbn; lia) eq_refl LI) as I1. pose proof (int_at_blocks blocks 2 pid B8 ltac:(cbn; lia) eq_refl LP) as I2. pose proof (ints_at_blocks blocks conn 3 B8 LV eq_refl) as I3. rewrite LC in I3.
  cbn [Nat.mul Nat.add] in I1, I2, I3 |- *. rewrite I1. cbn [bind]. rewrite I2. cbn [bind]. rewrite I3. reflexivity.
Qed.

(** ** Files *)
Fixpoint run (ls : list line) (d : data) : option data := match ls with [] => Some d | l :: r => bind (process l d) (run r) end.
Definition plain (l : line) : Prop := enabled (card_of l) = true \/ card_of l = Another.
Lemma go_others : forall ls l d, (forall x, In x (l :: ls) -> card_of x = Another) -> go ls l d = Some d.
Proof.
  induction ls as [|x ls IH]; intros l d H; cbn [go]; rewrite (H l (or_introl eq_refl)); cbn [enabled].
  - unfold process. rewrite (H l (or_introl eq_refl)). reflexivity.
  - apply IH. intros y Y. apply H. right. exact Y.
Qed.
Lemma go_run : forall tail, (forall x, In x tail -> card_of x = Another) -> (2 <= length tail)%nat -> forall ls cur d, (forall x, In x (cur :: ls) -> plain x) -> go (ls ++ tail) cur d = run (cur :: ls) d.
Proof.
  intros tail T L. destruct tail as [|t1 [|t2 tail]]; cbn in L; try lia. induction ls as [|x ls IH]; intros cur d H; cbn [app].
  - destruct (H cur (or_introl eq_refl)) as [E|E].
    + cbn [go run]. rewrite E. destruct (process cur d) as [d'|]; [|reflexivity]. cbn [bind]. change (go (t2 :: tail) t1 d' = Some d'). apply go_others. exact T.
    + change (go (t1 :: t2 :: tail) cur d = run [cur] d). rewrite go_others by (intros y [<- |Y]; [exact E|apply T; exact Y]). cbn. unfold process. rewrite E. reflexivity.
  - assert (R : forall e, go (ls ++ t1 :: t2 :: tail) x e = run (x :: ls) e) by (intro e; apply IH; intros y Y; apply H; right; exact Y).
    cbn [go]. destruct (H cur (or_introl eq_refl)) as [E|E].
    + rewrite E. change (run (cur :: x :: ls) d) with (bind (process cur d) (run (x :: ls))). destruct (process cur d) as [d'|]; [|reflexivity]. cbn [bind]. rewrite <- R. destruct (ls ++ t1 :: t2 :: tail) eqn:Q; [destruct ls; discriminate|reflexivity].
    + rewrite E. cbn [enabled]. rewrite R. change (run (cur :: x :: ls) d) with (bind (process cur d) (run (x :: ls))). unfold process at 1. rewrite E. reflexivity.
Qed.
Lemma run_app : forall a b d, run (a ++ b) d = bind (run a d) (run b).
Proof. induction a as [|l a IH]; intros b d; [reflexivity|]. cbn. destruct (process l d); [apply IH|reflexivity]. Qed.
Lemma run_points : forall points d, (forall p, In p points -> label (fst p) /\ small_point (snd p)) ->
  exists qs, run (flat_map (fun p => write_coord Short (fst p) (snd p)) points) d = Some (Data (d_points d ++ combine (map fst points) qs) (d_faces d)) /\ Forall2 near (map snd points) qs /\
  forall l, In l (flat_map (fun p => write_coord Short (fst p) (snd p)) points) -> plain l.
Proof.
  induction points as [|[id p] points IH]; intros d H; [exists []; cbn; rewrite app_nil_r; destruct d; split; [reflexivity|split; [constructor|intros l []]]|].
  destruct (H (id, p) (or_introl eq_refl)) as (L & SP). cbn [fst snd] in *. destruct (process_point id p d L SP) as (l & q & E & C & N & P). destruct (IH (Data (d_points d ++ [(id, q)]) (d_faces d)) ltac:(intros; apply H; right; assumption)) as (qs & R & F & PL).
  exists (q :: qs). cbn [flat_map fst snd]. rewrite E. cbn [app run]. rewrite P. cbn [bind map combine fst snd d_points d_faces] in *. rewrite R. rewrite <- app_assoc. split; [reflexivity|]. split; [constructor; assumption|]. intros x [<- |X]; [left; rewrite C; reflexivity|apply PL; exact X].
Qed.
Lemma run_faces : forall faces labels d, length labels = length faces -> (forall f, In f faces -> (length f = 3 \/ length f = 4)%nat /\ forall v, In v f -> label v) -> (forall l, In l labels -> label (fst l) /\ label (snd l)) ->
  run (write_faces labels faces) d = Some (Data (d_points d) (d_faces d ++ combine labels faces)) /\ forall l, In l (write_faces labels faces) -> plain l.
Proof.
  induction faces as [|f faces IH]; intros labels d L HF HL; [destruct labels; [|discriminate]; cbn; rewrite app_nil_r; destruct d; split; [reflexivity|intros l []]|].
  destruct labels as [|[id pid] labels]; [discriminate|]. destruct (HF f (or_introl eq_refl)) as (LF & VF). destruct (HL (id, pid) (or_introl eq_refl)) as (LI & LP). cbn [fst snd] in *.
  assert (ST : exists l k, write_faces ((id, pid) :: labels) (f :: faces) = l :: write_faces labels faces /\ card_of l = Face 8 k /\ process l d = Some (Data (d_points d) (d_faces d ++ [(id, pid, f)]))).
  { cbn [write_faces]. destruct LF as [E|E]; rewrite E; cbn [Nat.eqb]; eexists; eexists; (split; [reflexivity|]); (apply process_face; [cbn; lia|reflexivity|exact E|assumption|assumption|assumption]). }
  destruct ST as (l & k & E & C & P). rewrite E. destruct (IH labels (Data (d_points d) (d_faces d ++ [(id, pid, f)])) ltac:(cbn in L; lia) ltac:(intros; apply HF; right; assumption) ltac:(intros; apply HL; right; assumption)) as (R & PL).
  cbn [run]. rewrite P. cbn [bind]. rewrite R. cbn [d_points d_faces combine]. rewrite <- app_assoc. split; [reflexivity|]. intros x [<- |X]; [left; rewrite C; reflexivity|apply PL; exact X].
Qed.

(** ** The whole file *)
Lemma same_refl : forall l, same l l = true.
Proof. intro l. unfold same. destruct (list_eq_dec N.eq_dec l l); [reflexivity|contradiction]. Qed.
Lemma footer_others : forall pids x, In x (footer Short pids ++ [chars "ENDDATA"; []]) -> card_of x = Another.
Proof.
  intros pids x X. apply in_app_iff in X. destruct X as [X|[<- |[<- |[]]]]; [|reflexivity|reflexivity]. unfold footer in X. apply in_app_iff in X. destruct X as [X|[<- |[]]]; [|rewrite card_first by reflexivity; reflexivity].
  apply in_map_iff in X. destruct X as (p & <- & _). rewrite card_first by reflexivity. reflexivity.
Qed.
Lemma footer_two : forall pids, (2 <= length (footer Short pids ++ [chars "ENDDATA"; []]))%nat.
Proof. intro pids. rewrite app_length. cbn [length]. lia. Qed.
Lemma read_lines : forall name ls pids, (forall l, In l ls -> plain l) -> read ([chars "TITLE=mimmo " ++ name ++ chars " mesh"; chars "$"; chars "BEGIN BULK"] ++ ls ++ footer Short pids ++ [chars "ENDDATA"; []]) = run ls (Data [] []).
Proof.
  intros name ls pids H. unfold read. rewrite app_assoc. rewrite go_run; [|apply footer_others|apply footer_two|].
  - cbn [app run]. change (process [] (Data [] [])) with (Some (Data [] [])). cbn [bind]. assert (T : card_of (chars "TITLE=mimmo " ++ name ++ chars " mesh") = Another) by reflexivity. unfold process at 1. rewrite T. reflexivity.
  - intros x [<- |X]; [right; reflexivity|]. apply in_app_iff in X. destruct X as [[<- |[<- |[<- |[]]]]|X]; try (right; reflexivity). apply H, X.
Qed.
Lemma digits_trim : forall d, all_digits d -> trim d = d.
Proof. intros d D. apply trim_id. intros c I. apply digit_not_space, D, I. Qed.
Lemma digits_convert : forall d, all_digits d -> convert_vertex d = d.
Proof. intros d D. unfold convert_vertex. rewrite !last_none by (apply (digits_no d _ D); reflexivity). reflexivity. Qed.
Lemma stod_digits : forall d, all_digits d -> d <> [] -> stod d = Some (value_of_digits d, 0%Z).
Proof.
  intros d D NE. unfold stod. rewrite skip_id by (intros c I; apply digit_not_space, D, I). pose proof (sign_digits d [] D NE) as S1. rewrite app_nil_r in S1. rewrite S1, take_all by exact D. rewrite app_nil_r. destruct d; [contradiction|]. reflexivity.
Qed.

(** ** Cards *)
Lemma skip_last : forall l c, is_space c = false -> exists u, skip_space (l ++ [c]) = u ++ [c].
Proof.
  induction l as [|x l IH]; intros c H; [exists []; cbn; rewrite H; reflexivity|]. cbn. destruct (is_space x); [apply IH, H|]. exists (x :: l). reflexivity.
Qed.
Lemma trim_head : forall c l, is_space c = false -> exists u, trim (c :: l) = c :: u.
Proof.
  intros c l H. unfold trim. rewrite no_skip by exact H. cbn [rev]. destruct (skip_last (rev l) c H) as (u & ->). rewrite rev_app_distr. exists (rev u). reflexivity.
Qed.
Lemma same_head : forall c u d v, c <> d -> same (c :: u) (d :: v) = false.
Proof. intros c u d v H. unfold same. destruct (list_eq_dec N.eq_dec (c :: u) (d :: v)) as [E|]; [injection E; congruence|reflexivity]. Qed.
Lemma foreign_card : forall l, foreign l -> card_of l = Another.
Proof.
  intros l (c & r & -> & B & NC & NG). assert (SP : is_space c = false) by (unfold is_space; apply orb_false_iff; split; [apply N.eqb_neq; lia|]; apply andb_false_iff; right; apply N.leb_gt; lia).
  unfold card_of. change (firstn 8 (c :: r)) with (c :: firstn 7 r). destruct (trim_head c (firstn 7 r) SP) as (u & ->). repeat match goal with |- context [same (c :: u) ?k] => let k1 := eval vm_compute in k in change k with k1; rewrite (same_head c u) by assumption end. reflexivity.
Qed.
Lemma go_ignored : forall l m x after, card_of l = Another -> forall before d cur, go (before ++ l :: m :: x :: after) cur d = go (before ++ m :: x :: after) cur d.
Proof.
  intros l m x after C. induction before as [|b before IH]; intros d cur; cbn [app go].
  - rewrite C. cbn [enabled]. destruct (enabled (card_of cur)); reflexivity.
  - destruct (enabled (card_of cur)); [|apply IH]. destruct (process cur d) as [e|]; [cbn [bind]|reflexivity]. specialize (IH e b).
    assert (A1 : exists u v, before ++ l :: m :: x :: after = u :: v) by (destruct before; eexists; eexists; reflexivity). assert (A2 : exists u v, before ++ m :: x :: after = u :: v) by (destruct before; eexists; eexists; reflexivity).
    destruct A1 as (u1 & v1 & A1). destruct A2 as (u2 & v2 & A2). rewrite A1, A2 in *. exact IH.
Qed.
Lemma go_last : forall l m m', enabled (card_of l) = true -> forall before d cur, go (before ++ [l; m]) cur d = go (before ++ [l; m']) cur d.
Proof.
  intros l m m' E. induction before as [|b before IH]; intros d cur; cbn [app go].
  - rewrite E. destruct (enabled (card_of cur)); reflexivity.
  - destruct (enabled (card_of cur)); [|apply IH]. destruct (process cur d) as [e|]; [cbn [bind]|reflexivity]. specialize (IH e b).
    assert (A1 : exists u v, before ++ [l; m] = u :: v) by (destruct before; eexists; eexists; reflexivity). assert (A2 : exists u v, before ++ [l; m'] = u :: v) by (destruct before; eexists; eexists; reflexivity).
    destruct A1 as (u1 & v1 & A1). destruct A2 as (u2 & v2 & A2). rewrite A1, A2 in *. exact IH.
Qed.
Lemma digits_all : forall l, digits l -> all_digits l.
Proof. intros l H c I. specialize (H c I). unfold is_digit. apply andb_true_iff. split; apply N.leb_le; lia. Qed.
Lemma decimal_value : forall l, decimal l = value_of_digits l.
Proof. induction l as [|c l IH]; [reflexivity|]. cbn [decimal]. rewrite IH. unfold value_of_digits at 2. cbn [fold_left]. rewrite value_shift. f_equal. Qed.
Lemma trim_blanks : forall k t j, t <> [] -> (forall c, In c t -> is_space c = false) -> trim (blanks k ++ t ++ blanks j) = t.
Proof.
  intros k t j NE H. unfold trim. rewrite skip_line by (intros c I; apply repeat_spec in I; subst; reflexivity).
  assert (S1 : skip_space (t ++ blanks j) = t ++ blanks j) by (destruct t as [|c t]; [contradiction|]; apply no_skip, H; left; reflexivity). rewrite S1, rev_app_distr.
  rewrite skip_line by (intros c I; apply in_rev in I; apply repeat_spec in I; subst; reflexivity). rewrite skip_id by (intros c I; apply H, in_rev, I). apply rev_involutive.
Qed.
Lemma card_read : forall x dx, length x = 8%nat -> stod (convert_vertex (trim x)) = Some dx -> read [grid_card x; []; []] = Some (Data [(1%Z, (dx, (0, -1)%Z, (0, -1)%Z))] []).
Proof.
  intros x dx L E. destruct x as [|x1 [|x2 [|x3 [|x4 [|x5 [|x6 [|x7 [|x8 [|? ?]]]]]]]]]; cbn in L; try discriminate.
  assert (C : card_of (grid_card [x1; x2; x3; x4; x5; x6; x7; x8]) = Grid 8) by reflexivity.
  assert (P : process (grid_card [x1; x2; x3; x4; x5; x6; x7; x8]) (Data [] []) = Some (Data [(1%Z, (dx, (0, -1)%Z, (0, -1)%Z))] [])).
  { unfold process. rewrite C. change (int_at (grid_card [x1; x2; x3; x4; x5; x6; x7; x8]) 8 8) with (Some 1%Z). cbn [bind].
    change (num_at (grid_card [x1; x2; x3; x4; x5; x6; x7; x8]) (3 * 8) 8) with (stod (convert_vertex (trim [x1; x2; x3; x4; x5; x6; x7; x8]))). rewrite E. cbn [bind].
    change (num_at (grid_card [x1; x2; x3; x4; x5; x6; x7; x8]) (4 * 8) 8) with (Some (0, -1)%Z). cbn [bind].
    change (num_at (grid_card [x1; x2; x3; x4; x5; x6; x7; x8]) (5 * 8) 8) with (Some (0, -1)%Z). reflexivity. }
  unfold read. cbn [go]. change (card_of []) with Another. cbn [enabled]. rewrite C. cbn [enabled]. rewrite P. reflexivity.
Qed.
Lemma scientific_chars : forall neg a b letter eneg e c, all_digits a -> all_digits b -> all_digits e -> In c (scientific neg a b letter eneg e) -> is_space c = false.
Proof.
  intros neg a b letter eneg e c A B E I. unfold scientific, minus in I. apply in_app_iff in I. destruct I as [I|I]; [destruct neg; [destruct I as [<- |[]]; reflexivity|destruct I]|].
  apply in_app_iff in I. destruct I as [I|[<- |I]]; [apply digit_not_space, A, I|reflexivity|]. apply in_app_iff in I. destruct I as [I|I]; [apply digit_not_space, B, I|]. apply in_app_iff in I. destruct I as [I|[<- |I]]; [destruct letter; [destruct I as [<- |[]]; reflexivity|destruct I]|destruct eneg; reflexivity|apply digit_not_space, E, I].
Qed.
(** the letter goes before the last sign *)
Lemma insert_at : forall a l : line, insert_E (a ++ l) (length a) = a ++ c_E :: l.
Proof. intros a l. unfold insert_E. rewrite firstn_app, Nat.sub_diag, firstn_O, app_nil_r, firstn_all. rewrite skipn_app, skipn_all, Nat.sub_diag. reflexivity. Qed.
Lemma convert_scientific : forall (neg : bool) (a b : list N) (letter eneg : bool) (e : list N), all_digits a -> all_digits b -> all_digits e -> a <> [] ->
  convert_vertex (scientific neg a b letter eneg e) = minus neg ++ a ++ c_dot :: b ++ (if letter then [c_E] else []) ++ c_E :: (if eneg then c_minus else c_plus) :: e.
Proof.
  intros neg a b letter eneg e A B E NE. set (h := minus neg ++ a ++ c_dot :: b ++ (if letter then [c_E] else [])). assert (EQ : scientific neg a b letter eneg e = h ++ (if eneg then c_minus else c_plus) :: e).
  { unfold scientific, h. rewrite <- !app_assoc. cbn [app]. rewrite <- !app_assoc. destruct letter, eneg; reflexivity. }
  assert (LH : exists k, length h = S k) by (unfold h; rewrite !app_length; cbn [length]; eexists; rewrite Nat.add_succ_r, Nat.add_succ_r; reflexivity). destruct LH as (k & LH).
  assert (R : h ++ c_E :: (if eneg then c_minus else c_plus) :: e = minus neg ++ a ++ c_dot :: b ++ (if letter then [c_E] else []) ++ c_E :: (if eneg then c_minus else c_plus) :: e).
  { unfold h. rewrite <- !app_assoc. cbn [app]. rewrite <- !app_assoc. reflexivity. }
  rewrite EQ, <- R. unfold convert_vertex. destruct eneg.
  - rewrite last_at by (apply (digits_no e _ E); reflexivity). rewrite LH, <- LH. apply insert_at.
  - assert (M : ~ In c_minus (a ++ c_dot :: b ++ (if letter then [c_E] else []) ++ c_plus :: e)).
    { intro I. apply in_app_iff in I. destruct I as [I|[I|I]]; [exact (digits_no a c_minus A eq_refl I)|discriminate|]. apply in_app_iff in I. destruct I as [I|I]; [exact (digits_no b c_minus B eq_refl I)|]. apply in_app_iff in I. destruct I as [I|[I|I]]; [destruct letter; [destruct I as [I|[]]; discriminate|destruct I]|discriminate|exact (digits_no e c_minus E eq_refl I)]. }
    assert (S1 : h ++ c_plus :: e = minus neg ++ a ++ c_dot :: b ++ (if letter then [c_E] else []) ++ c_plus :: e) by (unfold h; rewrite <- !app_assoc; cbn [app]; rewrite <- !app_assoc; reflexivity).
    assert (Q : match last_index c_minus (h ++ c_plus :: e) with Some (S _) => False | _ => True end).
    { rewrite S1. unfold minus. destruct neg; [cbn [app last_index]; rewrite (last_none _ _ M); exact I|cbn [app]; rewrite (last_none _ _ M); exact I]. }
    rewrite (last_at c_plus h e) by (apply (digits_no e _ E); reflexivity). rewrite LH. destruct (last_index c_minus (h ++ c_plus :: e)) as [[|n]|]; [|destruct Q|]; rewrite <- LH; apply insert_at.
Qed.
Lemma stod_scientific : forall (neg : bool) (a b : list N) (letter eneg : bool) (e : list N), all_digits a -> all_digits b -> all_digits e -> a <> [] -> e <> [] ->
  stod (minus neg ++ a ++ c_dot :: b ++ (if letter then [c_E] else []) ++ c_E :: (if eneg then c_minus else c_plus) :: e) =
  Some (signed neg (value_of_digits (a ++ b)), ((if letter then 0 else signed eneg (value_of_digits e)) - Z.of_nat (length b))%Z).
Proof.
  intros neg a b letter eneg e A B E NA NE. set (t := (if letter then [c_E] else []) ++ c_E :: (if eneg then c_minus else c_plus) :: e). unfold stod.
  assert (SK : skip_space (minus neg ++ a ++ c_dot :: b ++ t) = minus neg ++ a ++ c_dot :: b ++ t). { destruct neg; [reflexivity|]. destruct a as [|c a]; [contradiction|]. apply no_skip, digit_not_space, A. left. reflexivity. }
  rewrite SK. assert (SG : sign (minus neg ++ a ++ c_dot :: b ++ t) = (neg, a ++ c_dot :: b ++ t)) by (destruct neg; [reflexivity|exact (sign_digits a (c_dot :: b ++ t) A NA)]). rewrite SG.
  rewrite take_digits_app by (try exact A; exact I || reflexivity). rewrite N.eqb_refl. assert (ST : stops t) by (unfold t; destruct letter; exact I || reflexivity). rewrite take_digits_app by assumption.
  assert (X : exponent t = (if letter then 0 else signed eneg (value_of_digits e))%Z).
  { unfold t. destruct letter; [reflexivity|]. assert (T := take_all e E). destruct eneg.
    - change (exponent ([] ++ c_E :: c_minus :: e)) with (let (d, _) := take_digits e in match d with [] => 0%Z | _ => signed true (value_of_digits d) end). rewrite T. destruct e; [contradiction|reflexivity].
    - change (exponent ([] ++ c_E :: c_plus :: e)) with (let (d, _) := take_digits e in match d with [] => 0%Z | _ => signed false (value_of_digits d) end). rewrite T. destruct e; [contradiction|reflexivity]. }
  rewrite X. destruct a as [|c a]; [contradiction|]. reflexivity.
Qed.
