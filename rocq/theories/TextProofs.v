(** Proofs about text streams. *)
From Coq Require Import List NArith ZArith Bool Lia Reals Lra.
From Verif Require Import Text TextSpec.
Import ListNotations.
Open Scope nat_scope.

(** ** Rounding *)
Lemma excess_right : forall fuel p n, (0 < p)%nat -> (0 <= n)%Z -> (Z.log2 n < Z.of_nat fuel)%Z ->
  (n < 10 ^ (Z.of_nat p + Z.of_nat (excess fuel p n)))%Z /\ (excess fuel p n <> 0 -> (10 ^ (Z.of_nat p + Z.of_nat (excess fuel p n) - 1) <= n)%Z).
Proof.
  induction fuel as [|f IH]; intros p n P Hn L.
  - pose proof (Z.log2_nonneg n). lia.
  - cbn [excess]. destruct (Z.ltb_spec n (10 ^ Z.of_nat p)) as [H|H].
    + change (Z.of_nat 0) with 0%Z. rewrite Z.add_0_r. split; [exact H|intros C; contradiction].
    + assert (T : (10 ^ 1 <= 10 ^ Z.of_nat p)%Z) by (apply Z.pow_le_mono_r; lia). change (10 ^ 1)%Z with 10%Z in T.
      assert (D : (0 <= n / 10)%Z) by (apply Z.div_pos; lia).
      assert (G : (Z.log2 (n / 10) < Z.of_nat f)%Z).
      { assert (Q : (0 < n / 10)%Z) by (apply Z.div_str_pos; lia).
        assert (W : (2 * (n / 10) <= n)%Z) by (pose proof (Z.mul_div_le n 10 ltac:(lia)); lia).
        pose proof (Z.log2_le_mono _ _ W) as M. rewrite Z.log2_double in M by exact Q. lia. }
      destruct (IH p (n / 10)%Z P D G) as (A & B). rewrite Nat2Z.inj_succ. set (k := Z.of_nat (excess f p (n / 10))) in *.
      replace (Z.of_nat p + Z.succ k)%Z with (Z.succ (Z.of_nat p + k)) by lia. rewrite Z.pow_succ_r by lia. split.
      * pose proof (Z.mod_pos_bound n 10 ltac:(lia)). pose proof (Z.div_mod n 10 ltac:(lia)). lia.
      * intros _. replace (Z.succ (Z.of_nat p + k) - 1)%Z with (Z.of_nat p + k)%Z by lia. destruct (Nat.eq_dec (excess f p (n / 10)) 0) as [E|E].
        -- unfold k. rewrite E. rewrite Z.add_0_r. exact H.
        -- specialize (B E). replace (Z.of_nat p + k)%Z with (Z.succ (Z.of_nat p + k - 1)) by lia. rewrite Z.pow_succ_r by lia.
           pose proof (Z.mul_div_le n 10 ltac:(lia)). lia.
Qed.
Lemma nearest_right : forall n k, (0 < k)%Z -> (0 <= n)%Z -> (2 * Z.abs (nearest n k * k - n) <= k)%Z.
Proof.
  intros n k K Hn. unfold nearest. pose proof (Z.div_mod n k ltac:(lia)) as D. pose proof (Z.mod_pos_bound n k K) as M.
  destruct (Z.ltb_spec (2 * (n mod k)) k); [|destruct (Z.ltb_spec k (2 * (n mod k))); [|destruct (Z.even (n / k))]]; nia.
Qed.
Lemma nearest_one : forall n, nearest n 1 = n.
Proof. intros n. unfold nearest. rewrite Z.mod_1_r, Z.div_1_r. reflexivity. Qed.

Lemma ten_pow : forall e k, (0 <= k)%Z -> powerRZ 10 (e + k) = (powerRZ 10 e * IZR (10 ^ k))%R.
Proof.
  intros e k K. rewrite powerRZ_add by lra. f_equal. rewrite <- (Z2Nat.id k K), <- pow_powerRZ. rewrite pow_IZR. reflexivity.
Qed.
(** what is written has p significant digits *)
Lemma rounded_close : forall p d, (0 < p)%nat -> (Rabs (real (rounded p d) - real d) <= Rabs (real d) * (5 / 10 ^ p))%R.
Proof.
  intros p (m, e) P. unfold rounded, real. cbn [fst snd]. set (x := excess (S (Z.to_nat (Z.log2 (Z.abs m)))) p (Z.abs m)).
  assert (L : (Z.log2 (Z.abs m) < Z.of_nat (S (Z.to_nat (Z.log2 (Z.abs m)))))%Z) by (pose proof (Z.log2_nonneg (Z.abs m)); lia).
  destruct (excess_right _ p (Z.abs m) P (Z.abs_nonneg m) L) as (_ & B). fold x in B. set (k := Z.of_nat x) in *.
  assert (K : (0 <= k)%Z) by (unfold k; lia). rewrite (ten_pow e k K).
  assert (K10 : (0 < 10 ^ k)%Z) by (apply Z.pow_pos_nonneg; lia).
  pose proof (nearest_right (Z.abs m) (10 ^ k) K10 (Z.abs_nonneg m)) as N. set (q := nearest (Z.abs m) (10 ^ k)) in *.
  replace (IZR (Z.sgn m * q) * (powerRZ 10 e * IZR (10 ^ k)) - IZR m * powerRZ 10 e)%R with (IZR (Z.sgn m * (q * 10 ^ k - Z.abs m)) * powerRZ 10 e)%R.
  2:{ rewrite !mult_IZR, minus_IZR, !mult_IZR. assert (Q : IZR m = (IZR (Z.sgn m) * IZR (Z.abs m))%R) by (rewrite <- mult_IZR; f_equal; lia). rewrite Q. ring. }
  rewrite !Rabs_mult.
  assert (E : (0 <= Rabs (powerRZ 10 e))%R) by apply Rabs_pos.
  assert (H : (Rabs (IZR (Z.sgn m * (q * 10 ^ k - Z.abs m))) <= Rabs (IZR m) * (5 / 10 ^ p))%R).
  { rewrite <- !abs_IZR. destruct (Nat.eq_dec x 0) as [X|X].
    - assert (Z0 : (q * 10 ^ k - Z.abs m = 0)%Z) by (unfold q, k; rewrite X; change (10 ^ Z.of_nat 0)%Z with 1%Z; rewrite nearest_one; lia). rewrite Z0, Z.mul_0_r. cbn [Z.abs].
      apply Rmult_le_pos; [apply IZR_le; lia|]. apply Rmult_le_pos; [lra|]. left. apply Rinv_0_lt_compat, pow_lt. lra.
    - specialize (B X). replace (Z.of_nat p + k - 1)%Z with ((Z.of_nat p - 1) + k)%Z in B by lia. rewrite Z.pow_add_r in B by lia.
      assert (W : (Z.abs (Z.sgn m * (q * 10 ^ k - Z.abs m)) <= Z.abs (q * 10 ^ k - Z.abs m))%Z) by (destruct (Z.sgn_spec m) as [(_ & ->) | [(_ & ->) | (_ & ->)]]; lia).
      assert (V : (2 * 10 ^ (Z.of_nat p - 1) * Z.abs (Z.sgn m * (q * 10 ^ k - Z.abs m)) <= Z.abs m)%Z).
      { assert (T : (0 < 10 ^ (Z.of_nat p - 1))%Z) by (apply Z.pow_pos_nonneg; lia). nia. }
      assert (T : (10 ^ p)%R = (10 * IZR (10 ^ (Z.of_nat p - 1)))%R).
      { rewrite <- mult_IZR, <- Z.pow_succ_r by lia. replace (Z.succ (Z.of_nat p - 1)) with (Z.of_nat p) by lia. rewrite <- pow_IZR. reflexivity. }
      rewrite T. apply IZR_le in V. rewrite !mult_IZR in V.
      assert (T0 : (0 < IZR (10 ^ (Z.of_nat p - 1)))%R) by (apply IZR_lt, Z.pow_pos_nonneg; lia).
      apply (Rmult_le_reg_l (2 * IZR (10 ^ (Z.of_nat p - 1)))); [lra|]. replace (2 * IZR (10 ^ (Z.of_nat p - 1)) * (IZR (Z.abs m) * (5 / (10 * IZR (10 ^ (Z.of_nat p - 1))))))%R with (IZR (Z.abs m)) by (field; lra). exact V. }
  replace (Rabs (IZR m) * Rabs (powerRZ 10 e) * (5 / 10 ^ p))%R with ((Rabs (IZR m) * (5 / 10 ^ p)) * Rabs (powerRZ 10 e))%R by ring.
  apply Rmult_le_compat_r; assumption.
Qed.
(** numbers with p digits or less are kept *)
Lemma rounded_exact : forall p m e, (Z.abs m < 10 ^ Z.of_nat p)%Z -> rounded p (m, e) = (m, e).
Proof.
  intros p m e H. unfold rounded. cbn [excess]. destruct (Z.ltb_spec (Z.abs m) (10 ^ Z.of_nat p)); [|lia].
  change (Z.of_nat 0) with 0%Z. rewrite nearest_one, Z.add_0_r. f_equal. lia.
Qed.

(** ** Writing and reading numbers *)
Lemma show_N_digits : forall fuel n c, In c (show_N fuel n) -> is_digit c = true.
Proof.
  induction fuel as [|f IH]; intros n c I; [destruct I|]. cbn [show_N] in I. assert (D : forall k, (k < 10)%N -> is_digit (48 + k) = true) by (intros k K; unfold is_digit; apply andb_true_intro; split; apply N.leb_le; lia).
  destruct (N.ltb_spec n 10) as [H|H].
  - destruct I as [<- | []]. apply D. exact H.
  - apply in_app_or in I. destruct I as [I | [<- | []]]; [apply (IH _ _ I)|]. apply D. apply N.mod_lt. discriminate.
Qed.
Lemma value_app : forall a b, value_of_digits (a ++ b) = fold_left (fun v c => (10 * v + (Z.of_N c - 48))%Z) b (value_of_digits a).
Proof. intros a b. unfold value_of_digits. apply fold_left_app. Qed.
Lemma show_N_value : forall fuel n, (N.log2 n < N.of_nat fuel)%N -> value_of_digits (show_N fuel n) = Z.of_N n /\ show_N fuel n <> [].
Proof.
  induction fuel as [|f IH]; intros n L; [lia|]. cbn [show_N]. destruct (N.ltb_spec n 10) as [H|H].
  - split; [|discriminate]. unfold value_of_digits. cbn [fold_left]. lia.
  - assert (G : (N.log2 (n / 10) < N.of_nat f)%N).
    { assert (Q : (0 < n / 10)%N) by (apply N.div_str_pos; lia).
      assert (W : (2 * (n / 10) <= n)%N) by (pose proof (N.mul_div_le n 10 ltac:(discriminate)); lia).
      pose proof (N.log2_le_mono _ _ W) as M. rewrite N.log2_double in M by exact Q. lia. }
    destruct (IH _ G) as (V & _). split; [|destruct (show_N f (n / 10)); discriminate]. rewrite value_app, V. cbn [fold_left].
    pose proof (N.div_mod n 10 ltac:(discriminate)) as D. lia.
Qed.
(** the text does not go on with a digit *)
Definition stops (l : list N) : Prop := match l with [] => True | c :: _ => is_digit c = false end.
Lemma take_digits_app : forall d l, (forall c, In c d -> is_digit c = true) -> stops l -> take_digits (d ++ l) = (d, l).
Proof.
  induction d as [|c d IH]; intros l D Hs.
  - destruct l as [|c l]; [reflexivity|]. cbn in *. rewrite Hs. reflexivity.
  - cbn [app take_digits]. rewrite (D c (or_introl eq_refl)). rewrite IH; [reflexivity| |exact Hs]. intros x I. apply D. right. exact I.
Qed.
Lemma digit_not_minus : forall c, is_digit c = true -> N.eqb c c_minus = false.
Proof. intros c H. unfold is_digit in H. apply andb_true_iff in H. destruct H as (A & B). apply N.leb_le in A. apply N.eqb_neq. unfold c_minus. lia. Qed.
Lemma scan_show : forall z l, stops l -> scan_int (show_int z ++ l) = (Some z, l).
Proof.
  intros z l Hs. unfold show_int. set (a := Z.to_N (Z.abs z)). set (ds := show_N (S (N.to_nat (N.log2 a))) a).
  assert (L : (N.log2 a < N.of_nat (S (N.to_nat (N.log2 a))))%N) by lia.
  destruct (show_N_value _ a L) as (V & NE). fold ds in V, NE.
  assert (D : forall c, In c ds -> is_digit c = true) by (intros c; apply show_N_digits).
  assert (A : Z.of_N a = Z.abs z) by (unfold a; lia).
  destruct (Z.ltb_spec z 0) as [H|H].
  - cbn [app]. unfold scan_int. rewrite N.eqb_refl. rewrite (take_digits_app ds l D Hs). destruct ds as [|d ds'] eqn:E; [contradiction|]. rewrite V. f_equal. f_equal. lia.
  - unfold scan_int. destruct ds as [|d ds'] eqn:E; [contradiction|]. cbn [app]. rewrite (digit_not_minus d (D d (or_introl eq_refl))). change (d :: ds' ++ l) with ((d :: ds') ++ l). rewrite (take_digits_app (d :: ds') l D Hs). rewrite V. f_equal. f_equal. lia.
Qed.
Lemma scan_show_num : forall p d l, stops l -> scan_num (show_num p d ++ l) = (Some (rounded p d), l).
Proof.
  intros p d l Hs. unfold show_num, scan_num. destruct (rounded p d) as (m, e). rewrite <- app_assoc. cbn [app]. rewrite scan_show by reflexivity. rewrite N.eqb_refl, (scan_show e l Hs). reflexivity.
Qed.
Lemma show_int_head : forall z l, exists c r, show_int z ++ l = c :: r /\ is_space c = false.
Proof.
  intros z l. unfold show_int. set (a := Z.to_N (Z.abs z)).
  destruct (show_N_value (S (N.to_nat (N.log2 a))) a ltac:(lia)) as (_ & NE). destruct (show_N (S (N.to_nat (N.log2 a))) a) as [|d ds] eqn:E; [contradiction|].
  assert (D : is_digit d = true) by (apply (show_N_digits (S (N.to_nat (N.log2 a))) a); rewrite E; left; reflexivity).
  destruct (Z.ltb z 0); [exists c_minus, ((d :: ds) ++ l); split; reflexivity|]. exists d, (ds ++ l). split; [reflexivity|].
  unfold is_digit in D. apply andb_true_iff in D. destruct D as (A & B). apply N.leb_le in A, B. unfold is_space. apply orb_false_iff. split; [apply N.eqb_neq; lia|]. apply andb_false_iff. right. apply N.leb_gt. lia.
Qed.
Lemma show_num_head : forall p d l, exists c r, show_num p d ++ l = c :: r /\ is_space c = false.
Proof. intros p d l. unfold show_num. destruct (rounded p d) as (m, e). rewrite <- app_assoc. apply show_int_head. Qed.
Lemma no_skip : forall c l, is_space c = false -> skip_space (c :: l) = c :: l.
Proof. intros c l H. cbn [skip_space]. rewrite H. reflexivity. Qed.
Lemma skip_line : forall w l, (forall c, In c w -> is_space c = true) -> skip_space (w ++ l) = skip_space l.
Proof. induction w as [|c w IH]; intros l H; [reflexivity|]. cbn [app skip_space]. rewrite (H c (or_introl eq_refl)). apply IH. intros x I. apply H. right. exact I. Qed.

Definition ended (l : list N) : bool := match l with [] => true | _ => false end.
(** spaces, then a number, then something that is not a digit *)
Lemma get_num_shown : forall w p d l, (forall c, In c w -> is_space c = true) -> stops l -> get_num (opened (w ++ show_num p d ++ l)) = (Some (rounded p d), St l (ended l) false).
Proof.
  intros w p d l W Hs. unfold get_num, extract, opened, good. cbn [rest at_end failed negb andb]. rewrite (skip_line w _ W). destruct (show_num_head p d l) as (c & r & E & Sp). rewrite E, (no_skip c r Sp), <- E, (scan_show_num p d l Hs). destruct l; reflexivity.
Qed.
Lemma get_int_shown : forall w z l, (forall c, In c w -> is_space c = true) -> stops l -> get_int (opened (w ++ show_int z ++ l)) = (Some z, St l (ended l) false).
Proof.
  intros w z l W Hs. unfold get_int, extract, opened, good. cbn [rest at_end failed negb andb]. rewrite (skip_line w _ W). destruct (show_int_head z l) as (c & r & E & Sp). rewrite E, (no_skip c r Sp), <- E, (scan_show z l Hs). destruct l; reflexivity.
Qed.
(** a word and a space after it *)
Lemma take_word_app : forall w c l, (forall x, In x w -> is_space x = false) -> is_space c = true -> take_word (w ++ c :: l) = (w, c :: l).
Proof.
  induction w as [|x w IH]; intros c l W Hs; cbn [app take_word]; [rewrite Hs; reflexivity|]. rewrite (W x (or_introl eq_refl)), IH; [reflexivity| |exact Hs]. intros y I. apply W. right. exact I.
Qed.
Lemma get_word_shown : forall s w c l, (forall x, In x s -> is_space x = true) -> w <> [] -> (forall x, In x w -> is_space x = false) -> is_space c = true ->
  get_word (opened (s ++ w ++ c :: l)) = (Some w, St (c :: l) false false).
Proof.
  intros s w c l W NE Sw Sc. unfold get_word, extract, opened, good. cbn [rest at_end failed negb andb]. rewrite (skip_line s _ W). destruct w as [|x w]; [contradiction|]. cbn [app]. rewrite (no_skip x _ (Sw x (or_introl eq_refl))).
  change (x :: w ++ c :: l) with ((x :: w) ++ c :: l). rewrite (take_word_app (x :: w) c l Sw Sc). reflexivity.
Qed.
