(** C167, C168: settings of the blocks of Wavefront OBJ meshes. *)
From Coq Require Import String List NArith ZArith Bool Lia.
From Verif Require Import Text TextProofs Nastran NastranProofs GeomIo WfSet WfSetSpec.
Import ListNotations.
Open Scope list_scope.
Open Scope nat_scope.

(** ** Blanks *)
Lemma blank_space : forall c, is_space c = true <-> blank c.
Proof. intros c. unfold is_space, blank. rewrite orb_true_iff, andb_true_iff, N.eqb_eq, !N.leb_le. tauto. Qed.
Lemma not_blank : forall c, is_space c = false <-> ~ blank c.
Proof. intros c. rewrite <- blank_space. destruct (is_space c); split; intros H; try reflexivity; try discriminate; try contradiction; intros X; discriminate. Qed.
Lemma skip_split : forall l, exists b, (forall c, In c b -> blank c) /\ l = b ++ skip_space l /\ (forall c r, skip_space l = c :: r -> ~ blank c).
Proof.
  induction l as [|c l IH]; cbn; [exists []; repeat split; [intros c []|intros c r X; discriminate]|].
  destruct (is_space c) eqn:E.
  - destruct IH as (b & B & L & F). exists (c :: b). repeat split; [intros x [<- | X]; [apply blank_space, E|apply B, X]|cbn; f_equal; exact L|exact F].
  - exists []. repeat split; [intros x []|intros x r [= <- <-]; apply not_blank, E].
Qed.
Lemma trim_split : forall l, exists b b', (forall c, In c b -> blank c) /\ (forall c, In c b' -> blank c) /\ l = b ++ trim l ++ b' /\ (forall c r, trim l = r ++ [c] -> ~ blank c).
Proof.
  intros l. destruct (skip_split l) as (b & B & L & _). destruct (skip_split (rev (skip_space l))) as (b' & B' & L' & F'). unfold trim. exists b, (rev b'). split; [exact B|]. split; [intros c H; apply B'; apply in_rev; exact H|]. split.
  - rewrite L at 1. f_equal. rewrite <- rev_app_distr, <- L'. symmetry. apply rev_involutive.
  - intros c r E. apply (F' c (rev r)). apply (f_equal (@rev N)) in E. rewrite rev_involutive, rev_app_distr in E. exact E.
Qed.
Lemma trim_tight : forall l, tight l -> trim l = l.
Proof.
  intros l [A B]. unfold trim. assert (S1 : skip_space l = l). { destruct l as [|c r]; [reflexivity|]. apply no_skip, not_blank, (A c r eq_refl). } rewrite S1.
  assert (S2 : skip_space (rev l) = rev l). { destruct (rev l) as [|c r] eqn:E; [reflexivity|]. apply no_skip, not_blank, (B c (rev r)). apply (f_equal (@rev N)) in E. rewrite rev_involutive in E. exact E. } rewrite S2. apply rev_involutive.
Qed.
Lemma word_tight : forall w, word w -> tight w.
Proof. intros w [_ H]. split; intros c r ->; apply H; [left; reflexivity|apply in_or_app; right; left; reflexivity]. Qed.

(** ** Words of a text *)
Lemma sep_drop : forall x ws, separated x ws -> forall b y, (forall c, In c b -> blank c) -> x = b ++ y -> separated y ws.
Proof.
  intros x ws H. destruct H as [b0 B0|b0 w r ws B0 W R H]; intros b y B E.
  - apply Sep_end. intros c C. apply B0. rewrite E. apply in_or_app. auto.
  - apply app_eq_app in E as (l & [[E1 E2]|[E1 E2]]).
    + subst. apply Sep_word; try assumption. intros c C. apply B0, in_or_app. auto.
    + destruct l as [|c l]; cbn in E2; [rewrite app_nil_r in E1; subst y b; apply (Sep_word [] w r ws); try assumption; intros c []|].
      destruct w as [|d w]; [destruct W as [W _]; contradiction|]. cbn in E2. injection E2 as -> _. exfalso. destruct W as [_ W]. apply (W c); [left; reflexivity|]. apply B. rewrite E1. apply in_or_app. right. left. reflexivity.
Qed.
Lemma sep_cut : forall x ws, separated x ws -> forall y b, (forall c, In c b -> blank c) -> x = y ++ b -> separated y ws.
Proof.
  intros x ws H. induction H as [b0 B0|b0 w r ws B0 W R H IH]; intros y b B E.
  - apply Sep_end. intros c C. apply B0. rewrite E. apply in_or_app. auto.
  - rewrite app_assoc in E. apply app_eq_app in E as (l & [[E1 E2]|[E1 E2]]).
    + destruct (destruct_list (rev l)) as [(c & l' & EL)|EL].
      * apply (f_equal (@rev N)) in EL. rewrite rev_involutive in EL. cbn in EL. rewrite EL in E1, E2. exfalso.
        assert (In c w). { destruct W as [W _]. destruct (exists_last W) as (w' & d & ->). rewrite !app_assoc in E1. apply app_inj_tail in E1 as [_ <-]. apply in_or_app. right. left. reflexivity. }
        destruct W as [_ W]. apply (W c H0). apply B. rewrite E2. apply in_or_app. left. apply in_or_app. right. left. reflexivity.
      * apply (f_equal (@rev N)) in EL. rewrite rev_involutive in EL. cbn in EL. subst l. rewrite app_nil_r in E1. cbn in E2. subst y b. rewrite <- (app_nil_r w), <- app_nil_r at 1. rewrite <- !app_assoc. cbn.
        replace (b0 ++ w ++ []) with (b0 ++ w ++ @nil N) by reflexivity. apply Sep_word; try assumption; [left; reflexivity|]. apply (IH [] r B eq_refl).
    + subst y. rewrite <- app_assoc. apply Sep_word; try assumption; [|apply (IH l b B E2)]. destruct R as [-> | (c & r' & -> & C)].
      * symmetry in E2. apply app_eq_nil in E2 as [-> _]. left; reflexivity.
      * destruct l as [|d l]; [left; reflexivity|]. right. cbn in E2. injection E2 as <- _. eauto.
Qed.
Lemma sep_trim : forall l ws, separated l ws -> separated (trim l) ws.
Proof. intros l ws H. destruct (trim_split l) as (b & b' & B & B' & E & _). eapply sep_cut; [eapply sep_drop; [exact H|exact B|exact E]|exact B'|reflexivity]. Qed.

(** ** Reading *)
Definition closed (l : list N) : Prop := forall c r, l = r ++ [c] -> ~ blank c.
Lemma closed_app : forall a b, b <> [] -> closed (a ++ b) -> closed b.
Proof. intros a b N H c r E. apply (H c (a ++ r)). rewrite E. apply app_assoc. Qed.
Lemma closed_blank : forall b, closed b -> (forall c, In c b -> blank c) -> b = [].
Proof. intros b C B. destruct b as [|x b]; [reflexivity|]. destruct (@exists_last _ (x :: b) ltac:(discriminate)) as (r & c & E). exfalso. apply (C c r E), B. rewrite E. apply in_or_app. right. left. reflexivity. Qed.
Lemma take_word_all : forall w, (forall c, In c w -> is_space c = false) -> take_word w = (w, []).
Proof. induction w as [|c w IH]; intros H; [reflexivity|]. cbn. rewrite (H c (or_introl eq_refl)), IH; [reflexivity|]. intros x X. apply H. right. exact X. Qed.
Lemma get_word_sep : forall b w r, (forall c, In c b -> blank c) -> word w -> (r = [] \/ exists c r', r = c :: r' /\ blank c) ->
  get_word (opened (b ++ w ++ r)) = (Some w, St r (match r with [] => true | _ => false end) false).
Proof.
  intros b w r B [W1 W2] R. destruct R as [-> | (c & r' & -> & C)].
  - rewrite app_nil_r. unfold get_word, extract, opened, good. cbn [rest at_end failed negb andb]. rewrite skip_line by (intros c H; apply blank_space, B, H).
    destruct w as [|x w]; [contradiction|]. assert (X : is_space x = false) by (apply not_blank, W2; left; reflexivity). rewrite (no_skip x w X), take_word_all; [reflexivity|]. intros y Y. apply not_blank, W2, Y.
  - apply get_word_shown; [intros x H; apply blank_space, B, H|exact W1|intros x H; apply not_blank, W2, H|apply blank_space, C].
Qed.
Lemma names_sep : forall l ws, separated l ws -> closed l -> forall fuel e, length l < fuel -> (l = [] -> e = []) -> read_names fuel (opened l) e = ws.
Proof.
  intros l ws H. induction H as [b B|b w r ws B W R H IH]; intros C fuel e F E.
  - pose proof (closed_blank b C B) as ->. rewrite (E eq_refl). destruct fuel as [|f]; [cbn in F; lia|]. cbn. destruct f; reflexivity.
  - destruct fuel as [|f]; [lia|]. cbn [read_names]. change (good (opened (b ++ w ++ r))) with true. cbn iota. rewrite (get_word_sep b w r B W R). rewrite (trim_tight w (word_tight w W)).
    pose proof W as [W1 W2]. destruct w as [|x w]; [contradiction|]. f_equal. destruct r as [|c r].
    + inversion H; subst; [destruct f; reflexivity|]. exfalso. apply app_eq_nil in H0 as [_ H0]. apply app_eq_nil in H0 as [H0 _]. destruct H2; contradiction.
    + change (St (c :: r) false false) with (opened (c :: r)). apply IH; [rewrite app_assoc in C; refine (closed_app _ _ _ C); discriminate|rewrite !app_length in F; cbn in *; lia|discriminate].
Qed.
Lemma names_right : forall l ws, separated l ws -> names_of l = ws.
Proof.
  intros l ws H. unfold names_of. apply names_sep; [apply sep_trim, H| |lia|reflexivity]. destruct (trim_split l) as (b & b' & _ & _ & _ & C). exact C.
Qed.
Lemma int_word : forall z, word (show_int z).
Proof.
  intros z. assert (D : forall n c, In c (show_N (S (N.to_nat (N.log2 n))) n) -> ~ blank c).
  { intros n c H. apply show_N_digits in H. unfold is_digit in H. apply andb_true_iff in H as [H1 H2]. apply N.leb_le in H1, H2. unfold blank. lia. }
  assert (NE : forall n, show_N (S (N.to_nat (N.log2 n))) n <> []) by (intros n; apply show_N_value; lia).
  unfold show_int. destruct (Z.ltb z 0); split; try discriminate; try apply NE; [intros c [<- | H]; [unfold blank, c_minus; lia|apply (D _ _ H)]|intros c H; apply (D _ _ H)].
Qed.
Lemma ids_sep : forall l ws, separated l ws -> forall zs, ws = map show_int zs -> zs <> [] -> closed l -> forall fuel e, length l < fuel -> read_ids fuel (opened l) e = Some zs.
Proof.
  intros l ws H. induction H as [b B|b w r ws B W R H IH]; intros zs E NE C fuel e F; [destruct zs; [contradiction|discriminate]|].
  destruct zs as [|z zs]; [contradiction|]. cbn in E. injection E as -> E. destruct fuel as [|f]; [lia|]. cbn [read_ids]. change (good (opened (b ++ show_int z ++ r))) with true. cbn iota.
  rewrite get_int_shown; [|intros c X; apply blank_space, B, X|destruct R as [-> | (c & r' & -> & X)]; [exact I|cbn; unfold is_digit; apply andb_false_iff; rewrite !N.leb_gt; unfold blank in X; lia]].
  destruct r as [|c r].
  - inversion H; subst; [destruct zs; [|discriminate]; destruct f; reflexivity|]. exfalso. apply app_eq_nil in H0 as [_ H0]. apply app_eq_nil in H0 as [H0 _]. destruct H2; contradiction.
  - change (St (c :: r) (ended (c :: r)) false) with (opened (c :: r)). assert (CR : closed (c :: r)) by (rewrite app_assoc in C; refine (closed_app _ _ _ C); discriminate).
    assert (LZ : 0 < length (show_int z)) by (destruct (int_word z) as [X _]; destruct (show_int z); [contradiction|cbn; lia]).
    rewrite (IH zs E); [reflexivity| |exact CR|rewrite !app_length in F; cbn [length] in *; lia].
    intros ->. cbn in E. subst ws. inversion H; subst. pose proof (closed_blank _ CR H0). discriminate.
Qed.
Lemma ids_right : forall l zs, zs <> [] -> separated l (map show_int zs) -> ids_of l = Some zs.
Proof.
  intros l zs NE H. unfold ids_of. eapply ids_sep; [apply sep_trim, H|reflexivity|exact NE| |lia]. destruct (trim_split l) as (b & b' & _ & _ & _ & C). exact C.
Qed.
Lemma spaced_sep : forall ws b, (forall c, In c b -> blank c) -> Forall word ws -> separated (b ++ spaced ws) ws.
Proof.
  induction ws as [|w ws IH]; intros b B F; [cbn; rewrite app_nil_r; apply Sep_end, B|]. inversion F as [|? ? W F']; subst. cbn. rewrite <- app_assoc. apply Sep_word; try assumption.
  - right. exists c_space, (spaced ws). split; [reflexivity|left; reflexivity].
  - apply (IH [c_space]); [intros c [<- | []]; left; reflexivity|assumption].
Qed.
Lemma names_set_words : forall ws, Forall word ws -> NoDup ws -> names_set ws = ws.
Proof.
  intros ws F N. unfold names_set. replace (map trim ws) with ws; [apply nodup_fixed_point, N|]. clear N. induction F as [|w ws W F IH]; [reflexivity|]. cbn. rewrite (trim_tight w (word_tight w W)). rewrite <- IH. reflexivity.
Qed.
Lemma long_back : forall z, to_long (trim (show_int z)) = z.
Proof.
  intros z. rewrite (trim_tight _ (word_tight _ (int_word z))). unfold to_long. destruct (show_int_head z []) as (c & r & E & S). rewrite app_nil_r in E. rewrite E, (no_skip c r S), <- E. pose proof (scan_show z [] I) as X. rewrite app_nil_r in X. rewrite X. reflexivity.
Qed.
Lemma switch_back : forall b, match trim (show_bool b) with [] => false | t => to_bool false t end = b.
Proof. intros []; reflexivity. Qed.

(** C167: the settings written are the ones read back: any names without blanks, any ids, at least one. *)
Theorem C167_back : forall p, (0 <= p_ann p <= 2)%Z -> (0 <= p_norm p <= 2)%Z -> Forall word (p_mats p) -> NoDup (p_mats p) -> Forall word (p_groups p) -> NoDup (p_groups p) ->
  Forall word (p_objs p) -> NoDup (p_objs p) -> p_smooth p <> [] -> NoDup (p_smooth p) -> made (Nastran.chars "mimmo.ManipulateWFOBJData") (flush_pins p) = Some p.
Proof.
  intros [ck an no ma gr sm ob]. cbn [p_ann p_norm p_mats p_groups p_objs p_smooth]. intros A N M1 M2 G1 G2 O1 O2 S1 S2.
  unfold made. change (same (trim (Nastran.chars "mimmo.ManipulateWFOBJData")) (Nastran.chars "mimmo.ManipulateWFOBJData")) with true. cbn iota.
  assert (Q : forall ws, Forall word ws -> names_of (spaced ws) = ws). { intros ws F. apply names_right, (spaced_sep ws []); [intros c []|exact F]. }
  assert (I1 : ids_of (spaced (map show_int sm)) = Some sm). { apply ids_right; [exact S1|]. apply (spaced_sep (map show_int sm) []); [intros c []|]. apply Forall_forall. intros x X. apply in_map_iff in X as (z & <- & _). apply int_word. }
  unfold absorb_pins, switch, strategy, names_option.
  cbn [flush_pins option_of List.find String.eqb Ascii.eqb Bool.eqb fst snd option_map p_check p_ann p_norm p_mats p_groups p_smooth p_objs].
  rewrite I1, !Q, !names_set_words, !long_back, switch_back by assumption. cbn [option_map]. unfold ids_set. rewrite nodup_fixed_point by assumption. do 2 f_equal; lia.
Qed.
Print Assumptions C167_back.
(** Written by hand: the names are the words of the text, the ids its numbers, whatever the blanks. *)
Theorem C167_names : forall text ws, separated text ws -> forall p, exists q, absorb_pins [("PinMaterials"%string, text)] p = Some q /\ (forall w, In w (p_mats q) <-> In w ws) /\
  p_groups q = p_groups p /\ p_smooth q = p_smooth p /\ p_objs q = p_objs p /\ p_ann q = p_ann p /\ p_norm q = p_norm p /\ p_check q = p_check p.
Proof.
  intros text ws H p. eexists. split; [reflexivity|]. cbn [p_mats p_groups p_smooth p_objs p_ann p_norm p_check]. split; [|repeat split].
  assert (F : forall l us, separated l us -> map trim us = us). { clear. intros l us H. induction H as [|b w r us B W R H IH]; [reflexivity|]. cbn. rewrite IH, (trim_tight w (word_tight w W)). reflexivity. }
  intros w. unfold names_option. cbn [option_of List.find String.eqb Ascii.eqb Bool.eqb fst snd option_map]. rewrite (names_right _ _ H). unfold names_set. rewrite (F _ _ H). apply nodup_In.
Qed.
Print Assumptions C167_names.
Theorem C167_ids : forall text zs, zs <> [] -> separated text (map show_int zs) -> forall p, exists q, absorb_pins [("PinSmoothIds"%string, text)] p = Some q /\ (forall z, In z (p_smooth q) <-> In z zs) /\
  p_mats q = p_mats p /\ p_groups q = p_groups p /\ p_objs q = p_objs p.
Proof.
  intros text zs NE H p. eexists. split; [unfold absorb_pins; cbn [option_of List.find String.eqb Ascii.eqb Bool.eqb fst snd option_map]; rewrite (ids_right text zs NE H); reflexivity|]. cbn. split; [|repeat split]. intros z. apply nodup_In.
Qed.
Print Assumptions C167_ids.
(** Without ids of smoothing groups, what is written cannot be read back. *)
Theorem C167_nothing_refuted : forall p, p_smooth p = [] -> made (Nastran.chars "mimmo.ManipulateWFOBJData") (flush_pins p) = None.
Proof. intros [ck an no ma gr sm ob] H. cbn in H. subst sm. reflexivity. Qed.
Print Assumptions C167_nothing_refuted.
(** The fourth strategy of annotations becomes the third. *)
Theorem C167_strategy_refuted : forall p, p_ann p = 3%Z -> forall q, made (Nastran.chars "mimmo.ManipulateWFOBJData") (flush_pins p) = Some q -> p_ann q = 2%Z.
Proof.
  intros [ck an no ma gr sm ob] H q E. cbn in H. subst an. unfold made in E. change (same (trim (Nastran.chars "mimmo.ManipulateWFOBJData")) (Nastran.chars "mimmo.ManipulateWFOBJData")) with true in E. cbn iota in E.
  unfold absorb_pins in E. destruct (match option_of _ _ with Some _ => _ | None => _ end) as [ids|]; [|discriminate]. cbn [option_map] in E. apply (f_equal (option_map p_ann)) in E. cbn [option_map p_ann] in E. injection E as <-. reflexivity.
Qed.
Print Assumptions C167_strategy_refuted.
(** A name with a blank inside becomes two names. *)
Theorem C167_blank_refuted : forall a b n an no ck sm, word a -> word b -> a <> b -> sm <> [] -> n = a ++ c_space :: b ->
  exists q, made (Nastran.chars "mimmo.ManipulateWFOBJData") (flush_pins (Pins ck an no [n] [] sm [])) = Some q /\ p_mats q = [a; b].
Proof.
  intros a b n an no ck sm A B D S ->. unfold made. change (same (trim (Nastran.chars "mimmo.ManipulateWFOBJData")) (Nastran.chars "mimmo.ManipulateWFOBJData")) with true. cbn iota. unfold absorb_pins.
  change (option_of (flush_pins (Pins ck an no [a ++ c_space :: b] [] sm [])) "PinSmoothIds") with (Some (spaced (map show_int sm))). cbn iota beta.
  rewrite (ids_right (spaced (map show_int sm)) sm S); [|apply (spaced_sep (map show_int sm) []); [intros c []|]; apply Forall_forall; intros x X; apply in_map_iff in X as (z & <- & _); apply int_word].
  cbn [option_map]. eexists. split; [reflexivity|]. cbn [p_mats]. unfold names_option. change (option_of (flush_pins (Pins ck an no [a ++ c_space :: b] [] sm [])) "PinMaterials") with (Some (spaced [a ++ c_space :: b])).
  cbn iota beta. rewrite (names_right _ [a; b]); [apply names_set_words; [constructor; [exact A|constructor; [exact B|constructor]]|constructor; [intros [X|[]]; congruence|constructor; [intros []|constructor]]]|].
  replace (spaced [a ++ c_space :: b]) with ([] ++ spaced [a; b]); [apply spaced_sep; [intros c []|constructor; [exact A|constructor; [exact B|constructor]]]|]. cbn. rewrite <- !app_assoc. reflexivity.
Qed.
Print Assumptions C167_blank_refuted.
Example C167_nonvacuous : let p := Pins true 1 2 [Nastran.chars "body"%string; Nastran.chars "roof"%string] [] [3; -1]%Z [Nastran.chars "car"%string] in
  made (Nastran.chars " mimmo.ManipulateWFOBJData"%string) (flush_pins p) = Some p /\ separated (Nastran.chars " a  b "%string) [Nastran.chars "a"%string; Nastran.chars "b"%string].
Proof.
  cbn zeta. split; [vm_compute; reflexivity|]. assert (W : forall c, (c = 97 \/ c = 98)%N -> word [c]) by (intros c H; split; [discriminate|intros x [<- | []]; unfold blank; lia]).
  apply (Sep_word [32]%N [97]%N [32; 32; 98; 32]%N); [intros c [<- | []]; left; reflexivity|apply W; auto|right; eexists; eexists; split; [reflexivity|left; reflexivity]|].
  apply (Sep_word [32; 32]%N [98]%N [32]%N); [intros c [<- | [<- | []]]; left; reflexivity|apply W; auto|right; eexists; eexists; split; [reflexivity|left; reflexivity]|]. apply Sep_end. intros c [<- | []]; left; reflexivity.
Qed.

(** C168: IOWavefrontOBJ. *)
Lemma nearest_exact : forall k, nearest (k * 1000000) 1000000 = k.
Proof. intros k. unfold nearest. rewrite Z.div_mul, Z.mod_mul by lia. reflexivity. Qed.
Theorem C168_back : forall b, (0 <= i_mode b <= 3)%Z -> tight (i_dir b) -> i_dir b <> [] -> tight (i_name b) -> i_name b <> [] -> (exists k, 0 <= k /\ i_tol b = k * 1000000)%Z ->
  made_io (Nastran.chars "mimmo.IOWavefrontOBJ") (flush_io b) = Some b.
Proof.
  intros [mo di na re to cl ig uv]. cbn [i_mode i_dir i_name i_tol]. intros M D1 D2 N1 N2 (k & K & ->).
  unfold made_io. change (same (trim (Nastran.chars "mimmo.IOWavefrontOBJ")) (Nastran.chars "mimmo.IOWavefrontOBJ")) with true. cbn iota.
  unfold absorb_io, text_or, switch. cbn [flush_io option_of List.find String.eqb Ascii.eqb Bool.eqb fst snd option_map i_mode i_dir i_name i_resume i_tol i_clean i_ignore i_uv].
  rewrite (trim_tight di D1), (trim_tight na N1), !switch_back. unfold show_tol. rewrite nearest_exact. unfold read_tol.
  pose proof (long_back mo) as L1. pose proof (long_back k) as L2. rewrite (trim_tight _ (word_tight _ (int_word mo))) in *. rewrite (trim_tight _ (word_tight _ (int_word k))) in *.
  destruct (show_int mo) as [|m0 ml] eqn:E1; [destruct (int_word mo) as [X _]; congruence|]. destruct (show_int k) as [|k0 kl] eqn:E2; [destruct (int_word k) as [X _]; congruence|].
  rewrite L1, L2. unfold tolerance. destruct di as [|d0 dl]; [contradiction|]. destruct na as [|n0 nl]; [contradiction|]. cbn [or_else]. do 2 f_equal; lia.
Qed.
Print Assumptions C168_back.
(** A tolerance below half a millionth is lost. *)
Theorem C168_tolerance_refuted : forall b, (0 < i_tol b < 500000)%Z -> forall q, made_io (Nastran.chars "mimmo.IOWavefrontOBJ") (flush_io b) = Some q -> i_tol q = 0%Z.
Proof.
  intros [mo di na re to cl ig uv]. cbn [i_tol]. intros T q E. unfold made_io in E. change (same (trim (Nastran.chars "mimmo.IOWavefrontOBJ")) (Nastran.chars "mimmo.IOWavefrontOBJ")) with true in E. cbn iota in E.
  destruct (trim _) as [|c r]; [discriminate|]. apply (f_equal (option_map i_tol)) in E. change (Some (read_tol (show_tol to)) = Some (i_tol q)) in E. assert (X : i_tol q = read_tol (show_tol to)) by congruence. rewrite X. unfold show_tol.
  assert (Z0 : nearest to 1000000 = 0%Z). { unfold nearest. rewrite Z.div_small, Z.mod_small by lia. destruct (Z.ltb_spec (2 * to) 1000000); [reflexivity|lia]. } rewrite Z0. reflexivity.
Qed.
Print Assumptions C168_tolerance_refuted.
(** A blank mode makes the mode undefined; another class is not read at all. *)
Theorem C168_mode_refuted : forall text s, (forall c, In c text -> blank c) -> made_io (Nastran.chars "mimmo.IOWavefrontOBJ") (("IOMode"%string, text) :: s) = None.
Proof.
  intros text s H. unfold made_io. change (same (trim (Nastran.chars "mimmo.IOWavefrontOBJ")) (Nastran.chars "mimmo.IOWavefrontOBJ")) with true. cbn iota. cbn [option_of List.find String.eqb Ascii.eqb Bool.eqb fst snd option_map].
  destruct (trim_split text) as (b & b' & _ & _ & E & C). rewrite (closed_blank (trim text) C); [reflexivity|]. intros c X. apply H. rewrite E. apply in_or_app. right. apply in_or_app. left. exact X.
Qed.
Print Assumptions C168_mode_refuted.
(** Options not given leave what there is. *)
Theorem C168_partly : forall s b, (forall k, In k ["Dir"; "Filename"; "PrintResumeFile"; "GeometryTolerance"; "CleanDoubleMeshVertices"; "IgnoreCellGroups"; "TextureUVMode"]%string -> option_of s k = None) -> absorb_io s b = b.
Proof.
  intros s b H. unfold absorb_io, text_or, switch. rewrite !H by (cbn; tauto). destruct b; reflexivity.
Qed.
Print Assumptions C168_partly.
(** A directory or a name that is blank is the default one, another one is trimmed. *)
Theorem C168_names : forall d n b, let q := absorb_io [("Dir"%string, d); ("Filename"%string, n)] b in
  ((forall c, In c d -> blank c) -> i_dir q = Nastran.chars "./") /\ ((forall c, In c n -> blank c) -> i_name q = Nastran.chars "iowavefrontobj") /\
  (forall x y z, d = x ++ y ++ z -> (forall c, In c (x ++ z) -> blank c) -> tight y -> y <> [] -> i_dir q = y) /\
  (forall x y z, n = x ++ y ++ z -> (forall c, In c (x ++ z) -> blank c) -> tight y -> y <> [] -> i_name q = y).
Proof.
  assert (B : forall t, (forall c, In c t -> blank c) -> trim t = []).
  { intros t H. destruct (trim_split t) as (b & b' & _ & _ & E & C). apply (closed_blank (trim t) C). intros c X. apply H. rewrite E. apply in_or_app. right. apply in_or_app. left. exact X. }
  assert (T : forall t x y z, t = x ++ y ++ z -> (forall c, In c (x ++ z) -> blank c) -> tight y -> y <> [] -> trim t = y).
  { intros t x y z -> H Y NE. unfold trim. rewrite skip_line by (intros c X; apply blank_space, H, in_or_app; auto).
    destruct Y as [Y1 Y2]. destruct y as [|c y]; [contradiction|]. cbn [app]. rewrite (no_skip c (y ++ z)) by (apply not_blank, (Y1 c y eq_refl)).
    change (c :: y ++ z) with ((c :: y) ++ z). rewrite rev_app_distr. rewrite skip_line by (intros d X; apply blank_space, H, in_or_app; right; apply in_rev, X).
    destruct (@exists_last _ (c :: y) ltac:(discriminate)) as (l & d & E). rewrite E, rev_app_distr. cbn [rev app]. rewrite no_skip by (apply not_blank, (Y2 d l E)). cbn [rev]. rewrite rev_involutive. reflexivity. }
  intros d n b q. unfold q, absorb_io, text_or. cbn [i_dir i_name option_of List.find String.eqb Ascii.eqb Bool.eqb fst snd option_map].
  split; [intros H; rewrite (B d H); reflexivity|]. split; [intros H; rewrite (B n H); reflexivity|]. split; intros x y z E H Y NE; rewrite (T _ x y z E H Y NE); destruct y; [contradiction|reflexivity|contradiction|reflexivity].
Qed.
Print Assumptions C168_names.
Example C168_nonvacuous : let b := Io 2 (Nastran.chars "out dir"%string) (Nastran.chars "mesh"%string) true 3000000 false true false in
  made_io (Nastran.chars "mimmo.IOWavefrontOBJ"%string) (flush_io b) = Some b /\ made_io (Nastran.chars "mimmo.Other"%string) (flush_io b) = Some fresh_io /\
  absorb_io [] b = b.
Proof. cbn zeta. repeat split; vm_compute; reflexivity. Qed.
