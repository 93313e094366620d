(** C158-C160: blocks of generic data. *)
From Coq Require Import String List Arith NArith ZArith Bool Lia.
From Verif Require Import Text TextProofs Nastran Obj ObjSpec ObjProofs GeomIo GeomIoSpec GeomIoProps Mpi MpiSpec Share GenBlk GenBlkSpec.
Import ListNotations.
Open Scope list_scope.
Open Scope nat_scope.

(** ** Histories *)
Section Histories.
  Context {V C : Type}.
  Variable parse : nat -> bool -> bool -> C -> V.
  Notation run := (run parse).
  Notation ask := (ask parse).
  Lemma run_app : forall a b w, run (a ++ b) w = run b (run a w).
  Proof. intros. unfold GenBlk.run. apply fold_left_app. Qed.
  Lemma set_kept : forall t d b, i_set (snd (getResult parse t d b)) = i_set b /\ i_input (snd (getResult parse t d b)) = i_input b.
  Proof. intros t d b. unfold getResult. destruct (s_read (i_set b)); [destruct (d _)|]; split; reflexivity. Qed.
  Lemma settings_run : forall ops (b : input V) (d : disk),
    let w := run ops (b, d) in s_read (i_set (fst w)) = last_reading ops (s_read (i_set b)) /\ s_csv (i_set (fst w)) = last_csv ops (s_csv (i_set b)) /\
    s_dir (i_set (fst w)) = last_dir ops (s_dir (i_set b)) /\ s_name (i_set (fst w)) = last_name ops (s_name (i_set b)) /\ snd w = last_files ops d.
  Proof.
    induction ops as [|o ops IH]; intros b d; [repeat split; reflexivity|]. cbn zeta. change (run (o :: ops) (b, d)) with (run ops (do parse o (b, d))).
    destruct (do parse o (b, d)) as [b' d'] eqn:E. specialize (IH b' d'). cbn zeta in IH. destruct IH as (A1 & A2 & A3 & A4 & A5). rewrite A1, A2, A3, A4, A5.
    unfold last_reading, last_csv, last_dir, last_name, last_files. cbn [fold_left].
    destruct o; cbn in E; try (injection E as <- <-; repeat split; reflexivity).
    injection E as <- <-. destruct (set_kept t d b) as (-> & _). repeat split; reflexivity.
  Qed.
  Lemma quiet_run : forall ops (b : input V) (d : disk), Forall quiet ops -> i_result (fst (run ops (b, d))) = i_result b.
  Proof.
    induction ops as [|o ops IH]; intros b d Q; [reflexivity|]. inversion Q; subst. change (run (o :: ops) (b, d)) with (run ops (do parse o (b, d))).
    destruct o; cbn in H1; try contradiction; cbn [do]; rewrite IH by assumption; reflexivity.
  Qed.

  (** C158: a block that reads gives what is in its file at the time, whatever its history; it throws if there is none. *)
  Theorem C158_file : forall ops b (d : disk) t, last_reading ops (s_read (i_set b)) = true ->
    ask t (run ops (b, d)) = match last_files ops d (last_dir ops (s_dir (i_set b)) ++ Nastran.chars "/"%string ++ last_name ops (s_name (i_set b))) with Some c => Ok (parse t (last_csv ops (s_csv (i_set b))) false c) | None => Throws end.
  Proof.
    intros ops b d t R. destruct (settings_run ops b d) as (A1 & A2 & A3 & A4 & A5). unfold GenBlk.ask, getResult. rewrite A1, R. unfold path_of. rewrite A2, A3, A4, A5. destruct (last_files _ _ _); reflexivity.
  Qed.
  (** C158: one that does not gives what it was given last, or read last. *)
  Theorem C158_given : forall before after b (d : disk) t v, Forall quiet after -> last_reading (before ++ after) (s_read (i_set b)) = false ->
    ask t (run (before ++ SetInput t v :: after) (b, d)) = Ok v /\ getInput t (fst (run (before ++ [SetInput t v]) (b, d))) = Ok v.
  Proof.
    intros before after b d t v Q R. split.
    - destruct (settings_run (before ++ SetInput t v :: after) b d) as (A1 & _). unfold GenBlk.ask, getResult. rewrite A1.
      assert (E : last_reading (before ++ SetInput t v :: after) (s_read (i_set b)) = last_reading (before ++ after) (s_read (i_set b))) by (unfold last_reading; rewrite !fold_left_app; reflexivity). rewrite E, R. cbn [fst]. rewrite run_app. change (run (SetInput t v :: after) (run before (b, d))) with (run after (do parse (SetInput t v) (run before (b, d)))).
      destruct (run before (b, d)) as [b1 d1]. cbn [do]. rewrite quiet_run by exact Q. cbn [i_result cast]. rewrite Nat.eqb_refl. reflexivity.
    - rewrite run_app. destruct (run before (b, d)) as [b1 d1]. unfold getInput, cast. cbn. rewrite Nat.eqb_refl. reflexivity.
  Qed.
  Theorem C158_twice : forall ops b (d : disk) t v, ask t (run ops (b, d)) = Ok v -> ask t (run (ops ++ [Get t]) (b, d)) = Ok v /\ ask t (run (ops ++ [Get t; SetReadFromFile false]) (b, d)) = Ok v.
  Proof.
    intros ops b d t v A. rewrite !run_app. destruct (run ops (b, d)) as [b1 d1]. unfold GenBlk.ask, getResult in A. cbn [fst snd] in A. unfold GenBlk.ask, getResult. cbn. unfold getResult. destruct (s_read (i_set b1)) eqn:R.
    - destruct (d1 (path_of (i_set b1))) as [c|] eqn:D; [|discriminate A]. cbn in A |- *. rewrite R, D. cbn. rewrite Nat.eqb_refl. split; [exact A|exact A].
    - cbn in A |- *. rewrite R. split; exact A.
  Qed.
  (** nothing given: a null pointer is dereferenced; given as another type, it is taken for one of that type *)
  Theorem C158_nothing_refuted : forall csv (d : disk) t, ask t (new_input false csv, d) = UB.
  Proof. reflexivity. Qed.
  Theorem C158_type_refuted : forall b (d : disk) t t' v, s_read (i_set b) = false -> t <> t' -> ask t' (run [SetInput t v] (b, d)) = UB.
  Proof. intros b d t t' v R N. unfold GenBlk.ask, getResult. cbn. rewrite R. cbn. destruct (Nat.eqb_spec t' t); [congruence|reflexivity]. Qed.
  (** a copy of a block, also by assignment, has not its data *)
  Theorem C158_copy_refuted : forall b (d : disk) t v, s_read (i_set b) = false -> ask t (run [SetInput t v] (b, d)) = Ok v /\ ask t (copied (fst (run [SetInput t v] (b, d))), d) = UB.
  Proof. intros b d t v R. unfold GenBlk.ask, getResult. cbn. rewrite R. cbn. rewrite Nat.eqb_refl. split; reflexivity. Qed.
  (** once a file is read, its data are the result also when no file is to be read, though the input is another *)
  Theorem C158_stale_refuted : forall b (d : disk) t v c, d (path_of (i_set b)) = Some c ->
    let w := run [SetInput t v; SetReadFromFile true; Get t; SetReadFromFile false] (b, d) in ask t w = Ok (parse t (s_csv (i_set b)) false c) /\ getInput t (fst w) = Ok v.
  Proof.
    intros b d t v c D. cbn zeta. unfold GenBlk.run. cbn [fold_left do]. unfold with_set. cbn [i_set i_input i_result s_read s_csv s_binary s_dir s_name]. unfold getResult. cbn [i_set i_input i_result s_read s_csv s_binary s_dir s_name].
    assert (P : path_of (Settings true (s_csv (i_set b)) (s_binary (i_set b)) (s_dir (i_set b)) (s_name (i_set b))) = path_of (i_set b)) by reflexivity. rewrite P, D. cbn [snd]. unfold GenBlk.ask, getResult, getInput, cast. cbn. rewrite Nat.eqb_refl. split; reflexivity.
  Qed.
End Histories.
Print Assumptions C158_file.
Print Assumptions C158_given.
Print Assumptions C158_twice.
Print Assumptions C158_nothing_refuted.
Print Assumptions C158_type_refuted.
Print Assumptions C158_copy_refuted.
Print Assumptions C158_stale_refuted.
(** with several processes: if the file is not there process 0 throws, and the others wait for ever *)
Theorem C158_processes_refuted : forall nprocs bytes r, 0 < r < nprocs -> forall k s, steps k (start (share_read nprocs false bytes)) s -> k = 0 /\ prog s r <> [] /\ prog s 0 = [].
Proof.
  intros nprocs bytes r R k s H.
  assert (Z : k = 0 /\ s = start (share_read nprocs false bytes)).
  { assert (NS : forall i d t f l, share_read nprocs false bytes i <> Send d t f :: l).
    { intros i d t f l. unfold share_read. destruct (Nat.eqb_spec i 0); [discriminate|]. unfold from_zero. destruct (Nat.eqb_spec i 0); [contradiction|]. destruct (Nat.ltb i nprocs); cbn; discriminate. }
    remember (start (share_read nprocs false bytes)) as s0 eqn:E0. induction H as [s|k s s' s'' H IH X]; [split; reflexivity|]. exfalso. destruct (IH E0) as (_ & ->). subst s. destruct X as [X|X]; inversion X; subst; cbn [prog chan got start] in *; try (eapply NS; eassumption). discriminate. }
  destruct Z as (-> & ->). split; [reflexivity|]. split; [|reflexivity]. cbn [prog start]. unfold share_read, from_zero. destruct (Nat.eqb_spec r 0); [lia|]. destruct (Nat.ltb_spec r nprocs); [|lia]. cbn. discriminate.
Qed.
Print Assumptions C158_processes_refuted.
Example C158_nonvacuous : let parse := fun (t : nat) (c b : bool) (l : list nat) => length l in let d := fun p => if Nastran.same p (Nastran.chars "a/b"%string) then Some [5; 6; 7] else None in
  ask parse 1 (run parse [SetReadDir (Nastran.chars "a"%string); SetInput 1 9; SetFilename (Nastran.chars "b"%string); SetReadFromFile true] (new_input false true, d)) = Ok 3 /\
  ask parse 1 (run parse [SetReadDir (Nastran.chars "a"%string); SetInput 1 9; SetFilename (Nastran.chars "b"%string); ClearInput] (new_input false true, d)) = Ok 9.
Proof. split; vm_compute; reflexivity. Qed.

(** ** Files *)
Lemma same_eq : forall a b, Nastran.same a b = true <-> a = b.
Proof. intros a b. unfold Nastran.same. destruct (list_eq_dec N.eq_dec a b); split; intro; congruence. Qed.
Lemma same_refl : forall l, Nastran.same l l = true.
Proof. intro l. apply same_eq. reflexivity. Qed.
(** C159: what is given to a block that writes is in its file, and is read by one with the same settings. *)
Theorem C159_through : forall (V C : Type) (parse : nat -> bool -> bool -> C -> V) print field writable t v (o : output V) (b : input V) (d : disk),
  (forall t c x v, parse t c x (print t c x v) = v) -> writable (path_of (o_set o)) = true ->
  s_csv (i_set b) = s_csv (o_set o) -> s_binary (i_set b) = s_binary (o_set o) -> s_dir (i_set b) = s_dir (o_set o) -> s_name (i_set b) = s_name (o_set o) ->
  let (o', d') := setInput print field writable t v o d in
  o_input o' = Some (t, v) /\ (forall p, p <> path_of (o_set o) -> d' p = d p) /\
  (if field then fst (getField parse t d' b) = Ok v else s_read (i_set b) = true -> fst (getResult parse t d' b) = Ok v).
Proof.
  intros V C parse print field writable t v o b d PP W E1 E2 E3 E4. unfold setInput. set (s := if (field && s_csv (o_set o))%bool then _ else _).
  assert (P : path_of s = path_of (o_set o)) by (unfold s; destruct (field && s_csv (o_set o))%bool; reflexivity). assert (CS : s_csv s = s_csv (o_set o)) by (unfold s; destruct (field && s_csv (o_set o))%bool; reflexivity).
  rewrite P, W. cbn [o_input]. split; [reflexivity|]. split.
  - intros p N. destruct (Nastran.same p (path_of (o_set o))) eqn:Q; [|reflexivity]. apply same_eq in Q. contradiction.
  - assert (PB : path_of (i_set b) = path_of (o_set o)) by (unfold path_of; rewrite E3, E4; reflexivity). destruct field.
    + unfold getField. assert (P2 : path_of (if s_csv (i_set b) then Settings (s_read (i_set b)) (s_csv (i_set b)) false (s_dir (i_set b)) (s_name (i_set b)) else i_set b) = path_of (o_set o)) by (destruct (s_csv (i_set b)); [exact PB|exact PB]). rewrite P2, same_refl. cbn [fst].
      assert (C2 : s_csv (if s_csv (i_set b) then Settings (s_read (i_set b)) (s_csv (i_set b)) false (s_dir (i_set b)) (s_name (i_set b)) else i_set b) = s_csv s) by (rewrite CS, <- E1; destruct (s_csv (i_set b)) eqn:Q; [reflexivity|exact Q]).
      assert (B2 : s_binary (if s_csv (i_set b) then Settings (s_read (i_set b)) (s_csv (i_set b)) false (s_dir (i_set b)) (s_name (i_set b)) else i_set b) = (true && s_binary s)%bool) by (unfold s; cbn [andb]; rewrite <- E1; destruct (s_csv (i_set b)); [reflexivity|exact E2]).
      rewrite C2, B2, PP. reflexivity.
    + intro R. unfold getResult. rewrite R, PB, same_refl. cbn [fst andb]. rewrite CS, E1, PP. reflexivity.
Qed.
Print Assumptions C159_through.
(** a file that cannot be opened: nothing is written, and nothing says so; a block then reads what was there *)
Theorem C159_silent_refuted : forall (V C : Type) (print : nat -> bool -> bool -> V -> C) field writable t v (o : output V) (d : disk), writable (path_of (o_set o)) = false ->
  let (o', d') := setInput print field writable t v o d in d' = d /\ o_input o' = Some (t, v).
Proof. intros V C print field writable t v o d W. unfold setInput. set (s := if (field && s_csv (o_set o))%bool then _ else _). assert (P : path_of s = path_of (o_set o)) by (unfold s; destruct (field && s_csv (o_set o))%bool; reflexivity). rewrite P, W. split; reflexivity. Qed.
Print Assumptions C159_silent_refuted.
(** a block of fields that has once written in csv does no more write binary, also when csv is turned off: its reader, told the same, takes the file for a binary one *)
Theorem C159_binary_refuted : forall (V C : Type) (print : nat -> bool -> bool -> V -> C) writable t v w (o : output V) (d : disk), s_csv (o_set o) = true -> s_binary (o_set o) = true -> writable (path_of (o_set o)) = true ->
  let o' := fst (setInput print true writable t v o d) in let o2 := Out (Settings (s_read (o_set o')) false (s_binary (o_set o')) (s_dir (o_set o')) (s_name (o_set o'))) (o_input o') in
  snd (setInput print true writable t w o2 d) (path_of (o_set o)) = Some (print t false false w).
Proof.
  intros V C print writable t v w o d CS BI W. cbn zeta. unfold setInput. rewrite CS. cbn [andb fst snd o_set s_read s_csv s_binary s_dir s_name].
  assert (P : path_of (Settings (s_read (o_set o)) false false (s_dir (o_set o)) (s_name (o_set o))) = path_of (o_set o)) by reflexivity. rewrite P, W, same_refl. reflexivity.
Qed.
Print Assumptions C159_binary_refuted.
Example C159_nonvacuous : let o := Out (Settings false true false (Nastran.chars "a"%string) (Nastran.chars "b"%string)) None in let (o', d') := setInput (fun (t : nat) (c b : bool) (v : nat) => (c, v)) false (fun _ => true) 1 7 o (fun _ => None) in d' (Nastran.chars "a/b"%string) = Some (true, 7) /\ d' (Nastran.chars "a/c"%string) = None.
Proof. cbn zeta. split; vm_compute; reflexivity. Qed.

(** ** XML *)
Lemma trimmed_trim : forall l, trimmed l -> trim l = l.
Proof. intros l (A & B). destruct l as [|c r]; [reflexivity|]. apply tidy_trim. split; [discriminate|]. split; [exact A|exact B]. Qed.
Lemma bool_back : forall b, match trim (show_bool b) with [] => false | t => to_bool false t end = b.
Proof. intros []; reflexivity. Qed.
(** C160: settings are restored from what is written in XML. *)
Theorem C160_back : forall c s, trimmed (s_dir s) -> trimmed (s_name s) -> (c = Input -> s_read s = true) -> (c <> Input -> s_read s = false) -> (of_field c = false -> s_binary s = false) -> restore c (flush c s) = s.
Proof.
  intros c [rd cs bi di na]. cbn [s_dir s_name s_read s_binary]. intros TD TN R1 R2 B. apply trimmed_trim in TD, TN. unfold restore, absorb, bool_option, text_option.
  destruct c; cbn [is_input of_field dir_key flush app option_of List.find String.eqb Ascii.eqb Bool.eqb fst snd option_map s_read s_csv s_binary s_dir s_name fresh andb]; rewrite ?bool_back, ?TD, ?TN;
    try (rewrite (R1 eq_refl)); try (rewrite (R2 ltac:(discriminate))); try (rewrite (B eq_refl)); reflexivity.
Qed.
Print Assumptions C160_back.
(** a GenericInput that does not read when it is written has lost its file *)
Theorem C160_file_refuted : forall s, s_read s = false -> s_dir (restore Input (flush Input s)) = Nastran.chars "./"%string /\ s_name (restore Input (flush Input s)) = Nastran.chars "input.txt"%string.
Proof. intros [rd cs bi di na] R. cbn in R. subst rd. split; reflexivity. Qed.
Print Assumptions C160_file_refuted.
(** also when the section asks for the file before it says that it is to be read, the order of options does not matter *)
Theorem C160_order : forall c x y, (forall k, option_of x k = option_of y k) -> restore c x = restore c y.
Proof. intros c x y H. unfold restore, absorb, bool_option, text_option. rewrite !H. reflexivity. Qed.
Print Assumptions C160_order.
Example C160_nonvacuous : let s := Settings true true false (Nastran.chars "in dir"%string) (Nastran.chars "file"%string) in trimmed (s_dir s) /\ restore Input (flush Input s) = s /\ restore OutputField (flush OutputField (Settings false false true (Nastran.chars "d"%string) [])) = Settings false false true (Nastran.chars "d"%string) [].
Proof.
  cbn zeta. split; [|split; vm_compute; reflexivity]. cbn [s_dir]. split; [intros c r E; injection E as <- _; unfold white; cbn; lia|]. intros c r E; apply (f_equal (@rev N)) in E; rewrite rev_app_distr in E; cbn in E; injection E as <- _; unfold white; lia.
Qed.

(** ** Binary files *)
Lemma length_raw : forall k z, length (raw k z) = k.
Proof. induction k as [|k IH]; intro z; [reflexivity|]. cbn [raw length]. rewrite IH. reflexivity. Qed.
Lemma unraw_raw : forall k z, unraw (raw k z) = (z mod 2 ^ (8 * Z.of_nat k))%Z.
Proof.
  induction k as [|k IH]; intro z; [cbn; rewrite Z.mod_1_r; reflexivity|]. cbn [raw unraw]. rewrite IH, Z2N.id by (apply Z.mod_pos_bound; lia).
  replace (8 * Z.of_nat (S k))%Z with (8 + 8 * Z.of_nat k)%Z by lia. rewrite Z.pow_add_r by lia. change (2 ^ 8)%Z with 256%Z.
  symmetry. apply Z.rem_mul_r; [lia|apply Z.pow_pos_nonneg; lia].
Qed.
Lemma signed_raw : forall k z, 0 < k -> holds (8 * Z.of_nat k) z -> signed k (unraw (raw k z)) = z.
Proof.
  intros k z K (A & B). rewrite unraw_raw. unfold signed. set (n := (8 * Z.of_nat k)%Z) in *. assert (N : (1 <= n)%Z) by (unfold n; lia).
  assert (D : (2 ^ n = 2 * 2 ^ (n - 1))%Z) by (rewrite <- Z.pow_succ_r by lia; f_equal; lia). assert (P : (0 < 2 ^ (n - 1))%Z) by (apply Z.pow_pos_nonneg; lia).
  destruct (Z_lt_le_dec z 0).
  - assert (M : (z mod 2 ^ n = z + 2 ^ n)%Z) by (symmetry; apply Z.mod_unique with (q := (-1)%Z); [left; lia|lia]). rewrite M. destruct (Z.ltb_spec (z + 2 ^ n) (2 ^ (n - 1))); lia.
  - rewrite Z.mod_small by lia. destruct (Z.ltb_spec z (2 ^ (n - 1))); lia.
Qed.
Lemma absorb_app : forall k a l, length a = k -> absorb_raw k (a ++ l) = Some (a, l).
Proof. intros k a l <-. unfold absorb_raw. rewrite app_length. destruct (Nat.leb_spec (length a) (length a + length l)); [|lia]. rewrite firstn_app, Nat.sub_diag, firstn_all, firstn_O, app_nil_r, skipn_app, skipn_all, Nat.sub_diag. reflexivity. Qed.
Section Bin.
  Context {V : Type}.
  Variables (width : nat) (enc : V -> list N) (dec : list N -> V).
  Hypothesis wide : forall v, length (enc v) = width.
  Hypothesis back : forall v, dec (enc v) = v.
  Lemma rows_back : forall rows, Forall (fun e : Z * V => holds 64 (fst e)) rows -> NoDup (map fst rows) -> read_rows width dec (length rows) (flat_map (fun e => raw 8 (fst e) ++ enc (snd e)) rows) = Some rows.
  Proof.
    induction rows as [|[i v] r IH]; intros F D; [reflexivity|]. inversion F; subst. inversion D; subst. cbn [length flat_map read_rows fst snd]. rewrite <- !app_assoc.
    rewrite (absorb_app 8) by apply length_raw. rewrite absorb_app by apply wide. rewrite IH by assumption. rewrite back, signed_raw by (try lia; exact H1).
    destruct (existsb (fun e => Z.eqb (fst e) i) r) eqn:E; [|reflexivity]. exfalso. apply existsb_exists in E. destruct E as (e & I & Q). apply Z.eqb_eq in Q. cbn [fst] in *. apply H3. rewrite <- Q. apply in_map. exact I.
  Qed.
  (** C161: a field written in a binary file is read from it with its location, its identifiers and its values in their order. *)
  Theorem C161_back : forall f : field V, held f -> exists g, read_binary width dec (write_binary enc f) = Some g /\ f_rows g = f_rows f /\ f_loc g = f_loc f.
  Proof.
    intros [na lo ro] (H1 & H2 & H3 & H4 & H5). cbn [f_name f_loc f_rows] in *. exists (Field [] lo ro). split; [|split; reflexivity]. unfold write_binary, read_binary. cbn [f_name f_loc f_rows].
    rewrite (absorb_app 8) by apply length_raw. assert (L : unraw (raw 8 (Z.of_nat (length na))) = Z.of_nat (length na)) by (rewrite unraw_raw; apply Z.mod_small; destruct H1 as (_ & H1); change (8 * Z.of_nat 8)%Z with 64%Z; change (64 - 1)%Z with 63%Z in H1; lia).
    rewrite L, Nat2Z.id, absorb_app by reflexivity. rewrite (absorb_app 4) by apply length_raw. rewrite (absorb_app 8) by apply length_raw.
    assert (M : signed 8 (unraw (raw 8 (Z.of_nat (length ro)))) = Z.of_nat (length ro)) by (apply signed_raw; [lia|]; destruct H3 as (X & Y); split; [lia|]; change (32 - 1)%Z with 31%Z in Y; change (8 * Z.of_nat 8 - 1)%Z with 63%Z; lia).
    rewrite M, Nat2Z.id. destruct H3 as (_ & Y). change (32 - 1)%Z with 31%Z in Y. destruct (Z.ltb_spec (2 ^ 31 - 1) (Z.of_nat (length ro))); [lia|]. rewrite rows_back by assumption. rewrite signed_raw by (try lia; exact H2). reflexivity.
  Qed.
  (** ... but not with its name, which is lost *)
  Theorem C161_name_refuted : forall f : field V, held f -> exists g, read_binary width dec (write_binary enc f) = Some g /\ f_name g = [] /\ (f_name f <> [] -> g <> f).
  Proof.
    intros f H. destruct (C161_back f H) as (g & G & _). exists g. split; [exact G|]. assert (N : f_name g = []). { unfold read_binary in G. repeat (match type of G with match ?x with _ => _ end = _ => destruct x as [[? ?]|]; [|discriminate G] end). destruct (Z.ltb _ _); [discriminate G|]. destruct (read_rows _ _ _ _); [|discriminate G]. injection G as <-. reflexivity. }
    split; [exact N|]. intros X Y. subst g. contradiction.
  Qed.
End Bin.
Print Assumptions C161_back.
Print Assumptions C161_name_refuted.
Example C161_nonvacuous : let f := Field [112; 114]%N 1 [(7, 300); (-1, 2)]%Z in held f /\ read_binary 2 (fun l => unraw l) (write_binary (raw 2) f) = Some (Field [] 1 [(7, 300); (-1, 2)]%Z).
Proof. split; [|vm_compute; reflexivity]. unfold held, holds. cbn [f_name f_loc f_rows length map fst]. change (2 ^ (64 - 1))%Z with 9223372036854775808%Z. change (2 ^ (32 - 1))%Z with 2147483648%Z. repeat split; try (cbn; lia). - repeat constructor; cbn; lia. - repeat constructor; cbn; intuition lia. Qed.
