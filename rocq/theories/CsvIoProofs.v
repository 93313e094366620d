(** Proofs about the files of data. *)
From Coq Require Import List NArith ZArith Bool Lia Reals.
From Verif Require Import Text TextSpec TextProofs Stream CsvIo CsvIoSpec.
From Verif Require StreamSpec StreamProofs.
Import ListNotations.
Open Scope nat_scope.

Lemma rounded_kept : forall p d, 0 < p -> kept p d (rounded p d).
Proof. intros p (m, e) P. split; [apply rounded_close; exact P|]. intros Hs. apply rounded_exact. exact Hs. Qed.

Lemma opened_cons : forall c l, St (c :: l) (ended (c :: l)) false = opened (c :: l).
Proof. reflexivity. Qed.
Lemma get_comma : forall l, get_char (opened (c_comma :: l)) = (Some c_comma, opened l).
Proof. reflexivity. Qed.

Lemma last_any : forall {T : Type} (x' : T) r a b, last (x' :: r) a = last (x' :: r) b.
Proof. intros T x' r a b. revert x'. induction r as [|u r IH]; intros x'; [reflexivity|]. cbn [last] in *. apply (IH u). Qed.
(** a way of writing and reading scalars *)
Section Scalars.
  Context {T : Type}.
  Variables (show : T -> list N) (get : stream -> option T * stream) (back : T -> T).
  Hypothesis pair_ok : forall w x l, (forall c, In c w -> is_space c = true) -> stops l -> get (opened (w ++ show x ++ l)) = (Some (back x), St l (ended l) false).
  Lemma pair_here : forall x l, stops l -> get (opened (show x ++ l)) = (Some (back x), St l (ended l) false).
  Proof. intros x l H. apply (pair_ok [] x l); [intros c []|exact H]. Qed.
  Lemma get_more : forall x l old, csv_get get (opened (show x ++ c_comma :: l)) old = (opened l, back x).
  Proof. intros x l old. unfold csv_get. cbn [good opened at_end failed negb andb]. rewrite pair_here by reflexivity. rewrite opened_cons, get_comma. reflexivity. Qed.
  Lemma get_last : forall x l old, csv_get_end get (opened (show x ++ c_line :: l)) old = (opened (c_line :: l), back x).
  Proof. intros x l old. unfold csv_get_end. cbn [good opened at_end failed negb andb]. rewrite pair_here by reflexivity. reflexivity. Qed.
  Lemma get_lost : forall x old, csv_get get (opened (show x ++ [c_line])) old = (St [] true true, old).
  Proof. intros x old. unfold csv_get. cbn [good opened at_end failed negb andb]. rewrite pair_here by reflexivity. reflexivity. Qed.

  Lemma csv_list_length : forall l, length l <= length (csv_list show l).
  Proof.
    induction l as [|x [|y l] IH]; [cbn; lia|cbn; unfold csv_put_end; rewrite app_length; cbn; lia|].
    change (csv_list show (x :: y :: l)) with (csv_put show x ++ csv_list show (y :: l)). rewrite app_length. unfold csv_put. rewrite app_length. cbn [length] in *. lia.
  Qed.
  Lemma vector_loop : forall l fuel dummy acc, length l < fuel -> l <> [] -> snd (csv_vector get fuel (opened (csv_list show l)) dummy acc) = acc ++ map back (removelast l).
  Proof.
    induction l as [|x [|y l] IH]; intros fuel dummy acc F NE; [contradiction| |].
    - destruct fuel as [|fuel]; [cbn in F; lia|]. cbn [csv_vector csv_list]. unfold csv_put_end. cbn [good opened at_end failed negb andb]. rewrite get_lost. cbn [failed]. destruct fuel; cbn; rewrite app_nil_r; reflexivity.
    - destruct fuel as [|fuel]; [cbn in F; lia|]. change (csv_list show (x :: y :: l)) with (csv_put show x ++ csv_list show (y :: l)). unfold csv_put. rewrite <- app_assoc. cbn [app csv_vector]. cbn [good opened at_end failed negb andb]. fold (opened (show x ++ c_comma :: csv_list show (y :: l))).
      rewrite get_more. cbn [failed opened]. fold (opened (csv_list show (y :: l))). rewrite IH; [|cbn [length] in *; lia|discriminate]. rewrite <- app_assoc. reflexivity.
  Qed.
  Lemma read_vector_right : forall l junk, (exists s, get (opened []) = (None, s) /\ failed s = true) -> read_vector get (csv_list show l) junk [] = map back (removelast l).
  Proof.
    intros [|x l] junk (s & E & B); [unfold read_vector; cbn [csv_list length csv_vector]; unfold csv_get; change (good (opened [])) with true; cbn match; rewrite E, B; reflexivity|]. unfold read_vector. rewrite vector_loop; [reflexivity| |discriminate]. pose proof (csv_list_length (x :: l)). lia.
  Qed.

  Lemma set_nth_app : forall (a : list T) d x b, set_nth (length a) d (a ++ x :: b) = a ++ d :: b.
  Proof. induction a as [|y a IH]; intros d x b; [reflexivity|]. cbn [app length set_nth]. rewrite IH. reflexivity. Qed.
  Lemma array_loop : forall l done todo dummy tail, l <> [] -> length todo = length l ->
    exists i s d y, csv_array_loop get (length l - 1) (length done) (opened (csv_list show l ++ tail)) dummy (map back done ++ todo) = (i, s, d, y) /\
      csv_get_end get s d = (opened (c_line :: tail), back (last l (hd dummy l))) /\ set_nth i (back (last l (hd dummy l))) y = map back (done ++ l).
  Proof.
    induction l as [|x [|x' l] IH]; intros done todo dummy tail NE L; [contradiction| |].
    - cbn [length Nat.sub csv_array_loop csv_list last hd]. eexists _, _, _, _. split; [reflexivity|]. unfold csv_put_end. rewrite <- app_assoc. cbn [app]. rewrite get_last. split; [reflexivity|].
      destruct todo as [|z [|z' todo]]; cbn in L; try lia. rewrite <- (map_length back done), set_nth_app, map_app. reflexivity.
    - destruct todo as [|z todo]; [discriminate|]. injection L as L.
      replace (length (x :: x' :: l) - 1) with (S (length (x' :: l) - 1)) by (cbn [length]; lia). cbn [csv_array_loop].
      change (csv_list show (x :: x' :: l)) with (csv_put show x ++ csv_list show (x' :: l)). unfold csv_put. rewrite <- !app_assoc. cbn [app]. cbn [good opened at_end failed negb andb].
      fold (opened (show x ++ c_comma :: csv_list show (x' :: l) ++ tail)). rewrite get_more. cbn [failed opened]. fold (opened (csv_list show (x' :: l) ++ tail)).
      replace (set_nth (length done) (back x) (map back done ++ z :: todo)) with (map back done ++ back x :: todo) by (rewrite <- (map_length back done), set_nth_app; reflexivity).
      destruct (IH (done ++ [x]) todo (back x) tail ltac:(discriminate) L) as (i & s & d & y & E1 & E2 & E3).
      rewrite app_length in E1. cbn [length] in E1. rewrite Nat.add_1_r, map_app in E1. rewrite <- app_assoc in E1. cbn [map app] in E1.
      exists i, s, d, y. split; [exact E1|]. rewrite <- app_assoc in E3. cbn [app] in E3. cbn [hd] in E2, E3. change (last (x :: x' :: l) (hd dummy (x :: x' :: l))) with (last (x' :: l) x).
      rewrite (last_any x' l x x'). split; assumption.
  Qed.
  Lemma array_right : forall l old zero tail, l <> [] -> length old = length l -> csv_array get zero (opened (csv_list show l ++ tail)) old = (opened (c_line :: tail), map back l).
  Proof.
    intros l old zero tail NE L. unfold csv_array. rewrite L. destruct (array_loop l [] old zero tail NE L) as (i & s & d & y & E1 & E2 & E3). cbn [map app length] in E1. rewrite E1, E2. cbn [failed opened]. rewrite E3. reflexivity.
  Qed.
End Scalars.

Lemma int_pair : forall w x l, (forall c, In c w -> is_space c = true) -> stops l -> get_int (opened (w ++ show_int x ++ l)) = (Some x, St l (ended l) false).
Proof. exact get_int_shown. Qed.
Lemma num_pair : forall p w x l, (forall c, In c w -> is_space c = true) -> stops l -> get_num (opened (w ++ show_num p x ++ l)) = (Some (rounded p x), St l (ended l) false).
Proof. intros p w x l. apply get_num_shown. Qed.
Lemma line_space : forall c, In c [c_line] -> is_space c = true.
Proof. intros c [<- | []]. reflexivity. Qed.
Lemma word_space : forall w, one_word w -> forall x, In x w -> is_space x = false.
Proof.
  intros w (_ & H) x I. destruct (H x I) as (A & B). unfold is_space. apply orb_false_iff. split; [apply N.eqb_neq; exact A|]. apply andb_false_iff. destruct (N.leb_spec 9 x); [|left; reflexivity]. right. apply N.leb_gt. destruct (N.le_gt_cases x 13) as [C|C]; [|exact C]. exfalso. apply B. auto.
Qed.
(** a line before *)
Lemma get_int_next : forall z l old, csv_get_end get_int (opened (c_line :: show_int z ++ c_line :: l)) old = (opened (c_line :: l), z).
Proof.
  intros z l old. unfold csv_get_end. cbn [good opened at_end failed negb andb]. pose proof (get_int_shown [c_line] z (c_line :: l) line_space eq_refl) as H. cbn [app] in H. unfold opened in *. rewrite H. reflexivity.
Qed.

Section Fields.
  Context {A : Type}.
  Variables (put_end : A -> list N) (get_end : stream -> A -> stream * A) (back : A -> A) (fit : A -> A -> Prop).
  (** a value is read back on any old value that fits *)
  Hypothesis value_ok : forall x old l, fit x old -> get_end (opened (put_end x ++ l)) old = (opened (c_line :: l), back x).
  Lemma entries_right : forall data s_text id v acc, (forall e, In e data -> fit (snd e) v) -> (forall e e', In e data -> In e' data -> fit (snd e) (back (snd e'))) ->
    NoDup (map fst (acc ++ data)) -> s_text = [] \/ s_text = [c_line] ->
    csv_entries get_end (length data) (opened (s_text ++ flat_map (fun e => csv_put show_int (fst e) ++ put_end (snd e)) data)) id v acc = Some (acc ++ map (fun e => (fst e, back (snd e))) data).
  Proof.
    induction data as [|(i, x) data IH]; intros s_text id v acc F G N Hs; [cbn; rewrite app_nil_r; reflexivity|].
    cbn [length csv_entries flat_map fst snd]. unfold csv_put at 1. rewrite <- !app_assoc. cbn [app].
    assert (E : csv_get get_int (opened (s_text ++ show_int i ++ c_comma :: put_end x ++ flat_map (fun e => csv_put show_int (fst e) ++ put_end (snd e)) data)) id = (opened (put_end x ++ flat_map (fun e => csv_put show_int (fst e) ++ put_end (snd e)) data), i)).
    { unfold csv_get. cbn [good opened at_end failed negb andb]. pose proof (get_int_shown s_text i (c_comma :: put_end x ++ flat_map (fun e => csv_put show_int (fst e) ++ put_end (snd e)) data)) as H. unfold opened in *. rewrite H; [|destruct Hs as [-> | ->]; [intros c []|apply line_space]|reflexivity]. reflexivity. }
    rewrite E. rewrite (value_ok x v) by (apply (F (i, x)); left; reflexivity).
    unfold insert_new_id. replace (existsb (fun e => Z.eqb (fst e) i) acc) with false.
    2:{ symmetry. apply not_true_iff_false. intros B. apply existsb_exists in B. destruct B as (e & I & Q). apply Z.eqb_eq in Q. rewrite map_app in N. cbn [map fst] in N. apply NoDup_remove_2 in N. apply N. apply in_or_app. left. rewrite <- Q. apply in_map. exact I. }
    specialize (IH [c_line] i (back x) (acc ++ [(i, back x)])). cbn [app] in IH. rewrite IH.
    - rewrite <- app_assoc. reflexivity.
    - intros e I. apply (G e (i, x)); [right; exact I|left; reflexivity].
    - intros e e' I I'. apply G; right; assumption.
    - rewrite <- app_assoc. cbn [app]. rewrite map_app in *. cbn [map fst] in *. exact N.
    - right. reflexivity.
  Qed.
  Lemma field_right : forall f junk_id junk, one_word (v_name f) -> v_data f <> [] -> NoDup (map fst (v_data f)) ->
    (forall e, In e (v_data f) -> fit (snd e) junk) -> (forall e e', In e (v_data f) -> In e' (v_data f) -> fit (snd e) (back (snd e'))) ->
    read_field get_end (csv_field put_end f) junk_id junk = Some (Mpv (v_name f) (v_loc f) (map (fun e => (fst e, back (snd e))) (v_data f))).
  Proof.
    intros f junk_id junk W NE ND F G. unfold read_field, csv_field. destruct (v_data f) as [|e0 l0] eqn:D; [contradiction|]. rewrite <- D in *. clear D e0 l0.
    assert (E1 : forall rest, csv_get_end get_word (opened (v_name f ++ [c_line] ++ rest)) data_name = (opened (c_line :: rest), v_name f)).
    { intros rest. unfold csv_get_end. cbn [good opened at_end failed negb andb app]. pose proof (get_word_shown [] (v_name f) c_line rest (fun x I => match I with end) (proj1 W) (word_space _ W) eq_refl) as H. cbn [app] in H. unfold opened in *. rewrite H. reflexivity. }
    rewrite E1. cbn [app failed opened]. rewrite get_int_next. cbn [failed opened].
    rewrite get_int_next. cbn [failed opened].
    destruct (Z.ltb_spec (Z.of_nat (length (v_data f))) 0); [lia|]. rewrite Nat2Z.id.
    pose proof (entries_right (v_data f) [c_line] junk_id junk [] F G ND (or_intror eq_refl)) as X. cbn [app] in X. rewrite X. reflexivity.
  Qed.
End Fields.

(** ** Binary files *)
Lemma binary_right : forall t (f : field (den t)), StreamSpec.no_map_in_map (TField t) = true -> StreamSpec.valid (TField t) f -> (f_loc f <= 3)%N ->
  read_binary t (write_binary t f) = Some (Build_field (0, 0)%N [] (f_loc f) (f_data f)).
Proof.
  intros t f O V L. pose proof (StreamProofs.read_write (TField t) O f V) as (RW & _). cbn [StreamSpec.valid] in V. destruct V as (Vg & Vn & Vl & Ve & Vs & Vd).
  specialize (RW []). rewrite app_nil_r in RW. cbn [write] in RW. cbn [read] in RW.
  rewrite StreamProofs.read_num_ok in RW by apply Vg. rewrite StreamProofs.read_num_ok in RW by apply Vg.
  unfold read_binary, write_binary. rewrite StreamProofs.size_read by apply Vn.
  rewrite StreamProofs.read_string_ok in RW by exact Vn.
  replace (N.to_nat (N.of_nat (length (f_name f)))) with (length (f_name f)) by lia.
  pose proof (StreamProofs.read_string_ok (f_name f) (num_bytes 4 (f_loc f) ++ size_bytes (length (f_data f)) ++ flat_map (fun e => num_bytes 8 (fst e) ++ write t (snd e)) (f_data f)) Vn) as RS.
  unfold read_string in RS. rewrite StreamProofs.size_read in RS by apply Vn. replace (N.to_nat (N.of_nat (length (f_name f)))) with (length (f_name f)) in RS by lia. rewrite RS.
  rewrite StreamProofs.read_num_ok in RW by exact Vl. rewrite StreamProofs.size_read in RW by exact Vs.
  rewrite StreamProofs.read_num_ok by exact Vl. rewrite StreamProofs.size_read by exact Vs.
  assert (RI : read_insert (read t) (N.to_nat (N.of_nat (length (f_data f)))) (dflt t) [] (flat_map (fun e => num_bytes 8 (fst e) ++ write t (snd e)) (f_data f)) = Some (f_data f, [])).
  { match type of RW with match ?X with _ => _ end = _ => change (X = Some (f_data f, [])); destruct X as [(l & s)|]; [|discriminate RW] end.
    assert (Q : forall a b c d e (u v : list N), Some (Build_field a b c d, u) = Some (e : field (den t), v) -> Some (d, u) = Some (f_data e, v)) by (intros a b c d e u v Q; inversion Q; reflexivity).
    exact (Q _ _ _ _ _ _ _ RW). }
  rewrite RI. cbn [snd]. unfold set_loc. destruct (N.leb_spec (f_loc f) 3); [reflexivity|lia].
Qed.

(** ** Text files *)
Lemma absorb_next : forall w z l old, (forall c, In c w -> is_space c = true) -> stops l -> l <> [] -> absorb_int (opened (w ++ show_int z ++ l)) old = (opened l, z).
Proof. intros w z l old W H NE. unfold absorb_int. rewrite (get_int_shown w z l W H). destruct l; [contradiction|reflexivity]. Qed.
Section Ascii.
  Context {A : Type}.
  Variables (show : A -> list N) (absorb : stream -> A -> stream * A) (back : A -> A).
  Hypothesis absorb_ok : forall w x old l, (forall c, In c w -> is_space c = true) -> stops l -> l <> [] -> absorb (opened (w ++ show x ++ l)) old = (opened l, back x).
  Definition entry_text (e : Z * A) : list N := flush_ascii (show_int (fst e)) ++ flush_ascii (show (snd e)) ++ [c_line].
  Lemma ascii_entries_right : forall data w id v acc, (forall c, In c w -> is_space c = true) -> NoDup (map fst (acc ++ data)) ->
    ascii_entries absorb (length data) (opened (w ++ flat_map entry_text data)) id v acc = Some (acc ++ map (fun e => (fst e, back (snd e))) data).
  Proof.
    induction data as [|(i, x) data IH]; intros w id v acc W N; [cbn; rewrite app_nil_r; reflexivity|].
    cbn [length ascii_entries flat_map]. unfold entry_text at 1, flush_ascii. cbn [fst snd]. rewrite <- !app_assoc. cbn [app].
    rewrite (absorb_next w i _ id W) by (first [reflexivity|discriminate]).
    change (c_space :: show x ++ c_space :: c_line :: flat_map entry_text data) with ([c_space] ++ show x ++ c_space :: c_line :: flat_map entry_text data).
    rewrite (absorb_ok [c_space]) by (first [reflexivity|discriminate|intros c [<- | []]; reflexivity]).
    unfold insert_new_id. replace (existsb (fun e => Z.eqb (fst e) i) acc) with false.
    2:{ symmetry. apply not_true_iff_false. intros B. apply existsb_exists in B. destruct B as (e & I & Q). apply Z.eqb_eq in Q. rewrite map_app in N. cbn [map fst] in N. apply NoDup_remove_2 in N. apply N. apply in_or_app. left. rewrite <- Q. apply in_map. exact I. }
    change (c_space :: c_line :: flat_map entry_text data) with ([c_space; c_line] ++ flat_map entry_text data). rewrite IH.
    - rewrite <- app_assoc. reflexivity.
    - intros c [<- | [<- | []]]; reflexivity.
    - rewrite <- app_assoc. cbn [app]. rewrite map_app in *. cbn [map fst] in *. exact N.
  Qed.
  Lemma ascii_right : forall f junk_loc junk_id junk, one_word (v_name f) -> NoDup (map fst (v_data f)) -> (0 <= v_loc f <= 3)%Z ->
    read_ascii absorb (write_ascii show f) junk_loc junk_id junk = Some (Mpv (v_name f) (v_loc f) (map (fun e => (fst e, back (snd e))) (v_data f))).
  Proof.
    intros f junk_loc junk_id junk W N L. unfold read_ascii, write_ascii, flush_ascii. rewrite <- !app_assoc. cbn [app].
    pose proof (fun rest => get_word_shown [] (v_name f) c_space rest (fun x I => match I with end) (proj1 W) (word_space _ W) eq_refl) as GW. cbn [app] in GW. rewrite GW.
    match goal with |- context [St (c_space :: ?r) false false] => change (St (c_space :: r) false false) with (opened ([c_space] ++ r)) end.
    rewrite absorb_next by (first [reflexivity|discriminate|intros c [<- | []]; reflexivity]).
    match goal with |- context [opened (c_space :: c_line :: ?r)] => change (opened (c_space :: c_line :: r)) with (opened ([c_space; c_line] ++ r)) end.
    rewrite absorb_next by (first [reflexivity|discriminate|intros c [<- | [<- | []]]; reflexivity]).
    cbn [good opened at_end failed negb andb]. destruct (Z.ltb_spec (Z.of_nat (length (v_data f))) 0); [lia|]. rewrite Nat2Z.id.
    pose proof (ascii_entries_right (v_data f) [c_space; c_line] junk_id junk []) as X. unfold entry_text, flush_ascii in X. cbn [app] in X. rewrite X; [|intros c [<- | [<- | []]]; reflexivity|exact N].
    cbn [app]. unfold set_loc_int. destruct (Z.leb_spec 0 (v_loc f)); [|lia]. destruct (Z.leb_spec (v_loc f) 3); [|lia]. reflexivity.
  Qed.
End Ascii.
