(** C103: data written in a file of generic data and read back. *)
From Coq Require Import List NArith ZArith Bool Lia Reals.
From Verif Require Import Text TextSpec TextProofs Stream CsvIo CsvIoSpec CsvIoProofs.
From Verif Require StreamSpec.
Import ListNotations.
Open Scope nat_scope.

Lemma six : 0 < 6. Proof. lia. Qed.
Lemma all_kept : forall l, Forall2 (kept 6) l (map (rounded 6) l).
Proof. induction l as [|x l IH]; constructor; [apply rounded_kept; exact six|exact IH]. Qed.
Lemma entries_kept : forall {A : Type} (ok : A -> A -> Prop) back (l : list (Z * A)), (forall x, ok x (back x)) ->
  Forall2 (fun e e' => fst e' = fst e /\ ok (snd e) (snd e')) l (map (fun e => (fst e, back (snd e))) l).
Proof. intros A ok back l H. induction l as [|x l IH]; constructor; [split; [reflexivity|apply H]|exact IH]. Qed.

(** ** One value *)
(** a double is read back with six digits, whatever was held before; exactly when it has six digits *)
Theorem C103_double : forall d old, kept 6 d (read_scalar get_num (write_scalar out_double d) old).
Proof.
  intros d old. unfold read_scalar, write_scalar, csv_put, out_double. rewrite (get_more (show_num 6) get_num (rounded 6)); [|intros; apply get_num_shown; assumption]. apply rounded_kept. exact six.
Qed.
Print Assumptions C103_double.
(** an integer is read back *)
Theorem C103_int : forall z old, read_scalar get_int (write_scalar show_int z) old = z.
Proof. intros z old. unfold read_scalar, write_scalar, csv_put. rewrite (get_more show_int get_int (fun x => x)); [reflexivity|exact int_pair]. Qed.
Print Assumptions C103_int.
(** a double with more than six digits is not read back *)
Theorem C103_double_exact_refuted : exists d, forall old, read_scalar get_num (write_scalar out_double d) old <> d.
Proof.
  exists (1234567, 0)%Z. intros old. unfold read_scalar, write_scalar, csv_put, out_double. rewrite (get_more (show_num 6) get_num (rounded 6)); [|intros; apply get_num_shown; assumption]. vm_compute. discriminate.
Qed.
Print Assumptions C103_double_exact_refuted.
(** a string of one word is never read back: the comma is read with it, and nothing is left for it *)
Theorem C103_string_refuted : forall w old, one_word w -> read_scalar get_word (write_scalar (fun s => s) w) old = old.
Proof.
  intros w old W. unfold read_scalar, write_scalar, csv_put, csv_get. change (good (opened (w ++ [c_comma]))) with true. cbn match.
  unfold get_word, extract. cbn [good opened at_end failed negb andb rest].
  destruct w as [|c w]; [destruct W as (W & _); contradiction|]. pose proof (word_space _ W) as SP.
  cbn [app skip_space]. rewrite (SP c) by (left; reflexivity). cbn [app].
  assert (T : take_word (c :: w ++ [c_comma]) = (c :: w ++ [c_comma], [])).
  { assert (G : forall v, (forall x, In x v -> is_space x = false) -> take_word (v ++ [c_comma]) = (v ++ [c_comma], [])).
    { induction v as [|x v IH]; intros H; [reflexivity|]. cbn [app take_word]. rewrite (H x) by (left; reflexivity). rewrite IH; [reflexivity|]. intros y I. apply H. right. exact I. }
    apply (G (c :: w)). exact SP. }
  rewrite T. reflexivity.
Qed.
Print Assumptions C103_string_refuted.

(** ** Vectors and arrays *)
(** the elements of a vector but the last are read back *)
Theorem C103_vector_partial : forall l junk, Forall2 (kept 6) (removelast l) (read_vector get_num (csv_list out_double l) junk []).
Proof.
  intros l junk. unfold out_double. rewrite (read_vector_right (show_num 6) get_num (rounded 6)); [apply all_kept|intros; apply get_num_shown; assumption|]. eexists. split; reflexivity.
Qed.
Print Assumptions C103_vector_partial.
Theorem C103_int_vector_partial : forall l junk, read_vector get_int (csv_list show_int l) junk [] = removelast l.
Proof.
  intros l junk. rewrite (read_vector_right show_int get_int (fun x => x)); [apply map_id|exact int_pair|]. eexists. split; reflexivity.
Qed.
Print Assumptions C103_int_vector_partial.
(** the last element of a vector is always lost *)
Theorem C103_vector_refuted : forall l junk, l <> [] -> length (read_vector get_num (csv_list out_double l) junk []) < length l.
Proof.
  intros l junk NE. assert (Q : forall (R : dec -> dec -> Prop) a b, Forall2 R a b -> length a = length b) by (intros R a b H; induction H; cbn; congruence). rewrite <- (Q _ _ _ (C103_vector_partial l junk)). pose proof (f_equal (@length dec) (@app_removelast_last dec l (0, 0)%Z NE)) as L. rewrite app_length in L. cbn [length] in L. lia.
Qed.
Print Assumptions C103_vector_refuted.
(** an array is read back into an array of the same size *)
Theorem C103_array : forall l old zero, l <> [] -> length old = length l -> Forall2 (kept 6) l (read_array get_num zero (csv_list out_double l) old).
Proof.
  intros l old zero NE L. unfold read_array, out_double. rewrite <- (app_nil_r (csv_list (show_num 6) l)). rewrite (array_right (show_num 6) get_num (rounded 6)); [apply all_kept|intros; apply get_num_shown; assumption|exact NE|exact L].
Qed.
Print Assumptions C103_array.

(** ** Fields *)
(** a field of doubles that is not empty, whose name is one word *)
Theorem C103_field : forall f junk_id junk, one_word (v_name f) -> v_data f <> [] -> NoDup (map fst (v_data f)) ->
  exists g, read_field (csv_get_end get_num) (csv_field (csv_put_end out_double) f) junk_id junk = Some g /\ field_kept (kept 6) f g.
Proof.
  intros f junk_id junk W NE ND. eexists. split.
  - apply (field_right (csv_put_end out_double) (csv_get_end get_num) (rounded 6) (fun _ _ => True)); auto.
    intros x old l _. unfold csv_put_end, out_double. rewrite <- app_assoc. cbn [app]. apply (get_last (show_num 6) get_num (rounded 6)). intros; apply get_num_shown; assumption.
  - split; [reflexivity|]. split; [reflexivity|]. apply entries_kept. intros x. apply rounded_kept. exact six.
Qed.
Print Assumptions C103_field.
Theorem C103_int_field : forall f junk_id junk, one_word (v_name f) -> v_data f <> [] -> NoDup (map fst (v_data f)) ->
  exists g, read_field (csv_get_end get_int) (csv_field (csv_put_end show_int) f) junk_id junk = Some g /\ field_kept eq f g.
Proof.
  intros f junk_id junk W NE ND. eexists. split.
  - apply (field_right (csv_put_end show_int) (csv_get_end get_int) (fun x => x) (fun _ _ => True)); auto.
    intros x old l _. unfold csv_put_end. rewrite <- app_assoc. cbn [app]. apply (get_last show_int get_int (fun x => x)). exact int_pair.
  - split; [reflexivity|]. split; [reflexivity|]. apply (entries_kept eq (fun x => x)). reflexivity.
Qed.
Print Assumptions C103_int_field.
(** a field of arrays of d doubles *)
Theorem C103_array_field : forall d f junk_id junk zero, 0 < d -> length junk = d -> (forall e, In e (v_data f) -> length (snd e) = d) ->
  one_word (v_name f) -> v_data f <> [] -> NoDup (map fst (v_data f)) ->
  exists g, read_field (csv_array get_num zero) (csv_field (csv_list out_double) f) junk_id junk = Some g /\ field_kept (Forall2 (kept 6)) f g.
Proof.
  intros d f junk_id junk zero D J V W NE ND. eexists. split.
  - apply (field_right (csv_list out_double) (csv_array get_num zero) (map (rounded 6)) (fun x old => 0 < length x /\ length old = length x)); auto.
    + intros x old l (P & L). apply (array_right (show_num 6) get_num (rounded 6)); [intros; apply get_num_shown; assumption| |exact L]. intros ->. cbn in P. lia.
    + intros e I. rewrite (V e I). lia.
    + intros e e' I I'. rewrite map_length, (V e I), (V e' I'). lia.
  - split; [reflexivity|]. split; [reflexivity|]. apply entries_kept. exact all_kept.
Qed.
Print Assumptions C103_array_field.
(** a name of two words: the values are lost and the second word is dropped *)
Theorem C103_field_name_refuted : exists f g, v_data f <> [] /\ NoDup (map fst (v_data f)) /\
  read_field (csv_get_end get_num) (csv_field (csv_put_end out_double) f) 0%Z (0, 0)%Z = Some g /\ v_data g = [] /\ v_name g <> v_name f.
Proof.
  exists (Mpv [65; 32; 66]%N 1%Z [(7%Z, (25, 0)%Z)]), (Mpv [65]%N 0%Z []). split; [discriminate|]. split; [constructor; [intros []|constructor]|]. split; [vm_compute; reflexivity|]. split; [reflexivity|discriminate].
Qed.
Print Assumptions C103_field_name_refuted.
(** the name and the location of an empty field are lost *)
Theorem C103_field_empty_refuted : forall name loc junk_id junk,
  read_field (csv_get_end get_num) (csv_field (csv_put_end out_double) (Mpv name loc [])) junk_id junk = Some (Mpv data_name 0%Z []).
Proof. reflexivity. Qed.
Print Assumptions C103_field_empty_refuted.

(** ** Binary and text files of the fields *)
(** the values are read back exactly from a binary file *)
Theorem C103_binary_partial : forall t (f : field (den t)), StreamSpec.no_map_in_map (TField t) = true -> StreamSpec.valid (TField t) f -> (f_loc f <= 3)%N ->
  exists g, read_binary t (write_binary t f) = Some g /\ f_loc g = f_loc f /\ f_data g = f_data f.
Proof. intros t f O V L. rewrite (binary_right t f O V L). eexists. split; [reflexivity|]. split; reflexivity. Qed.
Print Assumptions C103_binary_partial.
(** the name is always lost *)
Theorem C103_binary_name_refuted : forall t file g, read_binary t file = Some g -> f_name g = [].
Proof.
  intros t file g H. unfold read_binary in H.
  destruct (read_num 8 file) as [(n1, s1)|]; [|discriminate]. destruct (read_each _ _ s1) as [(c, s2)|]; [|discriminate]. destruct (read_num 4 s2) as [(l1, s3)|]; [|discriminate].
  destruct (read_num 8 s3) as [(n2, s4)|]; [|discriminate]. destruct (read_insert _ _ _ _ s4) as [(d, s5)|]; [|discriminate]. injection H as <-. reflexivity.
Qed.
Print Assumptions C103_binary_name_refuted.
(** in >> x of a double, [old] being held before *)
Definition absorb_num (s : stream) (old : dec) : stream * dec := match get_num s with (Some d, s') => (s', d) | (None, s') => (s', if attempted s then (0, 0)%Z else old) end.
(** a text file; the stream writes p digits *)
Theorem C103_ascii : forall p f junk_loc junk_id junk, 0 < p -> one_word (v_name f) -> NoDup (map fst (v_data f)) -> (0 <= v_loc f <= 3)%Z ->
  exists g, read_ascii absorb_num (write_ascii (show_num p) f) junk_loc junk_id junk = Some g /\ field_kept (kept p) f g.
Proof.
  intros p f junk_loc junk_id junk P W ND L. eexists. split.
  - apply (ascii_right (show_num p) absorb_num (rounded p)); auto. intros w x old l Hw Hs NE. unfold absorb_num. rewrite get_num_shown by assumption. destruct l; [contradiction|reflexivity].
  - split; [reflexivity|]. split; [reflexivity|]. apply entries_kept. intros x. apply rounded_kept. exact P.
Qed.
Print Assumptions C103_ascii.
(** a field without a name: the location is taken for the name, the values are lost *)
Theorem C103_ascii_name_refuted : exists f g, v_name f = [] /\ v_data f <> [] /\ NoDup (map fst (v_data f)) /\
  read_ascii absorb_num (write_ascii (show_num 6) f) 0%Z 0%Z (0, 0)%Z = Some g /\ v_name g <> [] /\ v_loc g <> v_loc f /\
  ~ Forall2 (fun e e' => fst e' = fst e) (v_data f) (v_data g).
Proof.
  exists (Mpv [] 1%Z [(1, (25, 0)); (3, (4, 0))]%Z). eexists. split; [reflexivity|]. split; [discriminate|]. split; [repeat constructor; cbn; intuition lia|].
  split; [vm_compute; reflexivity|]. split; [discriminate|]. split; [discriminate|]. intros H. inversion H as [|a b c d E]. discriminate.
Qed.
Print Assumptions C103_ascii_name_refuted.

(** the hypotheses are met *)
Example C103_nonvacuous :
  one_word [65; 66]%N /\ NoDup (map fst [(7, (25, 0)); (3, (-1234567, -3))]%Z) /\
  read_field (csv_get_end get_num) (csv_field (csv_put_end out_double) (Mpv [65; 66]%N 2%Z [(7, (25, 0)); (3, (-1234567, -3))]%Z)) 0%Z (0, 0)%Z
    = Some (Mpv [65; 66]%N 2%Z [(7, (25, 0)); (3, (-123457, -2))]%Z) /\
  read_vector get_int (csv_list show_int [1; 2; 3]%Z) 0%Z [] = [1; 2]%Z /\
  StreamSpec.valid (TField (TNum 8)) (Build_field (0, 0)%N [65]%N 2%N [(7, 9)]%N).
Proof.
  split; [split; [discriminate|intros c [<- | [<- | []]]; lia]|]. split; [repeat constructor; cbn; intuition lia|]. split; [vm_compute; reflexivity|]. split; [vm_compute; reflexivity|].
  cbn. unfold StreamSpec.fits, StreamSpec.chars_ok, StreamSpec.size_ok, StreamSpec.fits. cbn. repeat split; try lia; repeat constructor; cbn; intuition lia.
Qed.
