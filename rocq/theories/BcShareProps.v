(** Properties of the boundary conditions in streams and on the processes. *)
From Coq Require Import String.
From Coq Require Import List ZArith Bool Lia Sorting.Sorted.
From Verif Require Import BcShare BcShareSpec.
Import ListNotations.
Open Scope list_scope.
Local Open Scope Z_scope.

Section Maps.
  Variable V : Type.
  Implicit Types m : list (Z * V).

  Lemma put_last : forall m k v, (forall e, In e m -> fst e < k) -> put k v m = m ++ [(k, v)].
  Proof.
    induction m as [| [k' v'] m IH]; intros k v H; [reflexivity |]. cbn.
    assert (L : k' < k) by (apply (H (k', v')); now left).
    destruct (Z.ltb_spec k k') as [A | _]; [lia |]. destruct (Z.eqb_spec k k') as [A | _]; [lia |].
    f_equal. apply IH. intros e He. apply H. now right.
  Qed.
  Lemma insert_last : forall m k v, (forall e, In e m -> fst e < k) -> insert_new k v m = m ++ [(k, v)].
  Proof.
    intros m k v H. unfold insert_new. destruct (existsb (fun e => fst e =? k) m) eqn:E; [| now apply put_last].
    apply existsb_exists in E. destruct E as (e & He & Ek). apply Z.eqb_eq in Ek. specialize (H e He). lia.
  Qed.

  Variable write : V -> list item.
  Variable read : list item -> option (V * list item).
  Hypothesis back : forall v s, read (write v ++ s) = Some (v, s).

  (** reading the elements: those of [m] added one after the other *)
  Lemma read_items_fold : forall add m s m0,
    read_items read add (length m) (write_items write m ++ s) m0 = Some (fold_left (fun a e => add (fst e) (snd e) a) m m0, s).
  Proof.
    intros add. induction m as [| [k v] m IH]; intros s m0; [reflexivity |].
    unfold write_items. cbn [flat_map length read_items app fst snd]. rewrite <- app_assoc. rewrite back. apply IH.
  Qed.
  Lemma fold_append : forall add, (forall m k v, (forall e, In e m -> fst e < k) -> add k v m = m ++ [(k, v)]) ->
    forall m m0, a_map (m0 ++ m) -> fold_left (fun a e => add (fst e) (snd e) a) m m0 = m0 ++ m.
  Proof.
    intros add Hadd. induction m as [| [k v] m IH]; intros m0 H; cbn; [now rewrite app_nil_r |].
    rewrite Hadd.
    - rewrite IH; rewrite <- app_assoc; [reflexivity | exact H].
    - intros e He. clear IH. unfold a_map in H. induction m0 as [| e0 m0 IH]; [destruct He |].
      cbn in H. inversion H as [| ? ? Hs Hf]; subst. destruct He as [<- | He]; [| now apply IH].
      rewrite Forall_forall in Hf. apply (Hf (k, v)). apply in_or_app. right. now left.
  Qed.
  Lemma restore_dump : forall m s, a_map m -> restore_map read (dump_map write m ++ s) [] = Some (m, s).
  Proof.
    intros m s H. unfold restore_map, dump_map. cbn [app]. rewrite Nat2Z.id, read_items_fold.
    do 2 f_equal. now apply (fold_append insert_new insert_last m []).
  Qed.
  Lemma received_over : forall m m0, received read (write_map write m) m0 = fold_left (fun a e => put (fst e) (snd e) a) m m0.
  Proof.
    intros m m0. unfold received, read_map, write_map.
    replace (write_items write m) with (write_items write m ++ []) by apply app_nil_r. now rewrite read_items_fold.
  Qed.
  Lemma received_new : forall m, a_map m -> received read (write_map write m) [] = m.
  Proof. intros m H. rewrite received_over. now apply (fold_append put put_last m []). Qed.
End Maps.

(** what is in a map after an assignment *)
Lemma put_has : forall V k (v : V) m k' v', In (k', v') (put k v m) -> (k' = k /\ v' = v) \/ (k' <> k /\ In (k', v') m) \/ (In (k', v') m /\ ~ a_map m).
Proof.
  intros V k v. induction m as [| [k1 v1] m IH]; intros k' v' H; cbn in H.
  - destruct H as [E | []]. injection E as <- <-. now left.
  - destruct (Z.ltb_spec k k1) as [L | L].
    + destruct H as [E | H]; [injection E as <- <-; now left |].
      destruct (Z.eq_dec k' k) as [-> | N]; [| right; left; split; [exact N | exact H]].
      right. right. split; [exact H |]. intros S. inversion S as [| ? ? _ F]; subst.
      destruct H as [E | H]; [injection E as <- _; lia |]. rewrite Forall_forall in F. specialize (F _ H). cbn in F. lia.
    + destruct (Z.eqb_spec k k1) as [<- | N].
      * destruct H as [E | H]; [injection E as <- <-; now left |].
        destruct (Z.eq_dec k' k) as [-> | N]; [| right; left; split; [exact N | now right]].
        right. right. split; [now right |]. intros S. inversion S as [| ? ? _ F]; subst.
        rewrite Forall_forall in F. specialize (F _ H). cbn in F. lia.
      * destruct H as [E | H].
        -- injection E as <- <-. right. left. split; [congruence | now left].
        -- destruct (IH _ _ H) as [A | [[A B] | [A B]]]; [now left | right; left; split; [exact A | now right] |].
           right. right. split; [now right |]. intros S. apply B. now inversion S.
Qed.
Lemma put_got : forall V k (v : V) m, In (k, v) (put k v m).
Proof.
  intros V k v. induction m as [| [k1 v1] m IH]; cbn; [now left |].
  destruct (Z.ltb_spec k k1); [now left |]. destruct (Z.eqb_spec k k1); [now left | now right].
Qed.
Lemma put_other : forall V k (v : V) m k' v', k' <> k -> In (k', v') m -> In (k', v') (put k v m).
Proof.
  intros V k v. induction m as [| [k1 v1] m IH]; intros k' v' N H; cbn; [destruct H |].
  destruct (Z.ltb_spec k k1); [now right |]. destruct (Z.eqb_spec k k1) as [<- | Nk].
  - destruct H as [E | H]; [injection E as <- _; congruence | now right].
  - destruct H as [E | H]; [now left | right; now apply IH].
Qed.
Lemma put_map : forall V k (v : V) m, a_map m -> a_map (put k v m).
Proof.
  intros V k v. unfold a_map. induction m as [| [k1 v1] m IH]; intros H; cbn; [repeat constructor |].
  inversion H as [| ? ? Hs Hf]; subst. destruct (Z.ltb_spec k k1) as [L | L].
  - constructor; [exact H |]. constructor; [exact L |]. rewrite Forall_forall in *. intros e He. specialize (Hf e He). cbn in *. lia.
  - destruct (Z.eqb_spec k k1) as [<- | N].
    + constructor; [exact Hs | exact Hf].
    + constructor; [now apply IH |]. rewrite Forall_forall in *. intros [k' v'] He. cbn.
      destruct (put_has _ _ _ _ _ _ He) as [[-> _] | [[_ A] | [A _]]]; [lia | apply (Hf _ A) | apply (Hf _ A)].
Qed.

(** ** C173 *)
Lemma int_back : forall v s, read_int (write_int v ++ s) = Some (v, s). Proof. reflexivity. Qed.
Lemma string_back : forall v s, read_string (write_string v ++ s) = Some (v, s). Proof. reflexivity. Qed.
Lemma vector_back : forall v s, read_vector (write_vector v ++ s) = Some (v, s).
Proof. intros v s. unfold write_vector, read_vector. cbn. induction v as [| z v IH]; cbn; [reflexivity |]. now rewrite IH. Qed.

(** what is dumped is restored, whatever the object had before and whatever follows in the stream *)
Theorem C173_stream : forall b b0 s, all_maps b -> restore b0 (dump b ++ s) = Some (b, s).
Proof.
  intros [m1 m2 m3 m4 m5] b0 s (H1 & H2 & H3 & H4 & H5). unfold restore, dump, clear.
  cbn [pidtobc zonetobndpid pidtolisttype bcpidnames zonepidnames] in *. rewrite <- !app_assoc.
  rewrite (restore_dump _ _ _ int_back m1 _ H1), (restore_dump _ _ _ vector_back m2 _ H2), (restore_dump _ _ _ int_back m3 _ H3),
    (restore_dump _ _ _ string_back m4 _ H4), (restore_dump _ _ _ string_back m5 _ H5). reflexivity.
Qed.

(** every process has the zones and the names of process 0, which keeps what it has *)
Theorem C173_names : forall rank b, all_maps b -> let c := communicateAllProcsStoredBC rank b in
  zonetobndpid c = zonetobndpid b /\ bcpidnames c = bcpidnames b /\ zonepidnames c = zonepidnames b.
Proof.
  intros [| rank] b (H1 & H2 & H3 & H4 & H5); cbn zeta; [now repeat split |]. unfold communicateAllProcsStoredBC, clear.
  cbn [pidtobc zonetobndpid pidtolisttype bcpidnames zonepidnames].
  rewrite (received_new _ _ _ vector_back _ H2), (received_new _ _ _ string_back _ H4), (received_new _ _ _ string_back _ H5). now repeat split.
Qed.
Theorem C173_first : forall b, communicateAllProcsStoredBC 0 b = b.
Proof. reflexivity. Qed.

(** what the other processes have of the conditions: where there is a kind of list it has taken the place of the
    condition; no kind of list is known *)
Theorem C173_conditions : forall rank b k v, all_maps b -> rank <> 0%nat ->
  let c := communicateAllProcsStoredBC rank b in
  (has (pidtobc c) k v <-> has (pidtolisttype b) k v \/ (no_key (pidtolisttype b) k /\ has (pidtobc b) k v)) /\
  pidtolisttype c = [].
Proof.
  intros [| rank] b k v (H1 & H2 & H3 & _) N; cbn zeta; [congruence |]. split; [| reflexivity].
  unfold communicateAllProcsStoredBC, clear. cbn [pidtobc zonetobndpid pidtolisttype bcpidnames zonepidnames].
  rewrite (received_new _ _ _ int_back _ H1), (received_over _ _ _ int_back).
  unfold has, no_key. revert H1 H3. generalize (pidtobc b) as m0. generalize (pidtolisttype b) as m.
  induction m as [| [k1 v1] m IH]; intros m0 H0 Hm; cbn [fold_left fst snd].
  - split; [intros H; right; split; [intros w [] | exact H] | intros [[] | [_ H]]; exact H].
  - unfold a_map in Hm. inversion Hm as [| ? ? Hs Hf]; subst. rewrite Forall_forall in Hf. cbn in Hf.
    rewrite (IH (put k1 v1 m0) (put_map _ _ _ _ H0) Hs). split.
    + intros [H | [Hn H]]; [left; now right |].
      destruct (put_has _ _ _ _ _ _ H) as [[-> ->] | [[Nk H'] | [_ Bad]]]; [left; now left | | contradiction].
      right. split; [| exact H']. intros w [E | Hw]; [injection E as <- _; congruence | now apply (Hn w)].
    + intros [[E | H] | [Hn H]].
      * injection E as <- <-. right. split; [| apply put_got]. intros w Hw. specialize (Hf _ Hw). cbn in Hf. lia.
      * now left.
      * right. split; [intros w Hw; apply (Hn w); now right |]. apply put_other; [| exact H].
        intros ->. apply (Hn v1). now left.
Qed.

(** a wall (20) and an inflow (9), both by lists of elements *)
Definition sample : bccgns := BC [(1, 20); (2, 9)] [(0, [1; 2])] [(1, 1); (2, 1)] [(1, "wall"%string); (2, "inlet"%string)] [(0, "air"%string)].
Lemma sample_maps : all_maps sample.
Proof. unfold all_maps, a_map, sample. cbn. repeat split; repeat constructor. Qed.

(** the conditions known to the other processes are not those of process 0 *)
Theorem C173_conditions_refuted : ~ (forall rank b, all_maps b -> pidtobc (communicateAllProcsStoredBC rank b) = pidtobc b).
Proof. intros H. specialize (H 1%nat sample sample_maps). cbn in H. discriminate H. Qed.
Theorem C173_lists_refuted : ~ (forall rank b, all_maps b -> pidtolisttype (communicateAllProcsStoredBC rank b) = pidtolisttype b).
Proof. intros H. specialize (H 1%nat sample sample_maps). cbn in H. discriminate H. Qed.

Example C173_nonvacuous : all_maps sample /\
  restore sample (dump sample ++ [I4 5]) = Some (sample, [I4 5]) /\
  communicateAllProcsStoredBC 1 sample = BC [(1, 1); (2, 1)] [(0, [1; 2])] [] [(1, "wall"%string); (2, "inlet"%string)] [(0, "air"%string)].
Proof. split; [exact sample_maps |]. split; reflexivity. Qed.

Print Assumptions C173_stream.
Print Assumptions C173_names.
Print Assumptions C173_first.
Print Assumptions C173_conditions.
Print Assumptions C173_conditions_refuted.
Print Assumptions C173_lists_refuted.
