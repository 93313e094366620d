(** Proofs about the stream operators and the port execution. *)
From Coq Require Import List NArith Bool Arith Lia.
From Verif Require Import Stream StreamSpec.
Import ListNotations.

Lemma read_num_ok : forall w n s, fits w n -> read_num w (num_bytes w n ++ s) = Some (n, s).
Proof.
  unfold fits. induction w as [|w IH]; intros n s H.
  - simpl in *. f_equal. f_equal. lia.
  - cbn [num_bytes read_num app]. rewrite IH.
    + f_equal. f_equal. pose proof (N.div_mod n 256). lia.
    + rewrite Nnat.Nat2N.inj_succ, N.pow_succ_r' in H. apply N.div_lt_upper_bound; lia.
Qed.

Lemma size_read : forall A (l : list A) s, size_ok l ->
  read_num 8 (size_bytes (length l) ++ s) = Some (N.of_nat (length l), s).
Proof. intros. unfold size_bytes. now apply read_num_ok. Qed.

Lemma read_each_ok : forall A (f : A -> reader A) (w : A -> list N) (P : A -> A -> Prop) l d s,
  (forall x y s, P x y -> f x (w y ++ s) = Some (y, s)) ->
  Forall2 P d l ->
  read_each f d (flat_map w l ++ s) = Some (l, s).
Proof.
  intros A f w P l d s H F. revert s. induction F as [|x y d l Hxy F IH]; intros s; simpl; auto.
  rewrite <- app_assoc, (H x y _ Hxy), IH. reflexivity.
Qed.

Lemma Forall2_repeat : forall A (P : A -> A -> Prop) x l,
  Forall (P x) l -> Forall2 P (repeat x (length l)) l.
Proof. intros. induction H; simpl; constructor; auto. Qed.

Lemma resize_length : forall A n (d : A) l, length (resize n d l) = n.
Proof. intros. unfold resize. rewrite app_length, firstn_length, repeat_length. lia. Qed.

Lemma Forall2_any : forall A (P : A -> Prop) (l d : list A), length d = length l -> Forall P l ->
  Forall2 (fun _ y => P y) d l.
Proof.
  induction l; intros d L F; destruct d; simpl in L; try discriminate; auto.
  inversion F; subst. constructor; auto.
Qed.

Lemma read_string_ok : forall l s, chars_ok l ->
  read_string (size_bytes (length l) ++ flat_map (num_bytes 1) l ++ s) = Some (l, s).
Proof.
  intros l s [H1 H2]. unfold read_string. rewrite size_read by auto.
  rewrite Nnat.Nat2N.id.
  apply (read_each_ok _ _ _ (fun _ y => fits 1 y)).
  - intros; now apply read_num_ok.
  - apply Forall2_any; auto. now rewrite repeat_length.
Qed.

Lemma upsert_new : forall K V dec (k : K) (v : V) l, ~ In k (map fst l) ->
  upsert dec k v l = l ++ [(k, v)].
Proof.
  induction l as [|[k' v'] l IH]; simpl; intros H; auto.
  destruct (dec k' k); [exfalso; auto|]. now rewrite IH by auto.
Qed.

(** Reading entries into [var] is a fold of updates, when the readers ignore what is there. *)
Lemma read_entries_ok : forall K V dec (fk : K -> reader K) (fv : V -> reader V) wk wv l key val var s,
  (forall e d s, In e l -> fk d (wk (fst e) ++ s) = Some (fst e, s)) ->
  (forall e d s, In e l -> fv d (wv (snd e) ++ s) = Some (snd e, s)) ->
  read_entries dec fk fv (length l) key val var (flat_map (fun e => wk (fst e) ++ wv (snd e)) l ++ s)
  = Some (fold_left (fun m e => upsert dec (fst e) (snd e) m) l var, s).
Proof.
  induction l as [|e l IH]; intros key val var s Hk Hv; simpl; auto.
  rewrite <- !app_assoc, Hk by (now left). rewrite Hv by now left.
  apply IH; intros; [apply Hk|apply Hv]; now right.
Qed.

Lemma fold_upsert_new : forall K V dec (l var : list (K * V)),
  NoDup (map fst l) -> (forall k, In k (map fst l) -> ~ In k (map fst var)) ->
  fold_left (fun m e => upsert dec (fst e) (snd e) m) l var = var ++ l.
Proof.
  induction l as [|[k v] l IH]; intros var N D; simpl.
  - now rewrite app_nil_r.
  - simpl in N. apply NoDup_cons_iff in N. destruct N as [N1 N2].
    rewrite upsert_new by (apply D; now left).
    rewrite IH; auto.
    + now rewrite <- app_assoc.
    + intros k' H. rewrite map_app, in_app_iff. simpl. intros [H'|[H'|[]]].
      * apply (D k'); auto. now right.
      * subst. auto.
Qed.

Lemma read_insert_ok : forall V (fv : V -> reader V) wv l val var s,
  (forall e d s, In e l -> fv d (wv (snd e) ++ s) = Some (snd e, s)) ->
  (forall e, In e l -> fits 8 (fst e)) ->
  NoDup (map fst l) -> (forall k, In k (map fst l) -> ~ In k (map fst var)) ->
  read_insert fv (length l) val var (flat_map (fun e => num_bytes 8 (fst e) ++ wv (snd e)) l ++ s)
  = Some (var ++ l, s).
Proof.
  induction l as [|e l IH]; intros val var s Hv Hf N D.
  - simpl. now rewrite app_nil_r.
  - cbn [read_insert length flat_map]. rewrite <- !app_assoc.
    rewrite read_num_ok by (apply Hf; now left). rewrite Hv by now left.
    cbn [map] in N. apply NoDup_cons_iff in N. destruct N as [N1 N2].
    destruct (existsb _ _) eqn:E.
    + apply existsb_exists in E. destruct E as (x & H1 & H2). apply N.eqb_eq in H2.
      exfalso. apply (D (fst e)); [now left|]. rewrite <- H2. now apply in_map.
    + rewrite IH; auto.
      * rewrite <- app_assoc. now destruct e.
      * intros; apply Hv; now right.
      * intros; apply Hf; now right.
      * intros k H. rewrite map_app, in_app_iff. simpl. intros [H'|[H'|[]]].
        -- apply (D k); auto. now right.
        -- subst. auto.
Qed.

(** Round trip, for a fresh destination and, for the types without a reachable map, for any. *)
Lemma read_write : forall t, no_map_in_map t = true -> forall v, valid t v ->
  (forall s, read t (dflt t) (write t v ++ s) = Some (v, s)) /\
  (no_map_outside_pairs t = true -> forall d s, read t d (write t v ++ s) = Some (v, s)).
Proof.
  induction t as [w| |t IH|n t IH|a IHa b IHb|k IHk v IHv| | |t IH]; cbn [no_map_in_map]; intros O x V.
  - split; intros; simpl; now apply read_num_ok.
  - split; intros; cbn [read write]; rewrite <- app_assoc; now apply read_string_ok.
  - destruct V as [V1 V2]. specialize (IH O). split.
    + intros s. cbn [read write dflt]. rewrite <- app_assoc, size_read by auto.
      rewrite Nnat.Nat2N.id.
      apply (read_each_ok _ _ _ (fun d y => d = dflt t /\ valid t y)).
      * intros d y s' [-> Hy]. exact (proj1 (IH y Hy) s').
      * unfold resize. rewrite firstn_nil, Nat.sub_0_r. simpl. apply Forall2_repeat.
        eapply Forall_impl; [|exact V1]. auto.
    + intros F d s. cbn [read write]. rewrite <- app_assoc, size_read by auto. rewrite Nnat.Nat2N.id.
      apply (read_each_ok _ _ _ (fun _ y => valid t y)).
      * intros d' y s' Hy. exact (proj2 (IH y Hy) F d' s').
      * apply Forall2_any; auto. now rewrite resize_length.
  - destruct V as [V1 V2]. specialize (IH O). split.
    + intros s. cbn [read write dflt].
      apply (read_each_ok _ _ _ (fun d y => d = dflt t /\ valid t y)).
      * intros d y s' [-> Hy]. exact (proj1 (IH y Hy) s').
      * unfold resize. rewrite repeat_length, Nat.sub_diag, app_nil_r, firstn_all2 by (rewrite repeat_length; lia).
        rewrite <- V2. apply Forall2_repeat. eapply Forall_impl; [|exact V1]. auto.
    + intros F d s. cbn [read write].
      apply (read_each_ok _ _ _ (fun _ y => valid t y)).
      * intros d' y s' Hy. exact (proj2 (IH y Hy) F d' s').
      * apply Forall2_any; auto. now rewrite resize_length.
  - apply andb_true_iff in O. destruct O as [Oa Ob]. destruct x as [x y]. destruct V as [V1 V2].
    simpl in V1, V2.
    assert (R : forall d s, read (TPair a b) d (write (TPair a b) (x, y) ++ s) = Some ((x, y), s)).
    { intros d s. cbn [read write fst snd]. rewrite <- app_assoc.
      rewrite (proj1 (IHa Oa x V1)), (proj1 (IHb Ob y V2)). reflexivity. }
    split; intros; apply R.
  - rewrite !andb_true_iff in O. destruct O as [[[Ok Ov] Fk] Fv]. destruct V as (V1 & V2 & V3).
    split; [|discriminate]. intros s. cbn [read write dflt]. rewrite <- app_assoc, size_read by auto.
    rewrite Nnat.Nat2N.id, Forall_forall in *.
    rewrite read_entries_ok.
    + rewrite fold_upsert_new; auto.
    + intros e d s' H. apply V1 in H. exact (proj2 (IHk Ok _ (proj1 H)) Fk d s').
    + intros e d s' H. apply V1 in H. exact (proj2 (IHv Ov _ (proj2 H)) Fv d s').
  - destruct V as (V1 & V2 & V3).
    assert (R : forall d s, read TFile d (write TFile x ++ s) = Some (x, s)).
    { intros d s. cbn [read write]. rewrite <- !app_assoc, read_num_ok by auto.
      rewrite !read_string_ok by auto. now destruct x. }
    split; intros; apply R.
  - destruct V as [V1 V2].
    assert (R : forall d s, read TPtr d (write TPtr x ++ s) = Some (x, s)).
    { intros d s. cbn [read write]. rewrite <- !app_assoc, !read_num_ok by auto. now destruct x. }
    split; intros; apply R.
  - apply andb_true_iff in O. destruct O as [O F]. destruct V as ((V1 & V2) & V3 & V4 & V5 & V6 & V7).
    assert (R : forall d s, read (TField t) d (write (TField t) x ++ s) = Some (x, s)).
    { intros d s. cbn [read write]. rewrite <- !app_assoc, !read_num_ok by auto.
      rewrite read_string_ok by auto. rewrite read_num_ok by auto. rewrite size_read by auto.
      rewrite Nnat.Nat2N.id, Forall_forall in *.
      rewrite read_insert_ok; auto.
      - destruct x as [g nm lc dt]; simpl. destruct g. reflexivity.
      - intros e d' s' H. apply V5 in H. exact (proj2 (IH O _ (proj2 H)) F d' s').
      - intros e H. now apply V5. }
    split; intros; apply R.
Qed.

(** Reading a map into a variable that holds something. *)
Lemma value_upsert : forall K V dec (k k' : K) (v : V) l,
  value_of dec k' (upsert dec k v l) = if dec k k' then Some v else value_of dec k' l.
Proof.
  induction l as [|[k1 v1] l IH]; simpl; auto.
  destruct (dec k1 k); subst; simpl.
  - destruct (dec k k'); auto.
  - destruct (dec k1 k'); subst; auto. destruct (dec k k'); congruence.
Qed.

Lemma value_notin : forall K V dec (k : K) (l : list (K * V)), ~ In k (map fst l) -> value_of dec k l = None.
Proof.
  induction l as [|[k1 v1] l IH]; simpl; intros; auto. destruct (dec k1 k); [exfalso; auto|auto].
Qed.

Lemma value_fold : forall K V dec (l var : list (K * V)) k, NoDup (map fst l) ->
  value_of dec k (fold_left (fun m e => upsert dec (fst e) (snd e) m) l var)
  = match value_of dec k l with Some v => Some v | None => value_of dec k var end.
Proof.
  induction l as [|[k1 v1] l IH]; intros var k N; simpl; auto.
  simpl in N. apply NoDup_cons_iff in N. destruct N as [N1 N2].
  rewrite IH, value_upsert by auto. destruct (dec k1 k); subst; auto.
  rewrite value_notin by auto. reflexivity.
Qed.

Lemma upsert_keys : forall K V dec (k : K) (v : V) l k', In k' (map fst (upsert dec k v l)) <-> k' = k \/ In k' (map fst l).
Proof.
  induction l as [|[k1 v1] l IH]; simpl; intros.
  - intuition.
  - destruct (dec k1 k); subst; simpl; [intuition|]. rewrite IH. intuition.
Qed.

Lemma upsert_nodup : forall K V dec (k : K) (v : V) l, NoDup (map fst l) -> NoDup (map fst (upsert dec k v l)).
Proof.
  induction l as [|[k1 v1] l IH]; simpl; intros N.
  - constructor; auto.
  - apply NoDup_cons_iff in N. destruct N. destruct (dec k1 k); simpl; constructor; auto.
    rewrite upsert_keys. intros [->|]; auto.
Qed.

Lemma fold_nodup : forall K V dec (l var : list (K * V)), NoDup (map fst var) ->
  NoDup (map fst (fold_left (fun m e => upsert dec (fst e) (snd e) m) l var)).
Proof. induction l; simpl; intros; auto. apply IHl. now apply upsert_nodup. Qed.

Lemma read_map_merges : forall k v, no_map_in_map (TMap k v) = true ->
  forall (m old : den (TMap k v)) s, valid (TMap k v) m -> NoDup (map fst old) ->
  exists r, read (TMap k v) old (write (TMap k v) m ++ s) = Some (r, s) /\
    NoDup (map fst r) /\
    forall x, value_of (den_dec k) x r =
      match value_of (den_dec k) x m with Some y => Some y | None => value_of (den_dec k) x old end.
Proof.
  intros k v O m old s (V1 & V2 & V3) No. cbn [no_map_in_map] in O. rewrite !andb_true_iff in O.
  destruct O as [[[Ok Ov] Fk] Fv].
  exists (fold_left (fun m e => upsert (den_dec k) (fst e) (snd e) m) m old).
  split; [|split].
  - cbn [read write]. rewrite <- app_assoc, size_read by auto. rewrite Nnat.Nat2N.id, Forall_forall in *.
    apply read_entries_ok.
    + intros e d s' H. apply V1 in H. exact (proj2 (read_write k Ok _ (proj1 H)) Fk d s').
    + intros e d s' H. apply V1 in H. exact (proj2 (read_write v Ov _ (proj2 H)) Fv d s').
  - now apply fold_nodup.
  - intros x. now apply value_fold.
Qed.

Lemma read_map_empty : forall k v, no_map_in_map (TMap k v) = true ->
  forall (m : den (TMap k v)) s, valid (TMap k v) m ->
  read (TMap k v) [] (write (TMap k v) m ++ s) = Some (m, s).
Proof. intros k v O m s V. exact (proj1 (read_write _ O m V) s). Qed.

(** ** Ports *)

Lemma deliver_ok : forall t v rest links, no_map_in_map t = true -> valid t v ->
  deliver t links (write t v ++ rest) = Some (map (fun r => (r, v)) (receivers links)).
Proof.
  intros t v rest links O V. induction links as [|[[o|] p] links IH]; simpl; auto.
  rewrite (proj1 (read_write t O v V)), IH. reflexivity.
Qed.

Lemma port_exec_ok : forall t links src pad buf v, no_map_in_map t = true ->
  value_sent src = Some v -> valid t v ->
  exists buf', port_exec t links src pad buf = Some (map (fun r => (r, v)) (receivers links), buf').
Proof.
  intros t links src pad buf v O S V. destruct links as [|l links].
  - exists buf. reflexivity.
  - exists (write_buffer t src pad buf). unfold port_exec.
    assert (W : exists rest, write_buffer t src pad buf = write t v ++ rest).
    { unfold write_buffer, value_sent, overwrite in *. destruct (getv src) as [g|]; [injection S as ->|rewrite S]; eauto. }
    destruct W as [rest ->]. now rewrite (deliver_ok t v rest (l :: links)).
Qed.

Lemma port_history_ok : forall t, no_map_in_map t = true -> forall h vs buf,
  Forall2 (fun x v => value_sent (s_src x) = Some v /\ valid t v) h vs ->
  port_history t h buf
  = Some (map (fun xv => map (fun r => (r, snd xv)) (receivers (s_links (fst xv)))) (combine h vs)).
Proof.
  intros t O h vs buf F. revert buf. induction F as [|x v h vs [H1 H2] F IH]; intros buf; simpl; auto.
  destruct (port_exec_ok t (s_links x) (s_src x) (s_pad x) buf v O H1 H2) as [buf' ->].
  now rewrite IH.
Qed.

Lemma port_types_ok : forallb no_map_in_map port_types = true.
Proof. reflexivity. Qed.

(** ** Truncated messages *)

Definition extends {A} (f : reader A) : Prop :=
  forall s x r q, f s = Some (x, r) -> f (s ++ q) = Some (x, r ++ q).

Lemma read_num_extends : forall w, extends (read_num w).
Proof.
  induction w as [|w IH]; intros s x r q H; simpl in *.
  - injection H as <- <-. reflexivity.
  - destruct s as [|b s]; [discriminate|]. simpl.
    destruct (read_num w s) as [[n s']|] eqn:E; [|discriminate].
    injection H as <- <-. now rewrite (IH _ _ _ q E).
Qed.

Lemma read_each_extends : forall A (f : A -> reader A), (forall d, extends (f d)) ->
  forall l, extends (read_each f l).
Proof.
  intros A f Hf. induction l as [|d l IH]; intros s x r q H; simpl in *.
  - injection H as <- <-. reflexivity.
  - destruct (f d s) as [[y s1]|] eqn:E; [|discriminate]. rewrite (Hf _ _ _ _ q E).
    destruct (read_each f l s1) as [[y2 s2]|] eqn:E2; [|discriminate]. rewrite (IH _ _ _ q E2).
    now injection H as <- <-.
Qed.

Lemma read_string_extends : extends read_string.
Proof.
  intros s x r q H. unfold read_string in *.
  destruct (read_num 8 s) as [[n s1]|] eqn:E; [|discriminate]. rewrite (read_num_extends _ _ _ _ q E).
  eapply read_each_extends; eauto. intros _. apply read_num_extends.
Qed.

Lemma read_entries_extends : forall K V dec (fk : K -> reader K) (fv : V -> reader V),
  (forall d, extends (fk d)) -> (forall d, extends (fv d)) ->
  forall n key val var, extends (read_entries dec fk fv n key val var).
Proof.
  intros K V dec fk fv Hk Hv. induction n as [|n IH]; intros key val var s x r q H; simpl in *.
  - now injection H as <- <-.
  - destruct (fk key s) as [[k1 s1]|] eqn:E; [|discriminate]. rewrite (Hk _ _ _ _ q E).
    destruct (fv val s1) as [[v1 s2]|] eqn:E2; [|discriminate]. rewrite (Hv _ _ _ _ q E2).
    now apply IH.
Qed.

Lemma read_insert_extends : forall V (fv : V -> reader V), (forall d, extends (fv d)) ->
  forall n val var, extends (read_insert fv n val var).
Proof.
  intros V fv Hv. induction n as [|n IH]; intros val var s x r q H; cbn [read_insert] in *.
  - now injection H as <- <-.
  - destruct (read_num 8 s) as [[k1 s1]|] eqn:E; [|discriminate]. rewrite (read_num_extends _ _ _ _ q E).
    destruct (fv val s1) as [[v1 s2]|] eqn:E2; [|discriminate]. rewrite (Hv _ _ _ _ q E2).
    destruct (existsb _ _); [discriminate|]. now apply IH.
Qed.

Lemma read_extends : forall t d, extends (read t d).
Proof.
  induction t as [w| |t IH|n t IH|a IHa b IHb|k IHk v IHv| | |t IH]; intros d s x r q H; cbn [read] in *.
  - now apply read_num_extends.
  - now apply read_string_extends.
  - destruct (read_num 8 s) as [[n s1]|] eqn:E; [|discriminate]. rewrite (read_num_extends _ _ _ _ q E).
    now apply read_each_extends.
  - now apply read_each_extends.
  - destruct (read a (dflt a) s) as [[y s1]|] eqn:E; [|discriminate]. rewrite (IHa _ _ _ _ q E).
    destruct (read b (dflt b) s1) as [[z s2]|] eqn:E2; [|discriminate]. rewrite (IHb _ _ _ _ q E2).
    now injection H as <- <-.
  - destruct (read_num 8 s) as [[n s1]|] eqn:E; [|discriminate]. rewrite (read_num_extends _ _ _ _ q E).
    now apply read_entries_extends.
  - destruct (read_num 4 s) as [[n s1]|] eqn:E; [|discriminate]. rewrite (read_num_extends _ _ _ _ q E).
    destruct (read_string s1) as [[y s2]|] eqn:E2; [|discriminate]. rewrite (read_string_extends _ _ _ q E2).
    destruct (read_string s2) as [[z s3]|] eqn:E3; [|discriminate]. rewrite (read_string_extends _ _ _ q E3).
    now injection H as <- <-.
  - destruct (read_num 8 s) as [[n s1]|] eqn:E; [|discriminate]. rewrite (read_num_extends _ _ _ _ q E).
    destruct (read_num 8 s1) as [[y s2]|] eqn:E2; [|discriminate]. rewrite (read_num_extends _ _ _ _ q E2).
    now injection H as <- <-.
  - destruct (read_num 8 s) as [[n s1]|] eqn:E; [|discriminate]. rewrite (read_num_extends _ _ _ _ q E).
    destruct (read_num 8 s1) as [[y s2]|] eqn:E2; [|discriminate]. rewrite (read_num_extends _ _ _ _ q E2).
    destruct (read_string s2) as [[z s3]|] eqn:E3; [|discriminate]. rewrite (read_string_extends _ _ _ q E3).
    destruct (read_num 4 s3) as [[u s4]|] eqn:E4; [|discriminate]. rewrite (read_num_extends _ _ _ _ q E4).
    destruct (read_num 8 s4) as [[m s5]|] eqn:E5; [|discriminate]. rewrite (read_num_extends _ _ _ _ q E5).
    destruct (read_insert _ _ _ _ s5) as [[l s6]|] eqn:E6; [|discriminate].
    rewrite (read_insert_extends _ _ IH _ _ _ _ _ _ q E6).
    now injection H as <- <-.
Qed.

Lemma truncated_fails : forall t, no_map_in_map t = true -> forall v, valid t v ->
  forall p q, write t v = p ++ q -> q <> [] -> read t (dflt t) p = None.
Proof.
  intros t O v V p q E Q. destruct (read t (dflt t) p) as [[x r]|] eqn:R; auto. exfalso.
  pose proof (read_extends t _ _ _ _ q R) as R'. rewrite <- E in R'.
  pose proof (proj1 (read_write t O v V) []) as R2. rewrite app_nil_r, R' in R2.
  injection R2 as _ H. apply app_eq_nil in H. tauto.
Qed.
