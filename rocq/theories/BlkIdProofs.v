(** Lemmas on the life of blocks. *)

From Coq Require Import ZArith Decimal DecimalString DecimalZ.
From Coq Require Import String List Bool Lia.
From Verif Require Import BlkId BlkIdSpec.
Import ListNotations.
Open Scope list_scope.
Local Open Scope Z_scope.

Lemma get_in : forall h l b, get h l = Some b -> In (h, b) l.
Proof.
  induction l as [|[k c] r IH]; intros b H; simpl in H; [discriminate|].
  destruct (Z.eqb_spec k h) as [E|N].
  - inversion H; subst. left; reflexivity.
  - right; auto.
Qed.

Lemma get_none : forall h l, get h l = None -> forall b, ~ In (h, b) l.
Proof.
  induction l as [|[k c] r IH]; intros H b I; simpl in *; [exact I|].
  destruct (Z.eqb_spec k h) as [E|N]; [discriminate|].
  destruct I as [I|I]; [inversion I; congruence|]. eapply IH; eauto.
Qed.

Lemma put_keys : forall h b l, map fst (put h b l) = map fst l.
Proof.
  induction l as [|[k c] r IH]; simpl; [reflexivity|].
  destruct (k =? h); simpl; congruence.
Qed.

Lemma in_put : forall h b l k c, NoDup (map fst l) ->
  (exists b0, In (h, b0) l) ->
  (In (k, c) (put h b l) <-> (k = h /\ c = b) \/ (k <> h /\ In (k, c) l)).
Proof.
  induction l as [|[k0 c0] r IH]; intros k c N [b0 E]; simpl in *;
    [contradiction|].
  inversion N as [|? ? NI N']; subst.
  destruct (Z.eqb_spec k0 h) as [Ek|Nk].
  - subst k0. simpl. split.
    + intros [I|I]; [inversion I; auto|]. right. split.
      * intros ->. apply NI. apply (in_map fst) in I. exact I.
      * right; exact I.
    + intros [[-> ->]|[Nh [I|I]]]; [left; reflexivity| |right; exact I].
      inversion I; subst; congruence.
  - destruct E as [E|E]; [inversion E; congruence|].
    simpl. rewrite (IH k c N' (ex_intro _ b0 E)). split.
    + intros [I|[I|[I1 I2]]]; [inversion I; subst; right; split; auto
                              |left; exact I|right; split; auto].
    + intros [I|[I1 [I2|I2]]]; [right; left; exact I|left; exact I2|].
      right; right; split; assumption.
Qed.

Lemma in_del : forall h l k c, NoDup (map fst l) ->
  (In (k, c) (del h l) <-> k <> h /\ In (k, c) l).
Proof.
  induction l as [|[k0 c0] r IH]; intros k c N; simpl in *; [tauto|].
  inversion N as [|? ? NI N']; subst.
  destruct (Z.eqb_spec k0 h) as [Ek|Nk].
  - subst k0. split.
    + intros I. split; [|right; exact I]. intros ->. apply NI.
      apply (in_map fst) in I. exact I.
    + intros [Nh [I|I]]; [inversion I; congruence|exact I].
  - simpl. rewrite (IH k c N'). split.
    + intros [I|[I1 I2]]; [inversion I; subst; auto|split; auto].
    + intros [I1 [I2|I2]]; [left; exact I2|right; split; assumption].
Qed.

Lemma del_nodup : forall h l, NoDup (map fst l) -> NoDup (map fst (del h l)).
Proof.
  induction l as [|[k0 c0] r IH]; intros N; simpl in *; [constructor|].
  inversion N as [|? ? NI N']; subst.
  destruct (k0 =? h); [exact N'|]. simpl. constructor; [|auto].
  intros I. apply in_map_iff in I. destruct I as [[k1 c1] [E I]].
  simpl in E; subst k1. apply in_del in I; [|exact N'].
  apply NI. destruct I as [_ I]. apply (in_map fst) in I. exact I.
Qed.

(** What holds along every history. *)
Record good (w : world) : Prop := Good {
  g_keys : NoDup (map fst (w_blks w));
  g_next : 1 <= w_next w;
  g_comm : forall h b, alive w h b -> b_comm b < w_comms w;
  g_comms : comms_distinct w }.

Record idgood (w : world) : Prop := IdGood {
  i_low : forall h b, alive w h b -> 1 <= b_id b < w_next w;
  i_ids : ids_distinct w }.

Lemma good0 : good w0.
Proof.
  constructor; simpl; [constructor|lia|intros h b []|].
  intros h k b c [].
Qed.

Lemma idgood0 : idgood w0.
Proof. constructor; [intros h b []|intros h k b c []]. Qed.

(** The same block, with its identity and its communicator, before an
    update. *)
Lemma update_good : forall h f w w',
  (forall b, b_comm (f b) = b_comm b) ->
  good w -> op_update h f w = Some w' -> good w'.
Proof.
  intros h f w w' F [K N C D] H. unfold op_update in H.
  destruct (get h (w_blks w)) as [b|] eqn:G; [|discriminate].
  inversion H; subst; clear H. pose proof (get_in _ _ _ G) as I.
  assert (P : forall k c, In (k, c) (put h (f b) (w_blks w)) ->
     exists c0, In (k, c0) (w_blks w) /\ b_comm c = b_comm c0).
  { intros k c J. apply in_put in J; [|exact K|exists b; exact I].
    destruct J as [[-> ->]|[_ J]]; [exists b; split; [exact I|apply F]|].
    exists c; split; [exact J|reflexivity]. }
  constructor; cbn [w_blks w_next w_comms].
  - rewrite put_keys. exact K.
  - exact N.
  - intros k c J. destruct (P k c J) as [c0 [J0 E]].
    cbn [w_comms]. rewrite E. exact (C _ _ J0).
  - intros k1 k2 c1 c2 J1 J2 E.
    destruct (P _ _ J1) as [d1 [L1 E1]], (P _ _ J2) as [d2 [L2 E2]].
    apply (D k1 k2 d1 d2 L1 L2). congruence.
Qed.

Lemma update_idgood : forall h f w w',
  (forall b, b_id (f b) = b_id b) ->
  good w -> idgood w -> op_update h f w = Some w' -> idgood w'.
Proof.
  intros h f w w' F [K N C D] [L U] H. unfold op_update in H.
  destruct (get h (w_blks w)) as [b|] eqn:G; [|discriminate].
  inversion H; subst; clear H. pose proof (get_in _ _ _ G) as I.
  assert (P : forall k c, In (k, c) (put h (f b) (w_blks w)) ->
     exists c0, In (k, c0) (w_blks w) /\ b_id c = b_id c0).
  { intros k c J. apply in_put in J; [|exact K|exists b; exact I].
    destruct J as [[-> ->]|[_ J]]; [exists b; split; [exact I|apply F]|].
    exists c; split; [exact J|reflexivity]. }
  constructor.
  - intros k c J. destruct (P k c J) as [c0 [J0 E]].
    cbn [w_next]. rewrite E. exact (L _ _ J0).
  - intros k1 k2 c1 c2 J1 J2 E.
    destruct (P _ _ J1) as [d1 [L1 E1]], (P _ _ J2) as [d2 [L2 E2]].
    apply (U k1 k2 d1 d2 L1 L2). congruence.
Qed.

(** The blocks after an exchange. *)
Lemma in_swap : forall h k b' o' l x c, NoDup (map fst l) -> h <> k ->
  (exists b, In (h, b) l) -> (exists o, In (k, o) l) ->
  (In (x, c) (put k o' (put h b' l)) <->
   (x = k /\ c = o') \/ (x = h /\ c = b') \/
   (x <> k /\ x <> h /\ In (x, c) l)).
Proof.
  intros h k b' o' l x c K D [b B] [o O].
  assert (K2 : NoDup (map fst (put h b' l))) by (rewrite put_keys; exact K).
  assert (O2 : exists z, In (k, z) (put h b' l)).
  { exists o. apply in_put; [exact K|exists b; exact B|].
    right; split; [congruence|exact O]. }
  rewrite (in_put k o' (put h b' l) x c K2 O2).
  rewrite (in_put h b' l x c K (ex_intro _ b B)).
  split.
  - intros [A|[A [[-> A2]|[A1 A2]]]]; [left; exact A|right; left; auto|].
    right; right; auto.
  - intros [A|[[-> ->]|[A1 [A2 A3]]]]; [left; exact A| |].
    + right; split; [exact D|left; auto].
    + right; split; [exact A1|right; auto].
Qed.

Lemma step_good : forall o w w', good w -> step o w = Some w' -> good w'.
Proof.
  intros o w w' G H. destruct o as [h|h k|h k|h k|h|h s|h l|h i|s|s];
    cbn [step] in H;
    try (eapply update_good; [|exact G|exact H]; reflexivity).
  - destruct G as [K N C D]. unfold op_new in H.
    destruct (get h (w_blks w)) eqn:E; [discriminate|].
    inversion H; subst; clear H.
    constructor; cbn [w_blks w_next w_comms].
    + cbn [map fst]. constructor; [|exact K]. intros I.
      apply in_map_iff in I. destruct I as [[k0 c0] [E0 I]].
      simpl in E0; subst k0. exact (get_none _ _ E _ I).
    + lia.
    + intros k c [J|J]; [inversion J; subst; simpl; lia|].
      specialize (C _ _ J). lia.
    + intros k1 k2 c1 c2 [J1|J1] [J2|J2] Q.
      * inversion J1; inversion J2; congruence.
      * inversion J1; subst. specialize (C _ _ J2). simpl in Q. lia.
      * inversion J2; subst. specialize (C _ _ J1). simpl in Q. lia.
      * exact (D _ _ _ _ J1 J2 Q).
  - destruct G as [K N C D]. unfold op_copy in H.
    destruct (get h (w_blks w)) eqn:E; [discriminate|].
    destruct (get k (w_blks w)) as [o|] eqn:E2; [|discriminate].
    inversion H; subst; clear H.
    constructor; cbn [w_blks w_next w_comms].
    + cbn [map fst]. constructor; [|exact K]. intros I.
      apply in_map_iff in I. destruct I as [[k0 c0] [E0 I]].
      simpl in E0; subst k0. exact (get_none _ _ E _ I).
    + lia.
    + intros x c [J|J]; [inversion J; subst; simpl; lia|].
      specialize (C _ _ J). lia.
    + intros k1 k2 c1 c2 [J1|J1] [J2|J2] Q.
      * inversion J1; inversion J2; congruence.
      * inversion J1; subst. specialize (C _ _ J2). simpl in Q. lia.
      * inversion J2; subst. specialize (C _ _ J1). simpl in Q. lia.
      * exact (D _ _ _ _ J1 J2 Q).
  - destruct G as [K N C D]. unfold op_assign in H.
    destruct (get h (w_blks w)) as [b|] eqn:E; [|discriminate].
    destruct (get k (w_blks w)) as [o|] eqn:E2; [|discriminate].
    inversion H; subst; clear H.
    pose proof (get_in _ _ _ E) as I.
    constructor; cbn [w_blks w_next w_comms].
    + rewrite put_keys. exact K.
    + exact N.
    + intros x c J. unfold alive in J; cbn [w_blks] in J.
      apply in_put in J; [|exact K|exists b; exact I].
      destruct J as [[-> ->]|[_ J]]; [simpl; lia|]. specialize (C _ _ J). lia.
    + intros k1 k2 c1 c2 J1 J2 Q. unfold alive in J1, J2; cbn [w_blks] in *.
      apply in_put in J1; [|exact K|exists b; exact I].
      apply in_put in J2; [|exact K|exists b; exact I].
      destruct J1 as [[-> ->]|[_ J1]], J2 as [[-> ->]|[_ J2]].
      * reflexivity.
      * specialize (C _ _ J2). simpl in Q. lia.
      * specialize (C _ _ J1). simpl in Q. lia.
      * exact (D _ _ _ _ J1 J2 Q).
  - pose proof G as [K N C D]. unfold op_swap in H.
    destruct (get h (w_blks w)) as [b|] eqn:E; [|discriminate].
    destruct (get k (w_blks w)) as [o|] eqn:E2; [|discriminate].
    destruct (Z.eqb_spec h k) as [Ehk|Nhk].
    { inversion H; subst. destruct w. exact G. }
    inversion H; subst; clear H.
    pose proof (get_in _ _ _ E) as I. pose proof (get_in _ _ _ E2) as I2.
    constructor; cbn [w_blks w_next w_comms].
    + rewrite !put_keys. exact K.
    + exact N.
    + intros x c J. unfold alive in J; cbn [w_blks] in J.
      apply in_swap in J; [|exact K|exact Nhk|exists b; exact I|exists o; exact I2].
      destruct J as [[-> ->]|[[-> ->]|[_ [_ J]]]]; cbn [b_comm].
      * exact (C _ _ I).
      * exact (C _ _ I2).
      * exact (C _ _ J).
    + intros k1 k2 c1 c2 J1 J2 Q. unfold alive in J1, J2; cbn [w_blks] in *.
      apply in_swap in J1; [|exact K|exact Nhk|exists b; exact I|exists o; exact I2].
      apply in_swap in J2; [|exact K|exact Nhk|exists b; exact I|exists o; exact I2].
      destruct J1 as [[-> ->]|[[-> ->]|[A1 [B1 J1]]]],
               J2 as [[-> ->]|[[-> ->]|[A2 [B2 J2]]]]; cbn [b_comm] in Q;
        try reflexivity.
      * exfalso. apply Nhk. exact (D _ _ _ _ I I2 Q).
      * exfalso. apply B2. symmetry. exact (D _ _ _ _ I J2 Q).
      * exfalso. apply Nhk. symmetry. exact (D _ _ _ _ I2 I Q).
      * exfalso. apply A2. symmetry. exact (D _ _ _ _ I2 J2 Q).
      * exfalso. apply B1. exact (D _ _ _ _ J1 I Q).
      * exfalso. apply A1. exact (D _ _ _ _ J1 I2 Q).
      * exact (D _ _ _ _ J1 J2 Q).
  - destruct G as [K N C D]. unfold op_destroy in H.
    destruct (get h (w_blks w)) as [b|] eqn:E; [|discriminate].
    inversion H; subst; clear H.
    constructor; cbn [w_blks w_next w_comms].
    + apply del_nodup. exact K.
    + exact N.
    + intros x c J. unfold alive in J; cbn [w_blks] in J.
      apply in_del in J; [|exact K]. exact (C _ _ (proj2 J)).
    + intros k1 k2 c1 c2 J1 J2 Q. unfold alive in J1, J2; cbn [w_blks] in *.
      apply in_del in J1; [|exact K]. apply in_del in J2; [|exact K].
      exact (D _ _ _ _ (proj2 J1) (proj2 J2) Q).
  - inversion H; subst. unfold op_logger. destruct (w_next w >? 1); [exact G|].
    destruct G as [K N C D]. constructor; assumption.
  - inversion H; subst. unfold op_logdir. destruct (w_next w >? 1); [exact G|].
    destruct G as [K N C D]. constructor; assumption.
Qed.

Lemma step_idgood : forall o w w', (forall h i, o <> OSetId h i) ->
  good w -> idgood w -> step o w = Some w' -> idgood w'.
Proof.
  intros o w w' NS G Q H. destruct o as [h|h k|h k|h k|h|h s|h l|h i|s|s];
    cbn [step] in H;
    try (eapply update_idgood; [|exact G|exact Q|exact H]; reflexivity).
  - destruct Q as [L U]. destruct G as [K N C D]. unfold op_new in H.
    destruct (get h (w_blks w)) eqn:E; [discriminate|].
    inversion H; subst; clear H. constructor; cbn [w_next].
    + intros x c [J|J]; [inversion J; subst; simpl; lia|].
      specialize (L _ _ J). lia.
    + intros k1 k2 c1 c2 [J1|J1] [J2|J2] P.
      * inversion J1; inversion J2; congruence.
      * inversion J1; subst. specialize (L _ _ J2). simpl in P. lia.
      * inversion J2; subst. specialize (L _ _ J1). simpl in P. lia.
      * exact (U _ _ _ _ J1 J2 P).
  - destruct Q as [L U]. destruct G as [K N C D]. unfold op_copy in H.
    destruct (get h (w_blks w)) eqn:E; [discriminate|].
    destruct (get k (w_blks w)) as [o|] eqn:E2; [|discriminate].
    inversion H; subst; clear H. constructor; cbn [w_next].
    + intros x c [J|J]; [inversion J; subst; simpl; lia|].
      specialize (L _ _ J). lia.
    + intros k1 k2 c1 c2 [J1|J1] [J2|J2] P.
      * inversion J1; inversion J2; congruence.
      * inversion J1; subst. specialize (L _ _ J2). simpl in P. lia.
      * inversion J2; subst. specialize (L _ _ J1). simpl in P. lia.
      * exact (U _ _ _ _ J1 J2 P).
  - unfold op_assign in H.
    destruct (get h (w_blks w)) as [b|] eqn:E; [|discriminate].
    destruct (get k (w_blks w)) as [o|] eqn:E2; [|discriminate].
    inversion H; subst; clear H. destruct Q as [L U].
    destruct G as [K N C D]. pose proof (get_in _ _ _ E) as I.
    constructor; cbn [w_next].
    + intros x c J. unfold alive in J; cbn [w_blks] in J.
      apply in_put in J; [|exact K|exists b; exact I].
      destruct J as [[-> ->]|[_ J]]; cbn [b_id]; [exact (L _ _ I)|exact (L _ _ J)].
    + intros k1 k2 c1 c2 J1 J2 P. unfold alive in J1, J2; cbn [w_blks] in *.
      apply in_put in J1; [|exact K|exists b; exact I].
      apply in_put in J2; [|exact K|exists b; exact I].
      destruct J1 as [[-> ->]|[A1 J1]], J2 as [[-> ->]|[A2 J2]];
        cbn [b_id] in P.
      * reflexivity.
      * exact (U _ _ _ _ I J2 P).
      * exact (U _ _ _ _ J1 I P).
      * exact (U _ _ _ _ J1 J2 P).
  - unfold op_swap in H.
    destruct (get h (w_blks w)) as [b|] eqn:E; [|discriminate].
    destruct (get k (w_blks w)) as [o|] eqn:E2; [|discriminate].
    destruct (Z.eqb_spec h k) as [Ehk|Nhk].
    { inversion H; subst. destruct Q as [L U]. constructor; assumption. }
    inversion H; subst; clear H. destruct Q as [L U].
    destruct G as [K N C D].
    pose proof (get_in _ _ _ E) as I. pose proof (get_in _ _ _ E2) as I2.
    constructor; cbn [w_next].
    + intros x c J. unfold alive in J; cbn [w_blks] in J.
      apply in_swap in J; [|exact K|exact Nhk|exists b; exact I|exists o; exact I2].
      destruct J as [[-> ->]|[[-> ->]|[_ [_ J]]]]; cbn [b_id].
      * exact (L _ _ I2).
      * exact (L _ _ I).
      * exact (L _ _ J).
    + intros k1 k2 c1 c2 J1 J2 P. unfold alive in J1, J2; cbn [w_blks] in *.
      apply in_swap in J1; [|exact K|exact Nhk|exists b; exact I|exists o; exact I2].
      apply in_swap in J2; [|exact K|exact Nhk|exists b; exact I|exists o; exact I2].
      destruct J1 as [[-> ->]|[[-> ->]|[A1 [B1 J1]]]],
               J2 as [[-> ->]|[[-> ->]|[A2 [B2 J2]]]]; cbn [b_id] in P;
        try reflexivity.
      * exact (U _ _ _ _ I2 I P).
      * exact (U _ _ _ _ I2 J2 P).
      * exact (U _ _ _ _ I I2 P).
      * exact (U _ _ _ _ I J2 P).
      * exact (U _ _ _ _ J1 I2 P).
      * exact (U _ _ _ _ J1 I P).
      * exact (U _ _ _ _ J1 J2 P).
  - unfold op_destroy in H.
    destruct (get h (w_blks w)) as [b|] eqn:E; [|discriminate].
    inversion H; subst; clear H. destruct Q as [L U].
    destruct G as [K N C D]. constructor; cbn [w_next].
    + intros x c J. unfold alive in J; cbn [w_blks] in J.
      apply in_del in J; [|exact K]. exact (L _ _ (proj2 J)).
    + intros k1 k2 c1 c2 J1 J2 P. unfold alive in J1, J2; cbn [w_blks] in *.
      apply in_del in J1; [|exact K]. apply in_del in J2; [|exact K].
      exact (U _ _ _ _ (proj2 J1) (proj2 J2) P).
  - exfalso. exact (NS _ _ eq_refl).
  - inversion H; subst. unfold op_logger. destruct (w_next w >? 1); [exact Q|].
    destruct Q as [L U]. constructor; assumption.
  - inversion H; subst. unfold op_logdir. destruct (w_next w >? 1); [exact Q|].
    destruct Q as [L U]. constructor; assumption.
Qed.

Lemma run_good : forall os w w', good w -> run os w = Some w' -> good w'.
Proof.
  induction os as [|o r IH]; intros w w' G H; simpl in H;
    [inversion H; subst; exact G|].
  destruct (step o w) as [w1|] eqn:E; [|discriminate].
  eapply IH; [|exact H]. eapply step_good; eauto.
Qed.

Lemma run_idgood : forall os w w', no_set_id os -> good w -> idgood w ->
  run os w = Some w' -> idgood w'.
Proof.
  induction os as [|o r IH]; intros w w' NS G Q H; simpl in H;
    [inversion H; subst; exact Q|].
  destruct (step o w) as [w1|] eqn:E; [|discriminate].
  apply (IH w1 w'); [|eapply step_good; eauto| |exact H].
  - intros h i I. apply (NS h i). right; exact I.
  - eapply step_idgood; [|exact G|exact Q|exact E].
    intros h i ->. apply (NS h i). left; reflexivity.
Qed.

Lemma run_app : forall xs ys w,
  run (xs ++ ys) w =
  match run xs w with Some w' => run ys w' | None => None end.
Proof.
  induction xs as [|x r IH]; intros ys w; simpl; [reflexivity|].
  destruct (step x w); [apply IH|reflexivity].
Qed.

Lemma in_get : forall h l b, NoDup (map fst l) -> In (h, b) l ->
  get h l = Some b.
Proof.
  intros h l b N I. destruct (get h l) as [c|] eqn:G.
  - pose proof (get_in _ _ _ G) as J. f_equal. clear G.
    induction l as [|[k0 c0] r IH]; [contradiction|].
    inversion N as [|? ? NI N']; subst.
    destruct I as [I|I], J as [J|J].
    + congruence.
    + inversion I; subst. exfalso. apply NI.
      apply (in_map fst) in J. exact J.
    + inversion J; subst. exfalso. apply NI.
      apply (in_map fst) in I. exact I.
    + auto.
  - exfalso. exact (get_none _ _ G _ I).
Qed.

(** The decimal digits tell the number. *)
Lemma digits_inj : forall x y,
  NilZero.string_of_int (Z.to_int x) = NilZero.string_of_int (Z.to_int y) ->
  x = y.
Proof.
  assert (A : forall z, Z.to_int z <> Pos Nil /\ Z.to_int z <> Neg Nil).
  { intros z. pose proof (to_of (Z.to_int z)) as T. rewrite of_to in T.
    split; intros E; rewrite E in T; discriminate T. }
  intros x y E. apply to_int_inj.
  destruct (A x) as [A1 A2], (A y) as [B1 B2].
  pose proof (NilZero.isi _ A1 A2) as P. pose proof (NilZero.isi _ B1 B2) as Q.
  rewrite E, Q in P. congruence.
Qed.
