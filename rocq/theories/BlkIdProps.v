(** C174, C175, C176: identities, logger and communicators of the blocks. *)

From Coq Require Import ZArith Decimal DecimalString DecimalZ.
From Coq Require Import String List Bool Lia.
From Verif Require Import BlkId BlkIdSpec BlkIdProofs.
Import ListNotations.
Open Scope list_scope.
Local Open Scope Z_scope.

(** ** C174 *)

(** Whatever is made, copied, assigned, exchanged and destroyed, two blocks
    alive never have the same identity. *)
Theorem C174_unique : forall os w,
  no_set_id os -> run os w0 = Some w -> ids_distinct w.
Proof.
  intros os w NS H. apply (i_ids w).
  exact (run_idgood os w0 w NS good0 idgood0 H).
Qed.
Print Assumptions C174_unique.

Lemma step_next : forall o w w', step o w = Some w' ->
  w_next w' = w_next w + (if makes o then 1 else 0).
Proof.
  intros o w w' H.
  destruct o as [h|h k|h k|h k|h|h s|h l|h i|s|s]; cbn [step makes] in *.
  - unfold op_new in H. destruct (get h (w_blks w)); inversion H. reflexivity.
  - unfold op_copy in H. destruct (get h (w_blks w)); [discriminate|].
    destruct (get k (w_blks w)); inversion H. reflexivity.
  - unfold op_assign in H. destruct (get h (w_blks w)); [|discriminate].
    destruct (get k (w_blks w)); inversion H. cbn [w_next]. lia.
  - unfold op_swap in H. destruct (get h (w_blks w)); [|discriminate].
    destruct (get k (w_blks w)); inversion H. cbn [w_next]. lia.
  - unfold op_destroy in H. destruct (get h (w_blks w)); inversion H.
    cbn [w_next]. lia.
  - unfold op_update in H. destruct (get h (w_blks w)); inversion H.
    cbn [w_next]. lia.
  - unfold op_update in H. destruct (get h (w_blks w)); inversion H.
    cbn [w_next]. lia.
  - unfold op_update in H. destruct (get h (w_blks w)); inversion H.
    cbn [w_next]. lia.
  - inversion H. unfold op_logger. destruct (w_next w >? 1); cbn [w_next]; lia.
  - inversion H. unfold op_logdir. destruct (w_next w >? 1); cbn [w_next]; lia.
Qed.

Lemma run_next : forall os w w', run os w = Some w' -> w_next w <= w_next w'.
Proof.
  induction os as [|o r IH]; intros w w' H; simpl in H;
    [inversion H; lia|].
  destruct (step o w) as [w1|] eqn:E; [|discriminate].
  specialize (IH _ _ H). pose proof (step_next _ _ _ E) as S1.
  destruct (makes o); lia.
Qed.

(** The identity of a block, even of one destroyed since, is never given
    again to a block made or copied later. *)
Theorem C174_never_reused : forall os1 os2 w1 w w' o h k b b',
  no_set_id os1 -> run os1 w0 = Some w1 -> alive w1 h b ->
  run os2 w1 = Some w ->
  (o = ONew k \/ exists m, o = OCopy k m) ->
  step o w = Some w' -> alive w' k b' ->
  b_id b < b_id b'.
Proof.
  intros os1 os2 w1 w w' o h k b b' NS H1 A H2 O S1 A'.
  pose proof (run_good _ _ _ good0 H1) as G1.
  pose proof (i_low _ (run_idgood os1 w0 w1 NS good0 idgood0 H1) _ _ A) as L.
  pose proof (run_next _ _ _ H2) as M.
  assert (E : b_id b' = w_next w).
  { destruct O as [->|[m ->]]; cbn [step] in S1.
    - unfold op_new in S1. destruct (get k (w_blks w)) eqn:E; [discriminate|].
      inversion S1; subst. destruct A' as [A'|A'];
        [inversion A'; reflexivity|]. exfalso. exact (get_none _ _ E _ A').
    - unfold op_copy in S1. destruct (get k (w_blks w)) eqn:E; [discriminate|].
      destruct (get m (w_blks w)); inversion S1; subst.
      destruct A' as [A'|A'];
        [inversion A'; reflexivity|]. exfalso. exact (get_none _ _ E _ A'). }
  lia.
Qed.
Print Assumptions C174_never_reused.

(** A copy takes the settings of the block it is made from, and none of its
    links; all the blocks already there stay as they were. *)
Theorem C174_copied : forall os w w' h k o,
  run os w0 = Some w -> alive w k o -> step (OCopy h k) w = Some w' ->
  (exists b, alive w' h b /\ b_set b = b_set o /\ b_links b = []
             /\ b_built b = false) /\
  (forall x c, alive w x c -> alive w' x c).
Proof.
  intros os w w' h k o H A S1. pose proof (run_good _ _ _ good0 H) as G.
  pose proof (in_get _ _ _ (g_keys _ G) A) as E.
  cbn [step] in S1. unfold op_copy in S1. rewrite E in S1.
  destruct (get h (w_blks w)); [discriminate|]. inversion S1; subst.
  split; [|intros x c J; right; exact J].
  eexists. split; [left; reflexivity|]. auto.
Qed.
Print Assumptions C174_copied.

(** An assignment takes the settings of the block on its right; the identity,
    the links and the log of the block on its left stay, and every other
    block stays as it was. *)
Theorem C174_assigned : forall os w w' h k b o,
  run os w0 = Some w -> alive w h b -> alive w k o ->
  step (OAssign h k) w = Some w' ->
  (exists b', alive w' h b' /\ b_set b' = b_set o /\ b_id b' = b_id b
              /\ b_links b' = b_links b /\ b_built b' = b_built b
              /\ b_log b' = b_log b) /\
  (forall x c, x <> h -> (alive w' x c <-> alive w x c)).
Proof.
  intros os w w' h k b o H A B S1. pose proof (run_good _ _ _ good0 H) as G.
  pose proof (in_get _ _ _ (g_keys _ G) A) as E.
  pose proof (in_get _ _ _ (g_keys _ G) B) as F.
  cbn [step] in S1. unfold op_assign in S1. rewrite E, F in S1.
  inversion S1; subst; clear S1. unfold alive; cbn [w_blks]. split.
  - eexists. split; [|cbn; auto 10].
    + apply in_put; [exact (g_keys _ G)|exists b; exact A|].
      left. split; reflexivity.
    + cbn. auto 10.
  - intros x c N. rewrite in_put; [|exact (g_keys _ G)|exists b; exact A].
    tauto.
Qed.
Print Assumptions C174_assigned.

(** An exchange exchanges the settings, and only them: identities, links and
    logs stay with their blocks, and the other blocks stay as they were. *)
Theorem C174_swapped : forall os w w' h k b o,
  run os w0 = Some w -> h <> k -> alive w h b -> alive w k o ->
  step (OSwap h k) w = Some w' ->
  (exists b' o', alive w' h b' /\ alive w' k o' /\
     b_set b' = b_set o /\ b_set o' = b_set b /\
     b_id b' = b_id b /\ b_id o' = b_id o /\
     b_links b' = b_links b /\ b_links o' = b_links o /\
     b_built b' = b_built b /\ b_built o' = b_built o /\
     b_log b' = b_log b /\ b_log o' = b_log o) /\
  (forall x c, x <> h -> x <> k -> (alive w' x c <-> alive w x c)).
Proof.
  intros os w w' h k b o H D A B S1. pose proof (run_good _ _ _ good0 H) as G.
  pose proof (in_get _ _ _ (g_keys _ G) A) as E.
  pose proof (in_get _ _ _ (g_keys _ G) B) as F.
  cbn [step] in S1. unfold op_swap in S1. rewrite E, F in S1.
  destruct (Z.eqb_spec h k) as [X|_]; [contradiction|].
  inversion S1; subst; clear S1. unfold alive; cbn [w_blks]. split.
  - eexists. eexists. split; [|split].
    + apply in_swap; [exact (g_keys _ G)|exact D|exists b; exact A
                     |exists o; exact B|]. right; left. split; reflexivity.
    + apply in_swap; [exact (g_keys _ G)|exact D|exists b; exact A
                     |exists o; exact B|]. left. split; reflexivity.
    + cbn. auto 20.
  - intros x c N1 N2.
    rewrite in_swap; [|exact (g_keys _ G)|exact D|exists b; exact A
                     |exists o; exact B]. tauto.
Qed.
Print Assumptions C174_swapped.

Lemma append_inj : forall p x y, append p x = append p y -> x = y.
Proof. induction p as [|a p IH]; simpl; intros x y H; [exact H|].
  inversion H. auto. Qed.

(** Two blocks with the same name and directory write different files. *)
Theorem C174_files : forall os w h k b c,
  no_set_id os -> run os w0 = Some w -> alive w h b -> alive w k c ->
  s_name (b_set b) = s_name (b_set c) ->
  s_outdir (b_set b) = s_outdir (b_set c) ->
  h <> k -> file_of b <> file_of c.
Proof.
  intros os w h k b c NS H A B N O D E. apply D.
  apply (C174_unique os w NS H h k b c A B).
  unfold file_of in E. rewrite N, O in E.
  apply append_inj in E. apply append_inj in E. apply digits_inj. exact E.
Qed.
Print Assumptions C174_files.

(** An identity forced by the user can be given to another block too. *)
Theorem C174_forced_refuted :
  ~ (forall os w, run os w0 = Some w -> ids_distinct w).
Proof.
  intros X.
  pose proof (X [ONew 10; OSetId 10 2; ONew 20] _ eq_refl 10 20
                _ _ (or_intror (or_introl eq_refl)) (or_introl eq_refl)
                eq_refl) as Y.
  discriminate Y.
Qed.
Print Assumptions C174_forced_refuted.

(** With different names, two blocks can write the same file: the block named
    "a1" made as second and the block named "a" made as twelfth both write
    a12. *)
Definition twelve : list op :=
  [ONew 1; ONew 2; ONew 3; ONew 4; ONew 5; ONew 6; ONew 7; ONew 8; ONew 9;
   ONew 10; ONew 11; ONew 12;
   OSet 2 (Settings 0 "a1" None 0 true true false ".");
   OSet 12 (Settings 0 "a" None 0 true true false ".")].

Theorem C174_files_refuted :
  ~ (forall os w h k b c,
       no_set_id os -> run os w0 = Some w -> alive w h b -> alive w k c ->
       h <> k -> file_of b <> file_of c).
Proof.
  intros X.
  assert (NS : no_set_id twelve).
  { intros h i I. unfold twelve in I. simpl in I.
    repeat (destruct I as [I|I]; [discriminate I|]). exact I. }
  destruct (run twelve w0) as [w|] eqn:R; [|vm_compute in R; discriminate R].
  destruct (get 2 (w_blks w)) as [b|] eqn:B;
    [|vm_compute in R; inversion R; subst; vm_compute in B; discriminate B].
  destruct (get 12 (w_blks w)) as [c|] eqn:C;
    [|vm_compute in R; inversion R; subst; vm_compute in C; discriminate C].
  apply (X twelve w 2 12 b c NS R (get_in _ _ _ B) (get_in _ _ _ C)); [lia|].
  vm_compute in R. inversion R; subst.
  vm_compute in B, C. inversion B; inversion C; subst. vm_compute. reflexivity.
Qed.
Print Assumptions C174_files_refuted.

(** Blocks made, copied, assigned, exchanged and destroyed. *)
Definition ex_ops : list op :=
  [OLogger "one"; OLogdir "logs"; ONew 7; OLink 7 [4; 5];
   OSet 7 (Settings 3 "mesh" (Some 99) 0 true true false "out");
   OCopy 8 7; ONew 9; OAssign 9 8; OSwap 7 9; ODestroy 8; OCopy 8 9;
   OLogger "two"].

Example C174_nonvacuous : no_set_id ex_ops /\
  exists w, run ex_ops w0 = Some w /\
    map (fun p => (fst p, (b_id (snd p), b_links (snd p), b_comm (snd p))))
        (w_blks w)
    = [(8, (4, [], 4)); (9, (3, [], 0)); (7, (1, [4; 5], 3))].
Proof.
  split.
  - intros h i I. unfold ex_ops in I. simpl in I.
    repeat (destruct I as [I|I]; [discriminate I|]). exact I.
  - eexists. split; vm_compute; reflexivity.
Qed.

(** ** C175 *)

(** Once a block has been made the names of the logger are settled. *)
Definition settled (f d : string) (w : world) : Prop :=
  1 < w_next w /\ w_logfile w = f /\ w_logdir w = d /\
  w_opened w = Some (f, d) /\ (forall h b, alive w h b -> b_log b = f) /\
  good w.

Lemma put_log : forall h b l k c, NoDup (map fst l) ->
  In (h, b) l -> forall b', b_log b' = b_log b -> forall f,
  (forall x y, In (x, y) l -> b_log y = f) ->
  In (k, c) (put h b' l) -> b_log c = f.
Proof.
  intros h b l k c N I b' E f F J.
  apply in_put in J; [|exact N|exists b; exact I].
  destruct J as [[-> ->]|[_ J]]; [rewrite E|]; eauto.
Qed.

Lemma step_settled : forall f d o w w',
  settled f d w -> step o w = Some w' -> settled f d w'.
Proof.
  intros f d o w w' (N & F & D & O & L & G) H.
  pose proof (step_good _ _ _ G H) as G'.
  pose proof (step_next _ _ _ H) as NX.
  assert (N' : 1 < w_next w') by (destruct (makes o); lia).
  pose proof (g_keys _ G) as K.
  assert (Q : w_logfile w' = f /\ w_logdir w' = d /\
              w_opened w' = Some (f, d) /\
              (forall h b, alive w' h b -> b_log b = f));
    [|unfold settled; tauto].
  clear NX N' G'.
  destruct o as [h|h k|h k|h k|h|h s|h l|h i|s|s]; cbn [step] in H.
  - unfold op_new in H. destruct (get h (w_blks w)); inversion H; subst.
    cbn [w_logfile w_logdir w_opened].
    destruct (Z.eqb_spec (w_next w) 1) as [E|_]; [lia|].
    repeat split; auto. intros x c [J|J]; [inversion J; reflexivity|eauto].
  - unfold op_copy in H. destruct (get h (w_blks w)); [discriminate|].
    destruct (get k (w_blks w)); inversion H; subst.
    repeat split; auto. intros x c [J|J]; [inversion J; reflexivity|eauto].
  - unfold op_assign in H. destruct (get h (w_blks w)) as [b|] eqn:E;
      [|discriminate].
    destruct (get k (w_blks w)); inversion H; subst.
    repeat split; auto. intros x c J.
    eapply put_log; [exact K|exact (get_in _ _ _ E)| |exact L|exact J].
    reflexivity.
  - unfold op_swap in H. destruct (get h (w_blks w)) as [b|] eqn:E;
      [|discriminate].
    destruct (get k (w_blks w)) as [o|] eqn:E2; [|discriminate].
    destruct (Z.eqb_spec h k) as [X|X]; inversion H; subst;
      repeat split; auto.
    intros x c J. unfold alive in J; cbn [w_blks] in J.
    apply in_swap in J; [|exact K|exact X|exists b; apply get_in; exact E
                        |exists o; apply get_in; exact E2].
    destruct J as [[-> ->]|[[-> ->]|[_ [_ J]]]]; cbn [b_log].
    + exact (L _ _ (get_in _ _ _ E2)).
    + exact (L _ _ (get_in _ _ _ E)).
    + exact (L _ _ J).
  - unfold op_destroy in H. destruct (get h (w_blks w)); inversion H; subst.
    repeat split; auto. intros x c J. unfold alive in J; cbn [w_blks] in J.
    apply in_del in J; [|exact K]. exact (L _ _ (proj2 J)).
  - unfold op_update in H. destruct (get h (w_blks w)) as [b|] eqn:E;
      inversion H; subst. repeat split; auto. intros x c J.
    eapply put_log; [exact K|exact (get_in _ _ _ E)| |exact L|exact J].
    reflexivity.
  - unfold op_update in H. destruct (get h (w_blks w)) as [b|] eqn:E;
      inversion H; subst. repeat split; auto. intros x c J.
    eapply put_log; [exact K|exact (get_in _ _ _ E)| |exact L|exact J].
    reflexivity.
  - unfold op_update in H. destruct (get h (w_blks w)) as [b|] eqn:E;
      inversion H; subst. repeat split; auto. intros x c J.
    eapply put_log; [exact K|exact (get_in _ _ _ E)| |exact L|exact J].
    reflexivity.
  - unfold op_logger in H. destruct (Z.gtb_spec (w_next w) 1); [|lia].
    inversion H; subst. auto.
  - unfold op_logdir in H. destruct (Z.gtb_spec (w_next w) 1); [|lia].
    inversion H; subst. auto.
Qed.

Lemma run_settled : forall f d os w w',
  settled f d w -> run os w = Some w' -> settled f d w'.
Proof.
  induction os as [|o r IH]; intros w w' S1 H; simpl in H;
    [inversion H; subst; exact S1|].
  destruct (step o w) as [w1|] eqn:E; [|discriminate].
  eapply IH; [|exact H]. eapply step_settled; eauto.
Qed.

Lemma run_log : forall os f d n w',
  run os (World 1 f d None n []) = Some w' ->
  (w' = World 1 (asked_file f os) (asked_dir d os) None n [] \/
   settled (asked_file f os) (asked_dir d os) w').
Proof.
  induction os as [|o r IH]; intros f d n w' H; simpl in H.
  - inversion H. left; reflexivity.
  - destruct o as [h|h k|h k|h k|h|h s|h l|h i|s|s]; simpl in H;
      try discriminate; cbn [asked_file asked_dir].
    + right. eapply run_settled; [|exact H].
      unfold settled; cbn [w_next w_logfile w_logdir w_opened].
      repeat split; try reflexivity.
      * intros x c [J|[]]. inversion J. reflexivity.
      * cbn. constructor; [intros []|constructor].
      * cbn. lia.
      * intros x c [J|[]]. inversion J. cbn. lia.
      * intros k1 k2 c1 c2 [J1|[]] [J2|[]] _. inversion J1; inversion J2.
        congruence.
    + exact (IH _ _ _ _ H).
    + exact (IH _ _ _ _ H).
Qed.

(** Every block writes in the log that was asked for last before the first
    block was made, and this is the log that was opened, in the directory
    asked for last before the first block was made. *)
Theorem C175_log : forall os w h b,
  run os w0 = Some w -> alive w h b ->
  b_log b = asked_file "mimmo" os /\
  w_opened w = Some (asked_file "mimmo" os, asked_dir "." os).
Proof.
  intros os w h b H A. destruct (run_log _ _ _ _ _ H) as [E|S1].
  - subst w. destruct A.
  - destruct S1 as (_ & _ & _ & O & L & _). split; [exact (L _ _ A)|exact O].
Qed.
Print Assumptions C175_log.

(** Settings asked for after a block has been made change nothing, even if all
    the blocks have been destroyed since. *)
Theorem C175_too_late : forall os w o s,
  run os w0 = Some w -> (exists h, In (ONew h) os) ->
  (o = OLogger s \/ o = OLogdir s) -> step o w = Some w.
Proof.
  intros os w o s H [h I] O.
  assert (N : 1 < w_next w).
  { apply in_split in I. destruct I as (a & c & ->).
    rewrite run_app in H. destruct (run a w0) as [w1|] eqn:E; [|discriminate].
    pose proof (g_next _ (run_good _ _ _ good0 E)) as P.
    cbn [run] in H. destruct (step (ONew h) w1) as [w2|] eqn:E2;
      [|discriminate].
    pose proof (step_next _ _ _ E2) as Q. cbn [makes] in Q.
    pose proof (run_next _ _ _ H) as R. lia. }
  destruct O as [-> | ->]; cbn [step]; unfold op_logger, op_logdir;
    (destruct (Z.gtb_spec (w_next w) 1); [reflexivity|lia]).
Qed.
Print Assumptions C175_too_late.

Example C175_nonvacuous :
  exists w, run ex_ops w0 = Some w /\ w_opened w = Some ("one", "logs")%string
    /\ map (fun p => b_log (snd p)) (w_blks w) = ["one"; "one"; "one"]%string.
Proof. eexists. split; [|split]; vm_compute; reflexivity. Qed.

(** ** C176 *)

(** No two blocks share a communicator, whatever has been copied, assigned or
    exchanged: what one block sends is never received by another. *)
Theorem C176_own : forall os w, run os w0 = Some w -> comms_distinct w.
Proof.
  intros os w H. exact (g_comms _ (run_good _ _ _ good0 H)).
Qed.
Print Assumptions C176_own.

Lemma step_comms : forall o w w', step o w = Some w' ->
  w_comms w' = w_comms w + (if duplicates o then 1 else 0).
Proof.
  intros o w w' H.
  destruct o as [h|h k|h k|h k|h|h s|h l|h i|s|s]; cbn [step duplicates] in *.
  - unfold op_new in H. destruct (get h (w_blks w)); inversion H. reflexivity.
  - unfold op_copy in H. destruct (get h (w_blks w)); [discriminate|].
    destruct (get k (w_blks w)); inversion H. reflexivity.
  - unfold op_assign in H. destruct (get h (w_blks w)); [|discriminate].
    destruct (get k (w_blks w)); inversion H. reflexivity.
  - unfold op_swap in H. destruct (get h (w_blks w)); [|discriminate].
    destruct (get k (w_blks w)); inversion H. cbn [w_comms]. lia.
  - unfold op_destroy in H. destruct (get h (w_blks w)); inversion H.
    cbn [w_comms]. lia.
  - unfold op_update in H. destruct (get h (w_blks w)); inversion H.
    cbn [w_comms]. lia.
  - unfold op_update in H. destruct (get h (w_blks w)); inversion H.
    cbn [w_comms]. lia.
  - unfold op_update in H. destruct (get h (w_blks w)); inversion H.
    cbn [w_comms]. lia.
  - inversion H. unfold op_logger. destruct (w_next w >? 1); cbn [w_comms]; lia.
  - inversion H. unfold op_logdir. destruct (w_next w >? 1); cbn [w_comms]; lia.
Qed.

(** The communicators taken from MPI, and never given back, are as many as the
    blocks made, the copies and the assignments of the whole history. *)
Theorem C176_count : forall os w, run os w0 = Some w ->
  w_comms w = Z.of_nat (length (filter duplicates os)).
Proof.
  assert (P : forall os w w', run os w = Some w' ->
    w_comms w' = w_comms w + Z.of_nat (length (filter duplicates os))).
  { induction os as [|o r IH]; intros w w' H; simpl in H.
    - inversion H. simpl. lia.
    - destruct (step o w) as [w1|] eqn:E; [|discriminate].
      rewrite (IH _ _ H), (step_comms _ _ _ E). simpl.
      destruct (duplicates o); simpl; lia. }
  intros os w H. rewrite (P _ _ _ H). reflexivity.
Qed.
Print Assumptions C176_count.

(** They grow without bound although no block is alive. *)
Theorem C176_leak_refuted : forall n, exists os w,
  run os w0 = Some w /\ w_blks w = [] /\ w_comms w = Z.of_nat n.
Proof.
  induction n as [|n (os & w & H & B & C)].
  - exists [], w0. auto.
  - exists (os ++ [ONew 1; ODestroy 1]). eexists. split; [|split].
    + rewrite run_app, H. cbn [run step]. unfold op_new. rewrite B.
      cbn [get]. unfold op_destroy. cbn [w_blks get Z.eqb Pos.eqb].
      reflexivity.
    + reflexivity.
    + cbn [w_comms]. rewrite C. lia.
Qed.
Print Assumptions C176_leak_refuted.

Example C176_nonvacuous :
  exists w, run ex_ops w0 = Some w /\ w_comms w = 5 /\
    length (w_blks w) = 3%nat /\
    map (fun p => b_comm (snd p)) (w_blks w) = [4; 0; 3].
Proof. eexists. split; [|split; [|split]]; vm_compute; reflexivity. Qed.
