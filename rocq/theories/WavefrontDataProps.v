(** Properties of the data given with a mesh of a Wavefront OBJ file. *)
From Coq Require Import Reals List Arith ZArith Bool Lia Lra.
From Verif Require Import Vec SkdDistProofs WavefrontData WavefrontDataSpec.
Import ListNotations.
Open Scope R_scope.

Lemma chars_eqb_iff : forall a b, chars_eqb a b = true <-> a = b.
Proof. intros a b. unfold chars_eqb. destruct (list_eq_dec Nat.eq_dec a b); split; congruence. Qed.
Lemma chars_eqb_refl : forall a, chars_eqb a a = true.
Proof. intro a. apply chars_eqb_iff. reflexivity. Qed.

(** ** Lists *)
Lemma known_iff : forall n m, known n m = true <-> In n (map fst m).
Proof.
  intros n m. unfold known. rewrite existsb_exists, in_map_iff. split; [intros (e & I & E); apply chars_eqb_iff in E; exists e; auto|intros (e & E & I); exists e; split; [exact I|apply chars_eqb_iff; auto]].
Qed.
(** what the map is, at any moment: the names met so far, once each, 0 for the empty one and the others from 1 *)
Definition good (seen : list chars) (acc : list (chars * nat) * nat) : Prop :=
  let '(m, id) := acc in NoDup (map fst m) /\ (forall n, In n (map fst m) <-> In n seen) /\ NoDup (map snd m) /\ (0 < id)%nat /\
  (forall n k, In (n, k) m -> (n = [] /\ k = 0%nat) \/ (n <> [] /\ (0 < k < id)%nat)) /\
  (forall k, (0 < k < id)%nat -> exists n, In (n, k) m) /\
  (forall a b ka kb, In (a, ka) m -> In (b, kb) m -> comes_before seen a b -> a <> [] -> b <> [] -> (ka < kb)%nat).
Lemma before_snoc : forall l a b n, comes_before (l ++ [n]) a b -> In a l -> comes_before l a b.
Proof.
  intros l a b n (l1 & l2 & E & NB & NA & D) I. destruct l2 as [|x l2] using rev_ind.
  - apply app_inj_tail in E. destruct E as (-> & _). contradiction.
  - clear IHl2. rewrite app_comm_cons, app_assoc in E. apply app_inj_tail in E. destruct E as (-> & _). exists l1, l2. auto.
Qed.
Lemma nodup_snoc' : forall A (l : list A) x, NoDup l -> ~ In x l -> NoDup (l ++ [x]).
Proof. intros A l x D N. apply (NoDup_Add (a := x) (l := l)); [|auto]. rewrite <- (app_nil_r l) at 1. apply Add_app. Qed.
Lemma good_step : forall seen acc n, good seen acc -> good (seen ++ [n]) (sync_step acc n).
Proof.
  intros seen [m id] n (D & I & DS & P & K & C & O). cbn [sync_step]. destruct (known n m) eqn:E.
  - apply known_iff in E. unfold good. split; [exact D|]. split; [intro x; rewrite in_app_iff, I; split; [auto|intros [H|[<- |[]]]; [exact H|apply I; exact E]]|]. repeat (split; [assumption|]).
    intros a b ka kb A B BF. apply O; auto. apply before_snoc with (n := n); [exact BF|]. apply I. apply in_map_iff. exists (a, ka). auto.
  - assert (NI : ~ In n (map fst m)) by (rewrite <- known_iff, E; discriminate).
    assert (II : forall v x, In x (map fst (m ++ [(n, v)])) <-> In x (seen ++ [n])) by (intros v x; rewrite map_app, !in_app_iff, I; reflexivity).
    assert (DD : forall v : nat, NoDup (map fst (m ++ [(n, v)]))) by (intro v; rewrite map_app; apply nodup_snoc'; assumption).
    assert (NS : ~ In n seen) by (rewrite <- I; exact NI).
    assert (OO : forall v, (n <> [] -> (forall a ka, In (a, ka) m -> (ka < v)%nat)) -> forall a b ka kb, In (a, ka) (m ++ [(n, v)]) -> In (b, kb) (m ++ [(n, v)]) -> comes_before (seen ++ [n]) a b -> a <> [] -> b <> [] -> (ka < kb)%nat).
    { intros v V a b ka kb A B BF NA NB. rewrite in_app_iff in A, B. destruct A as [A|[A|[]]].
      - assert (IA : In a seen) by (apply I; apply in_map_iff; exists (a, ka); auto). destruct B as [B|[B|[]]]; [apply (O a b); auto; apply before_snoc with (n := n); assumption|].
        injection B as <- <-. exact (V NB a ka A).
      - injection A as <- <-. destruct BF as (l1 & l2 & EQ & XB & XA & D'). exfalso. destruct B as [B|[B|[]]]; [|injection B as B _; congruence].
        assert (IB : In b seen) by (apply I; apply in_map_iff; exists (b, kb); auto). destruct l2 as [|z l2] using rev_ind; [apply app_inj_tail in EQ; destruct EQ as (<- & _); contradiction|]. clear IHl2.
        rewrite app_comm_cons, app_assoc in EQ. apply app_inj_tail in EQ. destruct EQ as (-> & _). apply NS. apply in_app_iff. right. left. reflexivity. }
    destruct n as [|c n]; unfold good.
    + split; [apply DD|]. split; [apply II|]. split.
      { rewrite map_app. apply nodup_snoc'; [exact DS|]. intro H. apply in_map_iff in H. destruct H as ([x k] & Q & H). cbn in Q. subst k. destruct (K x 0%nat H) as [(-> & _)|(_ & H')]; [|lia]. apply NI. apply in_map_iff. exists ([], 0%nat). auto. }
      split; [exact P|]. split; [intros x k H; apply in_app_iff in H; destruct H as [H|[H|[]]]; [apply K; exact H|injection H as <- <-; auto]|].
      split; [intros k H; destruct (C k H) as (x & X); exists x; apply in_app_iff; auto|]. apply OO. congruence.
    + split; [apply DD|]. split; [apply II|]. split.
      { rewrite map_app. apply nodup_snoc'; [exact DS|]. intro H. apply in_map_iff in H. destruct H as ([x k] & Q & H). cbn in Q. subst k. destruct (K x id H) as [(_ & ->)|(_ & H')]; lia. }
      split; [lia|]. split; [intros x k H; apply in_app_iff in H; destruct H as [H|[H|[]]]; [destruct (K x k H) as [?|(? & ?)]; [auto|right; split; [assumption|lia]]|injection H as <- <-; right; split; [discriminate|lia]]|].
      split; [intros k H; destruct (Nat.eq_dec k id) as [-> |N0]; [exists (c :: n); apply in_app_iff; right; left; reflexivity|destruct (C k ltac:(lia)) as (x & X); exists x; apply in_app_iff; auto]|].
      apply OO. intros _ a ka H. destruct (K a ka H) as [(_ & ->)|(_ & ?)]; lia.
Qed.
Lemma good_sync : forall l, exists id, good l (sync l, id).
Proof.
  intro l. unfold sync. assert (G : forall l seen acc, good seen acc -> good (seen ++ l) (fold_left sync_step l acc)).
  { clear. induction l as [|n l IH]; intros seen acc H; [rewrite app_nil_r; exact H|]. cbn [fold_left]. replace (seen ++ n :: l) with ((seen ++ [n]) ++ l) by (rewrite <- app_assoc; reflexivity). apply IH, good_step, H. }
  specialize (G l [] ([], 1%nat)). cbn [app] in G. destruct (fold_left sync_step l ([], 1%nat)) as [m id]. exists id. apply G. unfold good. cbn. repeat split; auto; try constructor; try tauto; try lia.
Qed.
Lemma key_in : forall m n k, NoDup (map fst m) -> (key_of m n = Some k <-> In (n, k) m).
Proof.
  intros m n k D. unfold key_of. destruct (find _ m) as [[n' k']|] eqn:E.
  - apply find_some in E. destruct E as (I & E). apply chars_eqb_iff in E. cbn in E. subst n'. cbn. split; [intro Q; injection Q as <-; exact I|]. intro I'. f_equal.
    clear - D I I'. induction m as [|[a b] m IH]; [destruct I|]. cbn in D. inversion D; subst. destruct I as [I|I], I' as [I'|I']; [congruence|..].
    + exfalso. injection I as <- <-. apply H1. apply in_map_iff. exists (a, k). auto.
    + exfalso. injection I' as <- <-. apply H1. apply in_map_iff. exists (a, k'). auto.
    + auto.
  - split; [discriminate|]. intro I. pose proof (find_none _ _ E (n, k) I) as F. cbn in F. rewrite chars_eqb_refl in F. discriminate.
Qed.
Lemma name_in : forall m n k, NoDup (map snd m) -> In (n, k) m -> name_of m k = Some n.
Proof.
  intros m n k D I. unfold name_of. destruct (find _ (rev m)) as [[n' k']|] eqn:E.
  - apply find_some in E. destruct E as (I' & E). apply Nat.eqb_eq in E. cbn in E. subst k'. apply in_rev in I'. cbn. f_equal.
    clear - D I I'. induction m as [|[a b] m IH]; [destruct I|]. cbn in D. inversion D; subst. destruct I as [I|I], I' as [I'|I']; [congruence|..].
    + exfalso. injection I as <- <-. apply H1. apply in_map_iff. exists (n', b). auto.
    + exfalso. injection I' as <- <-. apply H1. apply in_map_iff. exists (n, b). auto.
    + auto.
  - apply in_rev in I. pose proof (find_none _ _ E (n, k) I) as F. cbn in F. rewrite Nat.eqb_refl in F. discriminate.
Qed.
(** C134: the names of a field are numbered: 0 the empty one, from 1 without gaps the others, in the order they first come; the number of
    a name gives it back; only names of the field have numbers. *)
Theorem C134_lists : forall field,
  (forall n, In n field -> exists k, key_of (sync field) n = Some k /\ name_of (sync field) k = Some n /\ (k = 0%nat <-> n = [])) /\
  (forall n k, key_of (sync field) n = Some k -> In n field) /\
  (forall a b k, key_of (sync field) a = Some k -> key_of (sync field) b = Some k -> a = b) /\
  (forall n k j, key_of (sync field) n = Some k -> (0 < j < k)%nat -> exists m, key_of (sync field) m = Some j) /\
  (forall a b ka kb, comes_before field a b -> a <> [] -> b <> [] -> key_of (sync field) a = Some ka -> key_of (sync field) b = Some kb -> (ka < kb)%nat).
Proof.
  intro field. destruct (good_sync field) as (id & D & I & DS & P & K & C & O). split; [|split; [|split; [|split]]].
  - intros n H. apply I, in_map_iff in H. destruct H as ([x k] & E & H). cbn in E. subst x. exists k. split; [apply key_in; assumption|]. split; [apply name_in; assumption|].
    destruct (K n k H) as [(-> & ->)|(? & ?)]; [tauto|split; [lia|contradiction]].
  - intros n k H. apply key_in in H; [|exact D]. apply I, in_map_iff. exists (n, k). auto.
  - intros a b k A B. apply key_in in A, B; try exact D. pose proof (name_in _ _ _ DS A). pose proof (name_in _ _ _ DS B). congruence.
  - intros n k j H J. apply key_in in H; [|exact D]. destruct (K n k H) as [(_ & ->)|(_ & B)]; [lia|]. destruct (C j ltac:(lia)) as (m & M). exists m. apply key_in; assumption.
  - intros a b ka kb BF NA NB A B. apply key_in in A, B; try exact D. exact (O a b ka kb A B BF NA NB).
Qed.
Print Assumptions C134_lists.
Example C134_nonvacuous : let f := [[5; 6]; []; [7]; [5; 6]]%nat in
  comes_before f [5; 6]%nat [7]%nat /\ key_of (sync f) [5; 6]%nat = Some 1%nat /\ key_of (sync f) [7]%nat = Some 2%nat /\ key_of (sync f) [] = Some 0%nat.
Proof. cbn zeta. split; [exists [], [[]; [7]; [5; 6]]%nat; cbn; intuition discriminate|]. repeat split. Qed.

(** ** Annotations *)
Lemma marks_at : forall m n ids g i, NoDup ids -> fold_left (fun g i => set g i (mark m (g i) n)) ids g i = if in_dec Nat.eq_dec i ids then mark m (g i) n else g i.
Proof.
  intros m n. induction ids as [|j ids IH]; intros g i D; [reflexivity|]. inversion D; subst. cbn [fold_left]. rewrite IH by assumption. unfold set.
  destruct (in_dec Nat.eq_dec i ids) as [I|I], (in_dec Nat.eq_dec i (j :: ids)) as [J|J], (Nat.eqb_spec j i) as [E|E]; subst; try reflexivity; try contradiction; exfalso; cbn in J; tauto.
Qed.
Lemma annotate_cons : forall m geo a anns g, annotate m geo (a :: anns) g = annotate m geo anns (fold_left (fun g i => set g i (mark m (g i) (a_name a))) (squeezed geo a) g).
Proof. reflexivity. Qed.
Lemma annotate_at : forall m geo anns g i, NoDup geo -> In i geo -> annotate m geo anns g i = fold_left (mark m) (names_on anns i) (g i).
Proof.
  intros m geo anns. induction anns as [|a anns IH]; intros g i D I; [reflexivity|]. rewrite annotate_cons, IH by assumption. rewrite marks_at by (apply NoDup_filter; exact D).
  unfold names_on. cbn [filter]. assert (Q : In i (squeezed geo a) <-> In i (a_cells a)).
  { unfold squeezed. rewrite filter_In, existsb_exists. split; [intros (_ & x & X & E); apply Nat.eqb_eq in E; subst; exact X|intro H; split; [exact I|exists i; split; [exact H|apply Nat.eqb_refl]]]. }
  destruct (in_dec Nat.eq_dec i (squeezed geo a)), (in_dec Nat.eq_dec i (a_cells a)); try tauto; reflexivity.
Qed.
Lemma annotate_out : forall m geo anns g i, NoDup geo -> ~ In i geo -> annotate m geo anns g i = g i.
Proof.
  intros m geo anns. induction anns as [|a anns IH]; intros g i D I; [reflexivity|]. rewrite annotate_cons, IH by assumption. rewrite marks_at by (apply NoDup_filter; exact D).
  destruct (in_dec Nat.eq_dec i (squeezed geo a)) as [Q|Q]; [|reflexivity]. exfalso. apply I. unfold squeezed in Q. apply filter_In in Q. apply Q.
Qed.
Lemma names_some : forall anns i, (forall a, In a anns -> a_name a <> []) -> forall n, In n (names_on anns i) -> n <> [].
Proof. intros anns i H n I. unfold names_on in I. apply in_map_iff in I. destruct I as (a & <- & I). apply filter_In in I. apply H, I. Qed.
(** C135: the annotations of a cell of the mesh, over the group it has: the last of them, the first if there is no group, or all of them
    after the group with blanks between. *)
Theorem C135_annotations : forall geo anns g i, NoDup geo -> In i geo ->
  annotate HARD geo anns g i = last (names_on anns i) (g i) /\
  ((forall a, In a anns -> a_name a <> []) ->
   annotate SOFT geo anns g i = (match g i with [] => hd [] (names_on anns i) | _ => g i end) /\
   annotate GETALL geo anns g i = joined (match g i with [] => names_on anns i | _ => g i :: names_on anns i end)).
Proof.
  intros geo anns g i D I. rewrite !annotate_at by assumption. split.
  - generalize (g i) as x. induction (names_on anns i) as [|n l IH]; intro x; [reflexivity|]. cbn [fold_left mark]. rewrite IH. destruct l; [reflexivity|]. cbn [last]. clear. revert x. induction l as [|y l IH]; intro x; cbn; [reflexivity|]. destruct l; [reflexivity|]. exact (IH x).
  - intro H. pose proof (names_some anns i H) as NS. generalize dependent (names_on anns i). intros l NS. split.
    + assert (K : forall l x, x <> [] -> fold_left (mark SOFT) l x = x) by (clear; induction l as [|n l IH]; intros x N; [reflexivity|]; cbn [fold_left mark]; destruct x; [contradiction|]; apply IH; exact N).
      destruct (g i) as [|c x]; [|apply K; discriminate]. destruct l as [|n l]; [reflexivity|]. cbn [fold_left mark hd]. apply K. apply NS. left. reflexivity.
    + assert (K : forall l x, x <> [] -> fold_left (mark GETALL) l x = joined (x :: l)).
      { clear. induction l as [|n l IH]; intros x N; [reflexivity|]. cbn [fold_left]. assert (E : mark GETALL x n = x ++ blank :: n) by (destruct x; [contradiction|reflexivity]). rewrite E.
        rewrite IH by (destruct x; [contradiction|discriminate]). clear. destruct l as [|m l]; [reflexivity|]. cbn [joined]. rewrite <- app_assoc. reflexivity. }
      destruct (g i) as [|c x]; [|apply K; discriminate]. destruct l as [|n l]; [reflexivity|]. cbn [fold_left mark]. apply K. apply NS. left. reflexivity.
Qed.
Print Assumptions C135_annotations.
Lemma prefix_iff : forall p s, prefix p s = true <-> exists b, s = p ++ b.
Proof.
  induction p as [|c p IH]; intros s; [split; [exists s; reflexivity|reflexivity]|]. destruct s as [|d s]; cbn; [split; [discriminate|intros (b & E); discriminate]|].
  rewrite andb_true_iff, Nat.eqb_eq, IH. split; [intros (-> & b & ->); exists b; reflexivity|intros (b & E); injection E as -> ->; split; [reflexivity|exists b; reflexivity]].
Qed.
Lemma contains_iff : forall s p, contains s p = true <-> part_of p s.
Proof.
  induction s as [|c s IH]; intro p; cbn [contains].
  - rewrite orb_false_r, prefix_iff. split; [intros (b & E); exists [], b; exact E|]. intros (a & b & E). symmetry in E. apply app_eq_nil in E. destruct E as (-> & E). exists b. symmetry. exact E.
  - rewrite orb_true_iff, prefix_iff, IH. split.
    + intros [(b & E)|(a & b & E)]; [exists [], b; exact E|]. exists (c :: a), b. rewrite E. reflexivity.
    + intros (a & b & E). destruct a as [|x a]; [left; exists b; exact E|right]. injection E as -> ->. exists a, b. reflexivity.
Qed.
Lemma part_refl : forall n, part_of n n.
Proof. intro n. exists [], []. rewrite app_nil_r. reflexivity. Qed.
Lemma part_trans : forall a b c, part_of a b -> part_of b c -> part_of a c.
Proof. intros a b c (x & y & ->) (z & w & ->). exists (z ++ x), (y ++ w). rewrite <- !app_assoc. reflexivity. Qed.
Lemma mark_parts : forall m old n, m = GETALL \/ m = GETALLNOBLANKS -> part_of old (mark m old n) /\ part_of n (mark m old n).
Proof.
  intros m old n H. assert (E : forall x, part_of [] x) by (intro x; exists [], x; reflexivity).
  destruct old as [|c old]; [destruct H as [-> | ->]; cbn; split; auto using part_refl|]. set (o := c :: old) in *. destruct H as [-> | ->]; cbn [mark o].
  - fold o. split; [exists [], (blank :: n); reflexivity|]. exists (o ++ [blank]), []. rewrite app_nil_r, <- app_assoc. reflexivity.
  - fold o. destruct (contains o n) eqn:C; [split; [apply part_refl|apply contains_iff; exact C]|]. split; [exists [], n; reflexivity|]. exists o, []. rewrite app_nil_r. reflexivity.
Qed.
(** C135: when all the annotations are kept, each is a part of the group of its cells, as is the group there was, and a pin of that name
    gives the cell. *)
Theorem C135_pinned : forall m geo anns g i a pins, NoDup geo -> In i geo -> m = GETALL \/ m = GETALLNOBLANKS -> In a anns -> In i (a_cells a) ->
  part_of (a_name a) (annotate m geo anns g i) /\ part_of (g i) (annotate m geo anns g i) /\ (In (a_name a) pins -> In i (pinned_groups geo (annotate m geo anns g) pins)).
Proof.
  intros m geo anns g i a pins D I M IA IC. rewrite annotate_at by assumption.
  assert (K : forall l x, part_of x (fold_left (mark m) l x) /\ forall n, In n l -> part_of n (fold_left (mark m) l x)).
  { induction l as [|n l IH]; intro x; [split; [apply part_refl|intros n []]|]. cbn [fold_left]. destruct (IH (mark m x n)) as (P1 & P2). destruct (mark_parts m x n M) as (Q1 & Q2). split; [exact (part_trans _ _ _ Q1 P1)|].
    intros k [<- |J]; [exact (part_trans _ _ _ Q2 P1)|exact (P2 k J)]. }
  assert (IN : In (a_name a) (names_on anns i)) by (unfold names_on; apply in_map, filter_In; split; [exact IA|destruct (in_dec Nat.eq_dec i (a_cells a)); [reflexivity|contradiction]]).
  split; [exact (proj2 (K _ _) _ IN)|]. split; [exact (proj1 (K _ _))|]. intro P. unfold pinned_groups. apply filter_In. split; [exact I|]. apply orb_true_iff. right. apply existsb_exists. exists (a_name a). split; [exact P|].
  apply contains_iff. rewrite annotate_at by assumption. exact (proj2 (K _ _) _ IN).
Qed.
Print Assumptions C135_pinned.
(** C135: the cells pinned: those of the materials, and those of which a pin is a part of the group. *)
Theorem C135_pins : forall geo field pins i,
  (In i (pinned_materials geo field pins) <-> In i geo /\ In (field i) pins) /\
  (In i (pinned_groups geo field pins) <-> In i geo /\ exists p, In p pins /\ part_of p (field i)).
Proof.
  intros geo field pins i. unfold pinned_materials, pinned_groups. rewrite !filter_In, orb_true_iff, !existsb_exists. split.
  - split; intros (I & H); (split; [exact I|]); [destruct H as (p & P & E); apply chars_eqb_iff in E; congruence|exists (field i); split; [exact H|apply chars_eqb_refl]].
  - split; intros (I & H); (split; [exact I|]).
    + destruct H as [(p & P & E)|(p & P & E)]; exists p; (split; [exact P|]); [apply chars_eqb_iff in E; subst; apply part_refl|apply contains_iff; exact E].
    + destruct H as (p & P & E). right. exists p. split; [exact P|apply contains_iff; exact E].
Qed.
Print Assumptions C135_pins.
(** C135: cells that are not of the mesh, or that no annotation has, keep their group. *)
Theorem C135_others : forall m geo anns g i, NoDup geo -> (~ In i geo \/ forall a, In a anns -> ~ In i (a_cells a)) -> annotate m geo anns g i = g i.
Proof.
  intros m geo anns g i D H. destruct (in_dec Nat.eq_dec i geo) as [I|I]; [|apply annotate_out; assumption]. destruct H as [H|H]; [contradiction|]. rewrite annotate_at by assumption.
  replace (names_on anns i) with (@nil chars); [reflexivity|]. unfold names_on. clear - H. induction anns as [|a anns IH]; [reflexivity|]. cbn [filter]. destruct (in_dec Nat.eq_dec i (a_cells a)) as [J|J]; [exfalso; apply (H a); [left; reflexivity|exact J]|].
  apply IH. intros b B. apply H. right. exact B.
Qed.
Print Assumptions C135_others.
(** C135: without blanks, names none of which is a part of what comes before it follow the group one after the other. *)
Theorem C135_no_blanks_partial : forall geo anns g i, NoDup geo -> In i geo ->
  (forall l1 n l2, names_on anns i = l1 ++ n :: l2 -> ~ part_of n (g i ++ concat l1)) -> annotate GETALLNOBLANKS geo anns g i = g i ++ concat (names_on anns i).
Proof.
  intros geo anns g i D I. rewrite annotate_at by assumption. generalize (g i) as x. induction (names_on anns i) as [|n l IH]; intros x H; [cbn; rewrite app_nil_r; reflexivity|]. cbn [fold_left concat].
  assert (E : mark GETALLNOBLANKS x n = x ++ n).
  { destruct x as [|c x]; [reflexivity|]. cbn [mark]. destruct (contains (c :: x) n) eqn:C; [|reflexivity]. exfalso. apply (H [] n l eq_refl). cbn [concat]. rewrite app_nil_r. apply contains_iff. exact C. }
  rewrite E, IH, app_assoc; [reflexivity|]. intros l1 k l2 L P. apply (H (n :: l1) k l2); [rewrite L; reflexivity|]. cbn [concat]. rewrite app_assoc. exact P.
Qed.
Print Assumptions C135_no_blanks_partial.
(** C135 refuted: the pin of a group gives the cells of any other group of which it is a part of the name. *)
Theorem C135_other_group_refuted : forall geo field i p x y, In i geo -> field i = x ++ p ++ y -> x ++ y <> [] -> field i <> p /\ In i (pinned_groups geo field [p]).
Proof.
  intros geo field i p x y I E N. split.
  - rewrite E. intro Q. apply (f_equal (@length nat)) in Q. rewrite !app_length in Q. apply N. apply length_zero_iff_nil. rewrite app_length. lia.
  - apply C135_pins. split; [exact I|]. exists p. split; [left; reflexivity|]. exists x, y. exact E.
Qed.
Print Assumptions C135_other_group_refuted.
(** C135 refuted: without blanks, an annotation that is a part of the ones before is left out. *)
Theorem C135_left_out_refuted : forall geo g i n p x y ids ids', NoDup geo -> In i geo -> In i ids -> In i ids' -> g i = [] -> n <> [] -> n = x ++ p ++ y -> p <> [] ->
  annotate GETALLNOBLANKS geo [Annotation n ids; Annotation p ids'] g i = n /\ n <> n ++ p.
Proof.
  intros geo g i n p x y ids ids' D I J J' G N E P. split.
  - rewrite annotate_at by assumption. unfold names_on. cbn [filter a_cells]. destruct (in_dec Nat.eq_dec i ids); [|contradiction]. destruct (in_dec Nat.eq_dec i ids'); [|contradiction]. cbn [map a_name fold_left mark]. rewrite G.
    destruct n as [|c n]; [contradiction|]. rewrite (proj2 (contains_iff _ _) (ex_intro _ x (ex_intro _ y E))). reflexivity.
  - intro Q. apply (f_equal (@length nat)) in Q. rewrite app_length in Q. apply P, length_zero_iff_nil. lia.
Qed.
Print Assumptions C135_left_out_refuted.
Example C135_nonvacuous : let anns := [Annotation [7; 8] [1; 2]; Annotation [9] [2; 5]]%nat in let g := fun i : nat => if Nat.eqb i 2 then [4]%nat else [] in
  NoDup [1; 2; 3]%nat /\ names_on anns 2 = [[7; 8]; [9]]%nat /\ annotate GETALL [1; 2; 3]%nat anns g 2 = [4; 32; 7; 8; 32; 9]%nat /\ pinned_groups [1; 2; 3]%nat (annotate GETALL [1; 2; 3]%nat anns g) [[8]%nat] = [1; 2]%nat.
Proof. cbn zeta. split; [repeat constructor; cbn; intuition lia|]. repeat split. Qed.
Example C135_no_blanks_nonvacuous : let anns := [Annotation [7; 8] [1; 2]; Annotation [9] [2; 5]]%nat in
  (forall l1 n l2, names_on anns 2 = l1 ++ n :: l2 -> ~ part_of n ([4]%nat ++ concat l1)) /\ annotate GETALLNOBLANKS [1; 2; 3]%nat anns (fun _ => [4]%nat) 2 = [4; 7; 8; 9]%nat.
Proof.
  cbn zeta. split; [|reflexivity]. intros l1 n l2 E P. apply contains_iff in P. destruct l1 as [|a [|b [|c l1]]]; cbn in E; injection E; intros; subst; cbn in P; discriminate.
Qed.

(** ** Normals *)
(** C136: the normals are made of length one, in their direction, but for those that are close to it or null. *)
Theorem C136_length : forall close tiny v, 0 < tiny ->
  let w := check_normal close tiny v in
  (norm w = 1 \/ (w = v /\ (close (norm v) = true \/ norm v <= tiny))) /\ (exists k, 0 < k /\ w = vscale k v) /\ (close 1 = true -> check_normal close tiny w = w).
Proof.
  intros close tiny v T w. assert (W1 : norm w = 1 \/ (w = v /\ (close (norm v) = true \/ norm v <= tiny))).
  { unfold w, check_normal. destruct (close (norm v)) eqn:C; [right; split; [reflexivity|auto]|]. cbn [negb andb]. destruct (Rlt_dec tiny (norm v)) as [L|L]; [left|right; split; [reflexivity|right; lra]].
    rewrite norm_scale. rewrite Rabs_right by (left; apply Rinv_0_lt_compat; lra). field. lra. }
  split; [exact W1|]. split.
  - unfold w, check_normal. destruct (negb (close (norm v))); cbn [andb]; [destruct (Rlt_dec tiny (norm v)) as [L|L]|].
    + exists (/ norm v). split; [apply Rinv_0_lt_compat; lra|reflexivity].
    + exists 1. split; [lra|]. destruct v. unfold vscale. cbn. f_equal; ring.
    + exists 1. split; [lra|]. destruct v. unfold vscale. cbn. f_equal; ring.
  - intro C1. destruct W1 as [W1|(W1 & [W2|W2])].
    + unfold check_normal at 1. rewrite W1, C1. reflexivity.
    + rewrite W1. unfold check_normal. rewrite W2. reflexivity.
    + rewrite W1. unfold check_normal. destruct (Rlt_dec tiny (norm v)); [lra|]. rewrite andb_false_r. reflexivity.
Qed.
Print Assumptions C136_length.
Lemma normals_app : forall a b i, normals_of (a ++ b) i = match normals_of a i with Some v => Some v | None => normals_of b i end.
Proof. intros a b i. unfold normals_of. induction a as [|[j v] a IH]; [reflexivity|]. cbn. destruct (Nat.eqb i j); [reflexivity|exact IH]. Qed.
Lemma recompute_other : forall size ev ids next cells i, ~ In i ids -> normals_of (recompute size ev next ids cells) i = normals_of cells i.
Proof.
  intros size ev. induction ids as [|j ids IH]; intros next cells i N; [reflexivity|]. cbn [recompute]. rewrite IH by (intro; apply N; right; assumption). destruct (add_normals _ _ _); [|reflexivity]. rewrite normals_app.
  destruct (normals_of cells i); [reflexivity|]. unfold normals_of. cbn. destruct (Nat.eqb_spec i j) as [E|E]; [exfalso; apply N; left; congruence|reflexivity].
Qed.
Lemma recompute_at : forall size ev ids next cells i, NoDup ids -> In i ids -> normals_of cells i = None ->
  exists first, (next <= first)%nat /\ normals_of (recompute size ev next ids cells) i = add_normals first (size i) (map (ev i) (seq 0 (size i))).
Proof.
  intros size ev. induction ids as [|j ids IH]; intros next cells i D I C; [destruct I|]. inversion D; subst. cbn [recompute]. destruct (Nat.eq_dec j i) as [-> |N].
  - exists next. split; [lia|]. rewrite recompute_other by assumption. destruct (add_normals next (size i) _) as [l|] eqn:A; [|exact C]. rewrite normals_app, C. unfold normals_of. cbn. rewrite Nat.eqb_refl. reflexivity.
  - destruct I as [I|I]; [contradiction|]. destruct (IH (next + size j)%nat (match add_normals next (size j) (map (ev j) (seq 0 (size j))) with Some l => cells ++ [(j, l)] | None => cells end) i H2 I) as (f & F & E).
    { destruct (add_normals _ _ _); [|exact C]. rewrite normals_app, C. unfold normals_of. cbn. destruct (Nat.eqb_spec i j); [congruence|reflexivity]. }
    exists f. split; [lia|exact E].
Qed.
Lemma erased : forall ids cells i, normals_of (filter (fun c => negb (existsb (Nat.eqb (fst c)) ids)) cells) i = if in_dec Nat.eq_dec i ids then None else normals_of cells i.
Proof.
  intros ids cells i. assert (E : existsb (Nat.eqb i) ids = if in_dec Nat.eq_dec i ids then true else false).
  { destruct (in_dec Nat.eq_dec i ids) as [I|I]; [apply existsb_exists; exists i; split; [exact I|apply Nat.eqb_refl]|]. apply not_true_iff_false. intro H. apply existsb_exists in H. destruct H as (x & X & Q). apply Nat.eqb_eq in Q. subst. contradiction. }
  induction cells as [|[j v] cells IH]; [destruct (in_dec Nat.eq_dec i ids); reflexivity|]. cbn [filter fst]. unfold normals_of in *. destruct (existsb (Nat.eqb j) ids) eqn:J; cbn [negb].
  - cbn [find fst]. destruct (Nat.eqb_spec i j) as [-> |N]; [|exact IH]. rewrite IH. rewrite E in J. destruct (in_dec Nat.eq_dec j ids); [reflexivity|discriminate].
  - cbn [find fst]. destruct (Nat.eqb_spec i j) as [-> |N]; [|exact IH]. rewrite E in J. destruct (in_dec Nat.eq_dec j ids); [discriminate|reflexivity].
Qed.
(** C136: the normals of the triangles and of the quadrilaterals asked for are computed again, those of the other cells stay.
    Missing: the polygons. *)
Theorem C136_computed_partial : forall geo size ev next candidates cells i, NoDup geo ->
  (In i geo -> In i candidates -> (size i <= 4)%nat -> normals_of (compute_normals geo size ev next candidates cells) i = Some (map (ev i) (seq 0 (size i)))) /\
  (~ In i geo \/ ~ In i candidates -> normals_of (compute_normals geo size ev next candidates cells) i = normals_of cells i).
Proof.
  intros geo size ev next candidates cells i D. unfold compute_normals. set (ids := filter _ geo).
  assert (Q : In i ids <-> In i geo /\ In i candidates). { unfold ids. rewrite filter_In, existsb_exists. split; intros (A & B); (split; [exact A|]); [destruct B as (x & X & E); apply Nat.eqb_eq in E; subst; exact X|exists i; split; [exact B|apply Nat.eqb_refl]]. }
  split.
  - intros I C S0. destruct (recompute_at size ev ids next (filter (fun c => negb (existsb (Nat.eqb (fst c)) ids)) cells) i (NoDup_filter _ D) ltac:(apply Q; auto)) as (f & _ & ->).
    { rewrite erased. destruct (in_dec Nat.eq_dec i ids); [reflexivity|tauto]. }
    unfold add_normals. rewrite (proj2 (Nat.leb_le _ _) S0). reflexivity.
  - intro H. assert (N : ~ In i ids) by tauto. rewrite recompute_other by exact N. rewrite erased. destruct (in_dec Nat.eq_dec i ids); [contradiction|reflexivity].
Qed.
Print Assumptions C136_computed_partial.
(** C136 refuted: the polygons asked for lose their normals. *)
Theorem C136_polygons_refuted : forall geo size ev next candidates cells i, NoDup geo -> In i geo -> In i candidates -> (5 <= size i <= next)%nat ->
  normals_of (compute_normals geo size ev next candidates cells) i = None.
Proof.
  intros geo size ev next candidates cells i D I C S0. unfold compute_normals. set (ids := filter _ geo).
  assert (Q : In i ids) by (unfold ids; apply filter_In; split; [exact I|apply existsb_exists; exists i; split; [exact C|apply Nat.eqb_refl]]).
  destruct (recompute_at size ev ids next (filter (fun c => negb (existsb (Nat.eqb (fst c)) ids)) cells) i (NoDup_filter _ D) Q) as (f & F & ->).
  { rewrite erased. destruct (in_dec Nat.eq_dec i ids); [reflexivity|contradiction]. }
  unfold add_normals. destruct (Nat.leb_spec (size i) 4); [lia|]. destruct (Nat.eqb_spec (size i) (S f)); [lia|reflexivity].
Qed.
Print Assumptions C136_polygons_refuted.
Example C136_nonvacuous : let ev := fun _ _ : nat => V3 0 0 1 in let size := fun i : nat => if Nat.eqb i 1 then 5%nat else 3%nat in let old := [(1%nat, [V3 1 0 0]); (2%nat, [V3 1 0 0]); (3%nat, [V3 1 0 0])] in
  let new := compute_normals [1; 2; 3]%nat size ev 9 [1; 2; 7]%nat old in
  normals_of new 1 = None /\ normals_of new 2 = Some [V3 0 0 1; V3 0 0 1; V3 0 0 1] /\ normals_of new 3 = Some [V3 1 0 0].
Proof. repeat split. Qed.

(** ** Dump *)
Section Restore.
  Variable mesh : Type.
  Lemma read_names_run : forall l s, read_names mesh (length l) (flat_map (fun e => [TNum mesh (fst e); TName mesh (snd e)]) l ++ s) = Some (l, s).
  Proof. induction l as [|[i n] l IH]; intro s; [reflexivity|]. cbn. rewrite IH. reflexivity. Qed.
  Lemma read_ints_run : forall l s, read_ints mesh (length l) (flat_map (fun e => [TNum mesh (fst e); TInt mesh (snd e)]) l ++ s) = Some (l, s).
  Proof. induction l as [|[i n] l IH]; intro s; [reflexivity|]. cbn. rewrite IH. reflexivity. Qed.
  Lemma restore_run : forall old d s, restore mesh old (dump mesh d ++ s) =
    Some (WData mesh (d_mat _ d) (d_grp _ d) (d_smooth _ d) (d_names _ d) (d_file _ d)
      (match d_txt _ d with Some m => Some m | None => d_txt _ old end) (match d_nrm _ d with Some m => Some m | None => d_nrm _ old end), s).
  Proof.
    intros old [m g z [[a b] c] f t n] s. unfold restore, dump. cbn [d_names d_mat d_grp d_smooth d_file d_txt d_nrm]. unfold dump_names at 1. unfold restore_names at 1. rewrite <- !app_assoc. cbn [app]. rewrite read_names_run.
    unfold dump_names, restore_names. cbn [app]. rewrite read_names_run. unfold dump_ints, restore_ints. cbn [app]. rewrite read_ints_run. destruct t, n; reflexivity.
  Qed.
End Restore.
(** C137: what is dumped is restored, with the rest of the stream left, into data without textures and normals, or if there are both in
    the dump. *)
Theorem C137_restored_partial : forall mesh old d s, (d_txt mesh old = None \/ d_txt mesh d <> None) -> (d_nrm mesh old = None \/ d_nrm mesh d <> None) ->
  restore mesh old (dump mesh d ++ s) = Some (d, s).
Proof.
  intros mesh old d s T N. rewrite restore_run. destruct d as [m g z nm f t n]. cbn [d_mat d_grp d_smooth d_names d_file d_txt d_nrm] in *. f_equal. f_equal. f_equal; [destruct t|destruct n]; try reflexivity; [destruct T|destruct N]; congruence.
Qed.
Print Assumptions C137_restored_partial.
(** C137 refuted: data with textures keep them when data without are restored into them. *)
Theorem C137_kept_refuted : forall mesh old d s m, d_txt mesh old = Some m -> d_txt mesh d = None -> exists d', restore mesh old (dump mesh d ++ s) = Some (d', s) /\ d_txt mesh d' = Some m /\ d' <> d.
Proof. intros mesh old d s m O D. rewrite restore_run. eexists. split; [reflexivity|]. cbn [d_txt]. rewrite D, O. split; [reflexivity|]. intro E. apply (f_equal (d_txt mesh)) in E. cbn in E. congruence. Qed.
Print Assumptions C137_kept_refuted.
Example C137_nonvacuous : exists d old : wdata nat, d_txt _ d = Some 4%nat /\ d_txt _ old = Some 3%nat /\ d_nrm _ old = None /\ d_mat _ d <> [] /\ restore nat old (dump nat d) = Some (d, []).
Proof. exists (WData nat [(1, [2; 3])]%nat [] [(1%nat, 5%Z)] ([], [], []) [9]%nat (Some 4%nat) None), (WData nat [] [] [] ([], [], []) [] (Some 3%nat) None). repeat split. discriminate. Qed.
