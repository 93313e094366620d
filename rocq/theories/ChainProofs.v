(** Proofs about the chain model. *)
From Coq Require Import List ZArith Bool Arith Lia Permutation Relations.
From Verif Require Import Chain ChainSpec.
Import ListNotations.
Open Scope nat_scope.

(** * Finite acyclic relations are well founded *)

Section WF.
  Variable R : obj -> obj -> Prop.
  Variable S : list obj.
  Hypothesis HS : forall x y, R x y -> In x S.
  Hypothesis Hac : forall x, ~ clos_trans obj R x x.

  Lemma acc_aux : forall k visited x,
    NoDup (x :: visited) -> incl (x :: visited) S ->
    (forall v, In v visited -> clos_trans obj R x v) ->
    length S - length visited <= k -> Acc R x.
  Proof.
    induction k as [|k IH]; intros visited x ND Hin Hv Hk.
    - exfalso. pose proof (NoDup_incl_length ND Hin) as HL. simpl in HL. lia.
    - constructor. intros y Hy.
      assert (Hny : ~ In y (x :: visited)).
      { intros [->|Hi]; [exact (Hac y (t_step _ _ _ _ Hy))|].
        apply (Hac y). eapply t_trans; [apply t_step; exact Hy|]. apply Hv; exact Hi. }
      apply (IH (x :: visited)).
      + constructor; assumption.
      + intros z [->|Hz]; [eapply HS; eassumption|apply Hin; exact Hz].
      + intros v [->|Hi]; [apply t_step; exact Hy|].
        eapply t_trans; [apply t_step; exact Hy|apply Hv; exact Hi].
      + pose proof (NoDup_incl_length ND Hin) as HL. simpl in *. lia.
  Qed.

  Lemma acc_in : forall x, In x S -> Acc R x.
  Proof.
    intros x Hx. apply (acc_aux (length S) [] x).
    - constructor; [intros []|constructor].
    - intros y [->|[]]; exact Hx.
    - intros v [].
    - simpl; lia.
  Qed.
End WF.

(** * Recursive form of [ordered] *)

Fixpoint ord (g : graph) (os : list obj) : Prop :=
  match os with
  | [] => True
  | c :: r => (forall p, In p (c :: r) -> ~ edge g p c) /\ ord g r
  end.

Lemma ord_ordered g os : ord g os <-> ordered g os.
Proof.
  induction os as [|c r IH]; split.
  - intros _ i j p c Hi. destruct i; discriminate.
  - simpl; auto.
  - intros [H1 H2] i j p c' Hi Hj He.
    destruct j as [|j]; simpl in Hj.
    + injection Hj as <-. exfalso. apply (H1 p); [|exact He].
      eapply nth_error_In; exact Hi.
    + destruct i as [|i]; [lia|]. simpl in Hi.
      apply IH in H2. specialize (H2 i j p c' Hi Hj He). lia.
  - intros H. split.
    + intros p Hp He. apply In_nth_error in Hp. destruct Hp as [i Hi].
      specialize (H i 0 p c Hi eq_refl He). lia.
    + apply IH. intros i j p c' Hi Hj He.
      specialize (H (S i) (S j) p c' Hi Hj He). lia.
Qed.

Lemma ord_app g a b :
  ord g (a ++ b) <-> ord g a /\ ord g b /\ (forall c p, In c a -> In p b -> ~ edge g p c).
Proof.
  induction a as [|x a IH]; simpl.
  - split; [intros H; repeat split; auto|tauto].
  - rewrite IH. split.
    + intros (H1 & H2 & H3 & H4). repeat split; auto.
      * intros p [->|Hp]; [apply H1; auto|]. apply H1. right. apply in_or_app; auto.
      * intros c p [->|Hc] Hp; [|eapply H4; eauto].
        apply H1. right. apply in_or_app; auto.
    + intros ((H1 & H2) & H3 & H4). repeat split; auto.
      intros p [->|Hp]; [apply H1; auto|].
      apply in_app_or in Hp. destruct Hp as [Hp|Hp]; [apply H1; auto|].
      apply H4; auto.
Qed.

Lemma ord_insert g a o b :
  ord g (a ++ b) -> ~ edge g o o ->
  (forall c, In c a -> ~ edge g o c) -> (forall p, In p b -> ~ edge g p o) ->
  ord g (a ++ o :: b).
Proof.
  rewrite !ord_app. intros (H1 & H2 & H3) Hs Hc Hp. simpl. repeat split; auto.
  - intros p [->|Hi]; auto.
  - intros c p Hi [<-|Hj]; [apply Hc; auto|apply H3; auto].
Qed.

(** * Index lemmas *)

Lemma index_of_le o l : index_of o l <= length l.
Proof. induction l as [|e r IH]; simpl; [lia|]. destruct (Nat.eqb_spec (fst e) o); lia. Qed.

Lemma present_In o l : present o l = true <-> In o (objs l).
Proof.
  unfold present. rewrite Nat.ltb_lt.
  induction l as [|e r IH]; simpl; [split; [lia|tauto]|].
  destruct (Nat.eqb_spec (fst e) o) as [->|Hn]; split; intros H; auto; try lia.
  - right. apply IH. lia.
  - destruct H as [H|H]; [contradiction|]. apply IH in H. lia.
Qed.

Lemma index_of_nth o l : In o (objs l) -> nth_error (objs l) (index_of o l) = Some o.
Proof.
  induction l as [|e r IH]; simpl; [tauto|].
  destruct (Nat.eqb_spec (fst e) o) as [->|Hn]; intros H; [reflexivity|].
  destruct H as [H|H]; [contradiction|]. simpl; auto.
Qed.

Lemma index_of_nth_NoDup o l i :
  NoDup (objs l) -> nth_error (objs l) i = Some o -> index_of o l = i.
Proof.
  intros ND Hi. assert (Hin : In o (objs l)) by (eapply nth_error_In; exact Hi).
  eapply NoDup_nth_error; [exact ND| |].
  - apply nth_error_Some. rewrite index_of_nth by exact Hin. discriminate.
  - rewrite index_of_nth by exact Hin. auto.
Qed.

Lemma nth_error_firstn_lt {A} (l : list A) n i : i < n -> nth_error (firstn n l) i = nth_error l i.
Proof.
  revert n i; induction l as [|x l IH]; intros n i H; [rewrite firstn_nil; reflexivity|].
  destruct n; [lia|]. destruct i; simpl; [reflexivity|apply IH; lia].
Qed.

Lemma nth_error_skipn_add {A} (l : list A) n i : nth_error (skipn n l) i = nth_error l (n + i).
Proof.
  revert n; induction l as [|x l IH]; intros n; [rewrite skipn_nil; destruct (n+i), i; reflexivity|].
  destruct n; simpl; auto.
Qed.

Lemma objs_firstn n l : objs (firstn n l) = firstn n (objs l).
Proof. unfold objs. symmetry. apply firstn_map. Qed.
Lemma objs_skipn n l : objs (skipn n l) = skipn n (objs l).
Proof. unfold objs. symmetry. apply skipn_map. Qed.
Lemma objs_app a b : objs (a ++ b) = objs a ++ objs b.
Proof. apply map_app. Qed.
Lemma objs_length l : length (objs l) = length l.
Proof. apply map_length. Qed.

Lemma index_in_firstn o l n :
  NoDup (objs l) -> In o (objs (firstn n l)) -> index_of o l < n.
Proof.
  intros ND Hin. rewrite objs_firstn in Hin. apply In_nth_error in Hin. destruct Hin as [i Hi].
  assert (Hlt : i < n).
  { destruct (Nat.lt_ge_cases i n); [assumption|].
    assert (nth_error (firstn n (objs l)) i = None); [|congruence].
    apply nth_error_None. rewrite firstn_length. lia. }
  rewrite nth_error_firstn_lt in Hi by exact Hlt.
  rewrite (index_of_nth_NoDup o l i ND Hi). exact Hlt.
Qed.

Lemma index_in_skipn o l n :
  NoDup (objs l) -> In o (objs (skipn n l)) -> n <= index_of o l < length l.
Proof.
  intros ND Hin. rewrite objs_skipn in Hin. apply In_nth_error in Hin. destruct Hin as [i Hi].
  rewrite nth_error_skipn_add in Hi.
  rewrite (index_of_nth_NoDup o l _ ND Hi). split; [lia|].
  rewrite <- objs_length. apply nth_error_Some. congruence.
Qed.

(** idx_child *)
Section IdxChild.
  Variables (l : list entry).
  Let f := (fun m c => if present c l then Nat.min m (index_of c l) else m).

  Lemma fold_idx cs m :
    let r := fold_left f cs m in
    r <= m /\
    (forall c, In c cs -> present c l = true -> r <= index_of c l) /\
    (r = m \/ exists c, In c cs /\ present c l = true /\ index_of c l = r).
  Proof.
    revert m; induction cs as [|c cs IH]; intros m; simpl.
    - repeat split; auto. intros c [].
    - destruct (IH (f m c)) as (H1 & H2 & H3). fold f.
      assert (Hf : f m c <= m /\ (present c l = true -> f m c <= index_of c l) /\
                   (f m c = m \/ (present c l = true /\ f m c = index_of c l))).
      { unfold f. destruct (present c l); [|repeat split; auto; discriminate].
        destruct (Nat.min_spec m (index_of c l)) as [[? Hm]|[? Hm]]; rewrite Hm;
          repeat split; auto; lia. }
      destruct Hf as (F1 & F2 & F3). repeat split.
      + lia.
      + intros c' [<-|Hc'] Hp; [specialize (F2 Hp); lia|apply H2; auto].
      + destruct H3 as [H3|(c' & Hc' & Hp & He)].
        * rewrite H3. destruct F3 as [F3|[F3 F4]]; [left; exact F3|].
          right; exists c. rewrite F4. auto.
        * right; exists c'; auto.
  Qed.
End IdxChild.

Lemma idx_child_le g o l : idx_child g o l <= length l.
Proof. apply (fold_idx l (children g o) (length l)). Qed.

Lemma idx_child_min g o l c :
  In c (children g o) -> In c (objs l) -> idx_child g o l <= index_of c l.
Proof.
  intros Hc Hp. apply (fold_idx l (children g o) (length l)); auto. apply present_In; auto.
Qed.

Lemma idx_child_is g o l :
  idx_child g o l < length l ->
  exists c, In c (children g o) /\ nth_error (objs l) (idx_child g o l) = Some c.
Proof.
  intros H. destruct (fold_idx l (children g o) (length l)) as (_ & _ & [H3|(c & Hc & Hp & He)]).
  - unfold idx_child in H. rewrite H3 in H. lia.
  - exists c. split; [exact Hc|].
    change (nth_error (objs l) (idx_child g o l) = Some c).
    unfold idx_child. rewrite <- He. apply index_of_nth, present_In; exact Hp.
Qed.

Lemma idx_child_firstn g o l c :
  NoDup (objs l) -> In c (children g o) -> ~ In c (objs (firstn (idx_child g o l) l)).
Proof.
  intros ND Hc Hin. pose proof (index_in_firstn _ _ _ ND Hin) as H1.
  assert (Hl : In c (objs l)).
  { rewrite <- (firstn_skipn (idx_child g o l) l). rewrite objs_app. apply in_or_app; auto. }
  pose proof (idx_child_min g o l c Hc Hl). lia.
Qed.

Lemma idx_parent_ge p l (k : nat) :
  (Z.of_nat k <= idx_parent p l)%Z <-> In p (objs l) /\ k <= index_of p l.
Proof.
  unfold idx_parent. destruct (present p l) eqn:Hp.
  - apply present_In in Hp. split; [intros H; split; auto; lia|intros [_ H]; lia].
  - split; [lia|]. intros [H _]. apply present_In in H. congruence.
Qed.

(** * Removing the parents *)

Lemma take_out_spec p l i l' :
  take_out p l = Some (i, l') ->
  exists a b, l = a ++ (p, i) :: b /\ l' = a ++ b /\ ~ In p (objs a).
Proof.
  revert l'; induction l as [|e r IH]; simpl; intros l' H; [discriminate|].
  destruct (Nat.eqb_spec (fst e) p) as [He|He].
  - injection H as <- <-. exists [], r. destruct e; simpl in *; subst. repeat split; auto.
  - destruct (take_out p r) as [[i' r']|] eqn:Ht; [|discriminate].
    injection H as <- <-. destruct (IH r' eq_refl) as (a & b & -> & -> & Hn).
    exists (e :: a), b. repeat split; auto. simpl. intros [|]; auto.
Qed.

Lemma take_out_some p l : In p (objs l) -> exists i l', take_out p l = Some (i, l').
Proof.
  induction l as [|e r IH]; simpl; [tauto|]. intros H.
  destruct (Nat.eqb_spec (fst e) p) as [He|He]; [eauto|].
  destruct H as [H|H]; [contradiction|]. destruct (IH H) as (i & l' & ->). eauto.
Qed.

Lemma take_out_perm p l i l' : take_out p l = Some (i, l') -> Permutation ((p, i) :: l') l.
Proof.
  intros H. apply take_out_spec in H. destruct H as (a & b & -> & -> & _).
  apply Permutation_middle.
Qed.

Lemma take_out_all_perm ps l out l1 :
  take_out_all ps l = Some (out, l1) -> Permutation (out ++ l1) l /\ objs out = ps.
Proof.
  revert l out l1; induction ps as [|p ps IH]; simpl; intros l out l1 H.
  - injection H as <- <-. split; auto.
  - destruct (take_out p l) as [[i l']|] eqn:Ht; [|discriminate].
    destruct (take_out_all ps l') as [[out' l'']|] eqn:Ha; [|discriminate].
    injection H as <- <-. destruct (IH _ _ _ Ha) as [HP Ho]. split.
    + simpl. rewrite <- (take_out_perm _ _ _ _ Ht). constructor. exact HP.
    + simpl. f_equal. exact Ho.
Qed.

(** With distinct objects, the removed ones being located in [b], the front [a] stays. *)
Lemma take_out_all_split ps a b :
  NoDup ps -> NoDup (objs (a ++ b)) -> (forall p, In p ps -> In p (objs b)) ->
  exists out b', take_out_all ps (a ++ b) = Some (out, a ++ b') /\
                 Permutation (out ++ b') b /\ objs out = ps /\
                 (forall g, ord g (objs b) -> ord g (objs b')).
Proof.
  revert b; induction ps as [|p ps IH]; intros b NDp ND Hin.
  - exists [], b. simpl. repeat split; auto.
  - assert (Hp : In p (objs b)) by (apply Hin; left; reflexivity).
    assert (Hpab : In p (objs (a ++ b))) by (rewrite objs_app; apply in_or_app; auto).
    destruct (take_out_some p (a ++ b) Hpab) as (i & l' & Ht).
    destruct (take_out_spec _ _ _ _ Ht) as (x & y & He & Hl' & Hnx).
    assert (Hna : ~ In p (objs a)).
    { rewrite objs_app in ND. intros Ha.
      clear - ND Ha Hp. induction (objs a) as [|z r IHr]; [destruct Ha|].
      simpl in ND. inversion ND; subst. destruct Ha as [->|Ha]; [|auto].
      apply H1. apply in_or_app; auto. }
    assert (Hx : exists x', x = a ++ x' /\ b = x' ++ (p, i) :: y).
    { clear - He Hna. revert a He Hna.
      induction x as [|e x IHx]; intros a He Hna.
      - destruct a as [|e' a]; [exists []; simpl in *; auto|].
        simpl in He. injection He as -> _. exfalso. apply Hna. left; reflexivity.
      - destruct a as [|e' a]; [exists (e :: x); simpl in *; auto|].
        simpl in He. injection He as -> He. destruct (IHx a He) as (x' & -> & ->).
        + intros H; apply Hna; right; exact H.
        + exists x'; auto. }
    destruct Hx as (x' & -> & ->).
    subst l'. rewrite <- app_assoc in Ht.
    assert (ND' : NoDup (objs (a ++ x' ++ y))).
    { rewrite app_assoc in ND |- *. rewrite objs_app in ND |- *. simpl in ND.
      eapply NoDup_remove_1; exact ND. }
    inversion NDp as [|? ? Hnp NDps]; subst.
    destruct (IH (x' ++ y) NDps ND') as (out & b' & Ha & HP & Ho & Hord).
    { intros q Hq. assert (Hq' := Hin q (or_intror Hq)). rewrite objs_app in Hq' |- *.
      simpl in Hq'. apply in_app_or in Hq'. apply in_or_app.
      destruct Hq' as [|[E|]]; auto. subst q. contradiction. }
    exists ((p, i) :: out), b'. repeat split.
    + simpl. rewrite Ht, Ha. reflexivity.
    + simpl. rewrite HP. apply Permutation_middle.
    + simpl. f_equal; exact Ho.
    + intros g Hb. apply Hord. rewrite objs_app in Hb |- *. simpl in Hb.
      rewrite ord_app in Hb |- *. destruct Hb as (H1 & (_ & H2) & H3). repeat split; auto.
      intros c q Hc Hq. apply H3; auto. right; exact Hq.
Qed.

(** * The direct insertion *)

Lemma insert_at_perm {A} n (x : A) l : Permutation (insert_at n x l) (x :: l).
Proof.
  unfold insert_at. rewrite <- (firstn_skipn n l) at 3. symmetry. apply Permutation_middle.
Qed.

Lemma add_direct g f l o id :
  (forall p, In p (parents g o) -> In p (objs l) -> index_of p l < idx_child g o l) ->
  add (S f) g l o id = Done (insert_at (idx_child g o l) (o, id) l) (Z.of_nat (idx_child g o l)).
Proof.
  intros H. destruct l as [|e r].
  - assert (E : idx_child g o [] = 0) by (pose proof (idx_child_le g o []); simpl in *; lia).
    rewrite E. reflexivity.
  - cbn [add]. set (l := e :: r) in *. set (ic := idx_child g o l) in *.
    assert (E1 : existsb (fun p => Z.eqb (idx_parent p l) (Z.of_nat ic)) (parents g o) = false).
    { apply not_true_is_false. intros He. apply existsb_exists in He. destruct He as (p & Hp & He).
      apply Z.eqb_eq in He. assert (Hge : (Z.of_nat ic <= idx_parent p l)%Z) by lia.
      apply idx_parent_ge in Hge. destruct Hge as [Hi Hle]. specialize (H p Hp Hi). lia. }
    assert (E2 : filter (fun p => Z.ltb (Z.of_nat ic) (idx_parent p l)) (parents g o) = []).
    { destruct (filter _ (parents g o)) as [|p ps] eqn:Ef; [reflexivity|exfalso].
      assert (Hp : In p (p :: ps)) by (left; reflexivity). rewrite <- Ef in Hp.
      apply filter_In in Hp. destruct Hp as [Hp He]. apply Z.ltb_lt in He.
      assert (Hge : (Z.of_nat ic <= idx_parent p l)%Z) by lia.
      apply idx_parent_ge in Hge. destruct Hge as [Hi Hle]. specialize (H p Hp Hi). lia. }
    rewrite E1, E2. reflexivity.
Qed.

Lemma add_unfold f g l o id : l <> [] ->
  add (S f) g l o id =
      let ic := idx_child g o l in
      if existsb (fun p => Z.eqb (idx_parent p l) (Z.of_nat ic)) (parents g o)
      then Done l (-1)
      else
        match filter (fun p => Z.ltb (Z.of_nat ic) (idx_parent p l)) (parents g o) with
        | [] => Done (insert_at ic (o, id) l) (Z.of_nat ic)
        | p :: ps =>
          match take_out_all (p :: ps) l with
          | None => UB
          | Some (out, l1) =>
            match add f g l1 o id with
            | Done l2 idx =>
              match readd (add f g) out l2 with
              | Done l3 _ => Done l3 (idx + 1)
              | other => other
              end
            | other => other
            end
          end
        end.
Proof.
  destruct l as [|e r]; [congruence|]. intros _. cbn [add].
  destruct (existsb _ _); [reflexivity|]. destruct (filter _ _); reflexivity.
Qed.

Lemma NoDup_app_split {A} (a b : list A) :
  NoDup (a ++ b) -> NoDup a /\ NoDup b /\ (forall x, In x a -> In x b -> False).
Proof.
  induction a as [|x a IH]; simpl; intros H.
  - repeat split; auto. constructor.
  - inversion H as [|? ? Hn HN]; subst. destruct (IH HN) as (H1 & H2 & H3). repeat split; auto.
    + constructor; auto. intros Hi; apply Hn, in_or_app; auto.
    + intros y [<-|Hy] Hb; [apply Hn, in_or_app; auto|eauto].
Qed.

Lemma objs_perm l l' : Permutation l l' -> Permutation (objs l) (objs l').
Proof. apply Permutation_map. Qed.

Section AddOk.
  Variable g : graph.
  Hypothesis Hg : consistent g.
  Hypothesis Hac : acyclic g.
  Variable U : list obj.     (* every object that may be involved *)

  Definition R (p o : obj) : Prop := edge g p o /\ In p U.

  Lemma R_acc o : In o U -> Acc R o.
  Proof.
    apply acc_in.
    - intros x y [_ H]; exact H.
    - intros x Hx. apply (Hac x).
      assert (K : forall y z, clos_trans obj R y z -> clos_trans obj (edge g) y z).
      { intros y z Hyz. induction Hyz as [a b [H _]|a b c _ IH1 _ IH2]; [apply t_step; exact H|].
        eapply t_trans; eauto. }
      apply K; exact Hx.
  Qed.

  Lemma add_ok : forall o, Acc R o -> forall l id,
    NoDup (o :: objs l) -> incl (o :: objs l) U -> ord g (objs l) ->
    exists n l' r, (forall m, n <= m -> add m g l o id = Done l' r) /\
                   Permutation l' ((o, id) :: l) /\ ord g (objs l') /\ (0 <= r)%Z.
  Proof.
    intros o Hacc. induction Hacc as [o _ IH].
    intros l id ND Hin Hord. inversion ND as [|? ? Hno NDl]; subst.
    assert (Hself : ~ edge g o o) by (intros H; apply (Hac o), t_step, H).
    set (ic := idx_child g o l).
    (* parents at or after ic *)
    assert (Hneq : forall p, In p (parents g o) -> In p (objs l) -> index_of p l <> ic).
    { intros p Hp Hi E.
      assert (Hlt : ic < length l).
      { rewrite <- E. apply present_In in Hi. apply Nat.ltb_lt; exact Hi. }
      destruct (idx_child_is g o l Hlt) as (c & Hc & Hn). fold ic in Hn.
      rewrite <- E, index_of_nth in Hn by exact Hi. injection Hn as ->.
      apply (Hac o). eapply t_trans; apply t_step; [exact Hc|].
      apply Hg; exact Hp. }
    destruct (existsb (fun p => present p l && (ic <? index_of p l)) (parents g o)) eqn:Hmv.
    2:{ (* nothing to move *)
      assert (Hb : forall p, In p (parents g o) -> In p (objs l) -> index_of p l < ic).
      { intros p Hp Hi. specialize (Hneq p Hp Hi).
        destruct (Nat.lt_ge_cases (index_of p l) ic); [assumption|exfalso].
        apply not_true_iff_false in Hmv. apply Hmv. apply existsb_exists.
        exists p. split; [exact Hp|]. apply andb_true_iff. split; [apply present_In; exact Hi|].
        apply Nat.ltb_lt. lia. }
      exists 1, (insert_at ic (o, id) l), (Z.of_nat ic). repeat split.
      - intros m Hm. destruct m as [|m]; [lia|]. apply add_direct. exact Hb.
      - apply insert_at_perm.
      - unfold insert_at. rewrite objs_app. simpl. apply ord_insert.
        + rewrite <- objs_app, firstn_skipn. exact Hord.
        + exact Hself.
        + intros c Hc He. apply (idx_child_firstn g o l c NDl); auto.
        + intros p Hp He. pose proof (index_in_skipn _ _ _ NDl Hp) as Hx.
          assert (Hpl : In p (objs l)).
          { rewrite <- (firstn_skipn ic l), objs_app. apply in_or_app; auto. }
          assert (Hpp : In p (parents g o)) by (apply Hg; exact He).
          specialize (Hb p Hpp Hpl). lia.
      - lia. }
    (* some parents move *)
    set (moved := filter (fun p => Z.ltb (Z.of_nat ic) (idx_parent p l)) (parents g o)).
    assert (Hmoved : forall p, In p moved <-> In p (parents g o) /\ In p (objs l) /\ ic < index_of p l).
    { intros p. unfold moved. rewrite filter_In, Z.ltb_lt.
      assert (E : (Z.of_nat ic < idx_parent p l <-> Z.of_nat (S ic) <= idx_parent p l)%Z) by lia.
      rewrite E, idx_parent_ge. intuition lia. }
    assert (Hne : moved <> []).
    { apply existsb_exists in Hmv. destruct Hmv as (p & Hp & He).
      apply andb_true_iff in He. destruct He as [H1 H2]. apply present_In in H1.
      apply Nat.ltb_lt in H2. intros E. assert (In p moved) by (apply Hmoved; auto).
      rewrite E in H. destruct H. }
    assert (NDm : NoDup moved) by (apply NoDup_filter, Hg).
    set (a := firstn ic l). set (b := skipn ic l).
    assert (El : l = a ++ b) by (symmetry; apply firstn_skipn).
    destruct (take_out_all_split moved a b NDm) as (out & b' & Ht & HPb & Hout & Hordb).
    { rewrite <- El; exact NDl. }
    { intros p Hp. apply Hmoved in Hp. destruct Hp as (_ & Hi & Hlt).
      rewrite El, objs_app in Hi. apply in_app_or in Hi. destruct Hi as [Hi|Hi]; [|exact Hi].
      pose proof (index_in_firstn _ _ _ NDl Hi). lia. }
    rewrite <- El in Ht.
    set (l1 := a ++ b') in *.
    assert (HPl : Permutation (out ++ l1) l).
    { unfold l1. rewrite El. rewrite <- HPb. apply Permutation_app_swap_app. }
    assert (NDol1 : NoDup (objs (out ++ l1))).
    { eapply Permutation_NoDup; [|exact NDl]. apply Permutation_sym, objs_perm; exact HPl. }
    assert (NDl1 : NoDup (objs l1)).
    { rewrite objs_app in NDol1. apply NoDup_app_split in NDol1. tauto. }
    assert (Hsub1 : forall x, In x (objs l1) -> In x (objs l)).
    { intros x Hx. eapply Permutation_in; [apply objs_perm; exact HPl|].
      rewrite objs_app. apply in_or_app; auto. }
    assert (Hord1 : ord g (objs l1)).
    { unfold l1. rewrite El in Hord. rewrite objs_app in Hord |- *.
      rewrite ord_app in Hord |- *. destruct Hord as (H1 & H2 & H3).
      repeat split; auto. intros c p Hc Hp. apply H3; auto.
      eapply Permutation_in; [apply objs_perm; exact HPb|]. rewrite objs_app.
      apply in_or_app; auto. }
    assert (Hla : length a = ic).
    { unfold a. rewrite firstn_length. pose proof (idx_child_le g o l). unfold ic in *. lia. }
    (* in l1 every parent is in a, every child in b' *)
    assert (Hpa : forall p, In p (parents g o) -> In p (objs l1) -> index_of p l1 < length a).
    { intros p Hp Hi.
      assert (Hpl := Hsub1 p Hi).
      assert (Hlt : index_of p l < ic).
      { specialize (Hneq p Hp Hpl). destruct (Nat.lt_ge_cases (index_of p l) ic); [assumption|].
        exfalso. assert (Hm : In p moved) by (apply Hmoved; repeat split; auto; lia).
        rewrite <- Hout in Hm. rewrite objs_app in NDol1. apply NoDup_app_split in NDol1.
        destruct NDol1 as (_ & _ & Hd). eapply Hd; eauto. }
      assert (Hia : In p (objs a)).
      { unfold a. rewrite objs_firstn.
        apply nth_error_In with (n := index_of p l).
        rewrite nth_error_firstn_lt by exact Hlt. apply index_of_nth; exact Hpl. }
      apply index_in_firstn; auto. unfold l1.
      rewrite firstn_app, Nat.sub_diag, firstn_O, app_nil_r, firstn_all. exact Hia. }
    assert (Hic1 : length a <= idx_child g o l1).
    { destruct (Nat.lt_ge_cases (idx_child g o l1) (length a)) as [Hlt|]; [exfalso|assumption].
      assert (Hlt1 : idx_child g o l1 < length l1) by (unfold l1 in *; rewrite app_length; lia).
      destruct (idx_child_is g o l1 Hlt1) as (c & Hc & Hn).
      unfold l1 in Hn at 1. rewrite objs_app, nth_error_app1 in Hn by (rewrite objs_length; exact Hlt).
      apply nth_error_In in Hn.
      apply (idx_child_firstn g o l c NDl Hc). fold ic. fold a. exact Hn. }
    set (l2 := insert_at (idx_child g o l1) (o, id) l1).
    assert (Hadd1 : forall f, add (S f) g l1 o id = Done l2 (Z.of_nat (idx_child g o l1))).
    { intros f. apply add_direct. intros p Hp Hi. specialize (Hpa p Hp Hi). lia. }
    assert (HP2 : Permutation l2 ((o, id) :: l1)) by apply insert_at_perm.
    assert (Hord2 : ord g (objs l2)).
    { unfold l2, insert_at. rewrite objs_app. simpl. apply ord_insert.
      - rewrite <- objs_app, firstn_skipn. exact Hord1.
      - exact Hself.
      - intros c Hc He. apply (idx_child_firstn g o l1 c NDl1); auto.
      - intros p Hp He. pose proof (index_in_skipn _ _ _ NDl1 Hp) as Hx.
        assert (Hpl : In p (objs l1)).
        { rewrite <- (firstn_skipn (idx_child g o l1) l1), objs_app. apply in_or_app; auto. }
        assert (Hpp : In p (parents g o)) by (apply Hg; exact He).
        specialize (Hpa p Hpp Hpl). lia. }
    (* re-insertion *)
    assert (Hre : forall out0 l0,
      (forall e, In e out0 -> R (fst e) o) ->
      NoDup (objs (out0 ++ l0)) -> incl (objs (out0 ++ l0)) U -> ord g (objs l0) ->
      exists n l3, (forall m, n <= m -> readd (add m g) out0 l0 = Done l3 0) /\
                     Permutation l3 (out0 ++ l0) /\ ord g (objs l3)).
    { induction out0 as [|[p i] out0 IHo]; intros l0 HR HND HU Ho0.
      - exists 0, l0. repeat split; auto.
      - assert (Rp : R p o) by (apply (HR (p, i)); left; reflexivity).
        simpl in HND. apply NoDup_cons_iff in HND. destruct HND as [Hnp HND0].
        assert (NDp0 : NoDup (p :: objs l0)).
        { rewrite objs_app in HND0, Hnp. constructor.
          - intros Hi. apply Hnp, in_or_app; auto.
          - apply NoDup_app_split in HND0. tauto. }
        assert (HUp : incl (p :: objs l0) U).
        { intros x [<-|Hx]; apply HU; [left; reflexivity|].
          simpl. right. rewrite objs_app. apply in_or_app; auto. }
        destruct (IH p Rp l0 i NDp0 HUp Ho0) as (n1 & l' & r & Hn1 & HP1 & Ho1 & _).
        assert (HPP : Permutation (out0 ++ l') ((p, i) :: out0 ++ l0)).
        { rewrite HP1. symmetry. apply Permutation_middle. }
        destruct (IHo l') as (n2 & l3 & Hn2 & HP3 & Ho3).
        + intros e He. apply HR. right; exact He.
        + eapply Permutation_NoDup; [apply Permutation_sym, objs_perm; exact HPP|].
          simpl. constructor; assumption.
        + intros x Hx. apply HU. eapply Permutation_in; [apply objs_perm; exact HPP|exact Hx].
        + exact Ho1.
        + exists (n1 + n2), l3. repeat split.
          * intros m Hm. simpl. rewrite Hn1 by lia. apply Hn2. lia.
          * rewrite HP3. exact HPP.
          * exact Ho3. }
    assert (HPf : Permutation (out ++ l2) ((o, id) :: l)).
    { rewrite HP2. rewrite <- HPl. symmetry. apply Permutation_middle. }
    destruct (Hre out l2) as (n & l3 & Hn & HP3 & Ho3).
    { intros e He. assert (Hm : In (fst e) moved).
      { rewrite <- Hout. apply in_map; exact He. }
      apply Hmoved in Hm. destruct Hm as (Hp & Hi & _). split.
      - apply Hg; exact Hp.
      - apply Hin. right; exact Hi. }
    { eapply Permutation_NoDup; [apply Permutation_sym, objs_perm; exact HPf|]. exact ND. }
    { intros x Hx. apply Hin. eapply Permutation_in; [apply (objs_perm _ _ HPf)|exact Hx]. }
    { exact Hord2. }
    exists (S (S n)), l3, (Z.of_nat (idx_child g o l1) + 1)%Z. repeat split.
    - intros m Hm. destruct m as [|m]; [lia|]. destruct m as [|m]; [lia|].
      assert (Hlne : l <> []).
      { intros E. apply Hne. destruct moved as [|p ?]; [reflexivity|].
        destruct (proj1 (Hmoved p) (or_introl eq_refl)) as (_ & Hpl & _).
        rewrite E in Hpl. destruct Hpl. }
      rewrite add_unfold by exact Hlne. cbv zeta. fold ic.
      assert (E1 : existsb (fun p => Z.eqb (idx_parent p l) (Z.of_nat ic)) (parents g o) = false).
      { apply not_true_is_false. intros He. apply existsb_exists in He. destruct He as (p & Hp & He).
        apply Z.eqb_eq in He. assert (Hge : (Z.of_nat ic <= idx_parent p l)%Z) by lia.
        apply idx_parent_ge in Hge. destruct Hge as [Hi Hle].
        apply (Hneq p Hp Hi). unfold idx_parent in He.
        replace (present p l) with true in He by (symmetry; apply present_In; exact Hi). lia. }
      rewrite E1. fold moved. destruct moved as [|p0 ps]; [congruence|].
      rewrite Ht. rewrite Hadd1. rewrite Hn by lia. reflexivity.
    - rewrite HP3. exact HPf.
    - exact Ho3.
    - lia.
  Qed.
End AddOk.

(** * Sequences of insertions *)

Lemma assigned_objs k reqs : map fst (assigned k reqs) = map fst reqs.
Proof.
  revert k; induction reqs as [|[o i] r IH]; intros k; simpl; [reflexivity|].
  destruct (i <? 0)%Z; simpl; rewrite IH; reflexivity.
Qed.

Lemma add_objects_ok g : consistent g -> acyclic g ->
  forall reqs c, NoDup (map fst reqs ++ objs (entries c)) -> ord g (objs (entries c)) ->
  exists n l k, (forall m, n <= m -> add_objects m g c reqs = CDone {| entries := l; counter := k |} 0) /\
    Permutation l (assigned (counter c) reqs ++ entries c) /\ ord g (objs l).
Proof.
  intros Hg Hac. induction reqs as [|[o i] r IH]; intros c ND Ho.
  - exists 0, (entries c), (counter c). repeat split; auto.
    intros m _. destruct c; reflexivity.
  - simpl in ND. inversion ND as [|? ? Hn NDr]; subst.
    assert (NDo : NoDup (o :: objs (entries c))).
    { constructor; [intros H; apply Hn, in_or_app; auto|].
      apply NoDup_app_split in NDr. tauto. }
    set (id := if Z.ltb i 0 then counter c else i).
    set (cnt := if Z.ltb i 0 then (counter c + 1)%Z else counter c).
    destruct (add_ok g Hg Hac (o :: objs (entries c)) o) with (l := entries c) (id := id)
      as (n1 & l1 & r1 & Hn1 & HP1 & Ho1 & _); auto.
    { apply R_acc; auto. left; reflexivity. }
    { apply incl_refl. }
    destruct (IH {| entries := l1; counter := cnt |}) as (n2 & l & k & Hn2 & HP2 & Ho2).
    { simpl. eapply Permutation_NoDup; [|exact ND].
      rewrite (objs_perm _ _ HP1). simpl. apply Permutation_middle. }
    { exact Ho1. }
    exists (n1 + n2), l, k. repeat split.
    + intros m Hm. cbn [add_objects]. unfold add_object. fold id. fold cnt.
      rewrite Hn1 by lia. apply Hn2. lia.
    + rewrite HP2. simpl entries. simpl counter. rewrite HP1. simpl assigned.
      unfold cnt, id. destruct (i <? 0)%Z; simpl; symmetry; apply Permutation_middle.
    + exact Ho2.
Qed.

Lemma add_objects_spec g : consistent g -> acyclic g ->
  forall reqs, NoDup (map fst reqs) ->
  exists n c, (forall fuel, n <= fuel -> add_objects fuel g empty_chain reqs = CDone c 0) /\
    Permutation (entries c) (assigned 0 reqs) /\ ordered g (objs (entries c)).
Proof.
  intros Hg Hac reqs ND.
  destruct (add_objects_ok g Hg Hac reqs empty_chain) as (n & l & k & Hn & HP & Ho).
  - simpl. rewrite app_nil_r. exact ND.
  - exact I.
  - exists n, {| entries := l; counter := k |}. repeat split; auto.
    + simpl in *. rewrite app_nil_r in HP. exact HP.
    + apply ord_ordered; exact Ho.
Qed.

(** One insertion, from an arbitrary well-formed chain. *)
Lemma add_object_returns g : consistent g -> acyclic g ->
  forall c o id, NoDup (o :: objs (entries c)) -> ordered g (objs (entries c)) ->
  exists n c' r, (forall fuel, n <= fuel -> add_object fuel g c o id = CDone c' r) /\ (0 <= r)%Z /\
     ordered g (objs (entries c')).
Proof.
  intros Hg Hac c o id ND Ho. apply ord_ordered in Ho.
  destruct (add_ok g Hg Hac (o :: objs (entries c)) o) with (l := entries c)
     (id := if Z.ltb id 0 then counter c else id)
      as (n1 & l1 & r1 & Hn1 & HP1 & Ho1 & Hr); auto.
  { apply R_acc; auto. left; reflexivity. }
  { apply incl_refl. }
  eexists n1, _, r1. repeat split.
  - intros m Hm. unfold add_object. rewrite Hn1 by lia. reflexivity.
  - exact Hr.
  - apply ord_ordered. exact Ho1.
Qed.

(** * Loop check *)

Lemma check_loops_from_spec g all l pos :
  check_loops_from g all pos l = true <->
  (forall i p c, nth_error (objs l) i = Some p -> edge g p c -> pos + i < index_of c all).
Proof.
  revert pos; induction l as [|e r IH]; intros pos; simpl.
  - split; auto. intros _ i p c H; destruct i; discriminate.
  - rewrite andb_true_iff, forallb_forall, IH. split.
    + intros [H1 H2] i p c Hi He. destruct i as [|i]; simpl in Hi.
      * injection Hi as <-. specialize (H1 c He). apply Nat.ltb_lt in H1. lia.
      * specialize (H2 i p c Hi He). lia.
    + intros H. split.
      * intros c Hc. apply Nat.ltb_lt. specialize (H 0 (fst e) c eq_refl Hc). lia.
      * intros i p c Hi He. specialize (H (S i) p c Hi He). lia.
Qed.

Lemma check_loops_ordered g l : NoDup (objs l) ->
  (check_loops g l = true <-> ordered g (objs l)).
Proof.
  intros ND. unfold check_loops. rewrite check_loops_from_spec. split.
  - intros H i j p c Hi Hj He. specialize (H i p c Hi He).
    rewrite (index_of_nth_NoDup c l j ND Hj) in H. exact H.
  - intros H i p c Hi He. simpl.
    destruct (present c l) eqn:Hp.
    + apply present_In in Hp. eapply H; [exact Hi| |exact He]. apply index_of_nth; exact Hp.
    + unfold present in Hp. apply Nat.ltb_ge in Hp.
      assert (i < length l); [|lia]. rewrite <- objs_length. apply nth_error_Some. congruence.
Qed.

Lemma ordered_no_cycle g os : ordered g os -> ~ has_cycle_in g os.
Proof.
  intros H (o & Hc).
  assert (K : forall x y, clos_trans obj (fun p c => edge g p c /\ In p os /\ In c os) x y ->
             In x os /\ In y os /\
             forall i j, nth_error os i = Some x -> nth_error os j = Some y -> i < j).
  { intros x y Hxy. induction Hxy as [a b (He & Ha & Hb)|a b c _ (Ha & Hb & IH1) _ (_ & Hc' & IH2)].
    - repeat split; auto. intros i j Hi Hj. eapply H; eauto.
    - repeat split; auto. intros i j Hi Hj. destruct (In_nth_error _ _ Hb) as [k Hk].
      specialize (IH1 i k Hi Hk). specialize (IH2 k j Hk Hj). lia. }
  destruct (K _ _ Hc) as (Hi & _ & Hlt). destruct (In_nth_error _ _ Hi) as [i Hn].
  specialize (Hlt i i Hn Hn). lia.
Qed.

(** Without distinctness: a passed check still excludes cycles. *)
Lemma check_loops_no_cycle g l : check_loops g l = true -> ~ has_cycle_in g (objs l).
Proof.
  intros H (o & Hc). unfold check_loops in H. rewrite check_loops_from_spec in H. simpl in H.
  assert (K : forall x y, clos_trans obj (fun p c => edge g p c /\ In p (objs l) /\ In c (objs l)) x y ->
             In x (objs l) /\ In y (objs l) /\ index_of x l < index_of y l).
  { intros x y Hxy. induction Hxy as [a b (He & Ha & Hb)|a b c _ (Ha & Hb & IH1) _ (_ & Hc' & IH2)].
    - repeat split; auto. eapply H; [|exact He]. apply index_of_nth; exact Ha.
    - repeat split; auto. lia. }
  destruct (K _ _ Hc) as (_ & _ & Hlt). lia.
Qed.

Lemma exec_spec g l : NoDup (objs l) ->
  (exec g l = None /\ ~ ordered g (objs l)) \/ (exec g l = Some (objs l) /\ ordered g (objs l)).
Proof.
  intros ND. unfold exec. destruct (check_loops g l) eqn:E.
  - right. split; auto. apply check_loops_ordered; auto.
  - left. split; auto. intros H. apply check_loops_ordered in H; auto. congruence.
Qed.

Lemma exec_cycle g l : has_cycle_in g (objs l) -> exec g l = None.
Proof.
  intros H. unfold exec. destruct (check_loops g l) eqn:E; [|reflexivity].
  exfalso. eapply check_loops_no_cycle; eauto.
Qed.

(** * What may be lost, for any graph *)

Definition lost_rel (l' l : list entry) : Prop := exists lost, Permutation (l' ++ lost) l.

Lemma lost_refl l : lost_rel l l.
Proof. exists []. rewrite app_nil_r. reflexivity. Qed.

Lemma lost_trans a b c : lost_rel a b -> lost_rel b c -> lost_rel a c.
Proof. intros [x Hx] [y Hy]. exists (x ++ y). rewrite <- Hy, <- Hx, app_assoc. reflexivity. Qed.

Lemma lost_cons x a b : lost_rel a b -> lost_rel (x :: a) (x :: b).
Proof. intros [y Hy]. exists y. simpl. constructor. exact Hy. Qed.

Lemma lost_perm a b : Permutation a b -> lost_rel a b.
Proof. intros H. exists []. rewrite app_nil_r. exact H. Qed.

Lemma lost_skip x a b : lost_rel a b -> lost_rel a (x :: b).
Proof.
  intros [y Hy]. exists (x :: y). rewrite <- Hy. symmetry. apply Permutation_middle.
Qed.

Lemma lost_app_l c a b : lost_rel a b -> lost_rel (c ++ a) (c ++ b).
Proof. intros [y Hy]. exists y. rewrite <- app_assoc. apply Permutation_app_head. exact Hy. Qed.

Lemma readd_lost f : (forall l o id l' r, f l o id = Done l' r -> lost_rel l' ((o, id) :: l)) ->
  forall out l l' r, readd f out l = Done l' r -> lost_rel l' (out ++ l).
Proof.
  intros Hf. induction out as [|[p i] out IH]; simpl; intros l l' r H.
  - injection H as <- <-. apply lost_refl.
  - destruct (f l p i) as [l1 r1| |] eqn:E; try discriminate.
    eapply lost_trans; [eapply IH; exact H|].
    eapply lost_trans; [apply lost_app_l, (Hf _ _ _ _ _ E)|].
    apply lost_perm. symmetry. apply Permutation_middle.
Qed.

Lemma add_lost g : forall fuel l o id l' r, add fuel g l o id = Done l' r -> lost_rel l' ((o, id) :: l).
Proof.
  induction fuel as [|f IH]; intros l o id l' r H; [discriminate|].
  destruct l as [|e0 r0].
  - simpl in H. injection H as <- <-. apply lost_refl.
  - cbn [add] in H. set (l := e0 :: r0) in *.
    destruct (existsb _ (parents g o)).
    + injection H as <- <-. apply lost_skip, lost_refl.
    + destruct (filter _ (parents g o)) as [|p ps] eqn:Ef.
      * injection H as <- <-. apply lost_perm, insert_at_perm.
      * destruct (take_out_all (p :: ps) l) as [[out l1]|] eqn:Ht; [|discriminate].
        apply take_out_all_perm in Ht. destruct Ht as [Ht _].
        destruct (add f g l1 o id) as [l2 idx| |] eqn:Ea; try discriminate.
        destruct (readd (add f g) out l2) as [l3 x| |] eqn:Er; try discriminate.
        injection H as <- <-.
        eapply lost_trans; [eapply readd_lost; [|exact Er]; apply IH|].
        eapply lost_trans; [apply lost_app_l, (IH _ _ _ _ _ Ea)|].
        apply lost_perm. rewrite <- Ht. symmetry. apply Permutation_middle.
Qed.

(** * Ids *)

Definition ids_inv (c : chain) : Prop :=
  NoDup (ids (entries c)) /\ (forall i, In i (ids (entries c)) -> (0 <= i < counter c)%Z) /\ (0 <= counter c)%Z.

Lemma lost_ids a b : lost_rel a b -> NoDup (ids b) -> NoDup (ids a) /\ incl (ids a) (ids b).
Proof.
  intros [x Hx] ND. apply (Permutation_map snd) in Hx. rewrite map_app in Hx.
  assert (H : NoDup (map snd a ++ map snd x)).
  { eapply Permutation_NoDup; [apply Permutation_sym; exact Hx|exact ND]. }
  apply NoDup_app_split in H. split; [tauto|].
  intros i Hi. eapply Permutation_in; [exact Hx|]. apply in_or_app; auto.
Qed.

Lemma add_object_ids fuel g c o c' r :
  ids_inv c -> add_object fuel g c o (-1) = CDone c' r -> ids_inv c'.
Proof.
  intros (ND & Hlt & H0) H. unfold add_object in H. simpl in H.
  destruct (add fuel g (entries c) o (counter c)) as [l x| |] eqn:E; try discriminate.
  injection H as <- <-. apply add_lost in E.
  assert (NDc : NoDup (ids ((o, counter c) :: entries c))).
  { simpl. constructor; [|exact ND]. intros Hi. specialize (Hlt _ Hi). lia. }
  destruct (lost_ids _ _ E NDc) as [N1 N2]. unfold ids_inv. cbn [entries counter].
  split; [exact N1|]. split; [|lia].
  intros i Hi. specialize (N2 i Hi). cbn [ids map snd] in N2.
  destruct N2 as [<-|N2]; [lia|]. specialize (Hlt i N2). lia.
Qed.

Lemma delete_entry_spec g id l : NoDup (ids l) ->
  fst (delete_entry g id l) = filter (fun e => negb (Z.eqb (snd e) id)) l.
Proof.
  induction l as [|e r IH]; simpl; intros ND; [reflexivity|].
  inversion ND as [|? ? Hn NDr]; subst.
  destruct (Z.eqb_spec (snd e) id) as [He|He]; simpl.
  - rewrite <- He in *. clear - Hn. induction r as [|x r IHr]; simpl; [reflexivity|].
    simpl in Hn. destruct (Z.eqb_spec (snd x) (snd e)) as [E|E].
    + exfalso. apply Hn. left; exact E.
    + simpl. f_equal. apply IHr. intros H; apply Hn; right; exact H.
  - specialize (IH NDr). destruct (delete_entry g id r). simpl in *. f_equal. exact IH.
Qed.

Lemma delete_entry_flag g id l : NoDup (ids l) ->
  (snd (delete_entry g id l) = true <->
   exists o, In (o, id) l /\ (parents g o <> [] \/ children g o <> [])).
Proof.
  induction l as [|[o i] r IH]; simpl; intros ND.
  - split; [discriminate|]. intros (o & [] & _).
  - inversion ND as [|? ? Hn NDr]; subst.
    destruct (Z.eqb_spec i id) as [->|He]; simpl.
    + split.
      * intros H. exists o. split; [left; reflexivity|].
        destruct (parents g o); [destruct (children g o); [discriminate|]|]; auto; [right|left]; discriminate.
      * intros (o' & [E|Hin] & Ho').
        -- injection E as <-. destruct (parents g o); [|reflexivity].
           destruct (children g o); [|reflexivity]. exfalso; destruct Ho' as [H|H]; apply H; reflexivity.
        -- exfalso. apply Hn. apply (in_map snd) in Hin. exact Hin.
    + specialize (IH NDr). destruct (delete_entry g id r) as [r' b]. simpl in *. rewrite IH.
      split; intros (o' & Hi & Ho'); exists o'; split; auto.
      destruct Hi as [E|Hi]; [injection E as -> ->; contradiction|exact Hi].
Qed.

Lemma delete_object_ids g c id : ids_inv c -> ids_inv (fst (delete_object g c id)).
Proof.
  intros (ND & Hlt & H0). unfold delete_object.
  pose proof (delete_entry_spec g id (entries c) ND) as E.
  destruct (delete_entry g id (entries c)) as [l b]. simpl in *. subst l.
  assert (Hs : forall i, In i (ids (filter (fun e => negb (snd e =? id)%Z) (entries c))) ->
              In i (ids (entries c))).
  { intros i Hi. apply in_map_iff in Hi. destruct Hi as (e & <- & He).
    apply filter_In in He. apply in_map. tauto. }
  repeat split; simpl; auto; try (intros; apply Hlt; auto).
  clear - ND. induction (entries c) as [|e r IH]; simpl; [constructor|].
  simpl in ND. inversion ND as [|? ? Hn NDr]; subst.
  destruct (negb (snd e =? id)%Z); simpl; [constructor; auto|auto].
  intros Hi. apply Hn. apply in_map_iff in Hi. destruct Hi as (x & <- & Hx).
  apply filter_In in Hx. apply in_map. tauto.
Qed.

Lemma run_ops_ids fuel ops : forall c c' r,
  ids_inv c -> run_ops fuel c ops = CDone c' r -> ids_inv c'.
Proof.
  induction ops as [|[g [o|id]] ops IH]; simpl; intros c c' r Hc H.
  - injection H as <- <-. exact Hc.
  - destruct (add_object fuel g c o (-1)) as [c1 x| |] eqn:E; try discriminate.
    eapply IH; [|exact H]. eapply add_object_ids; eauto.
  - eapply IH; [|exact H]. apply delete_object_ids; exact Hc.
Qed.

Lemma empty_ids_inv : ids_inv empty_chain.
Proof. split; [constructor|]. split; [intros i []|simpl; lia]. Qed.

(** * Clone *)

Lemma insert_at_length {A} (x : A) l : insert_at (length l) x l = l ++ [x].
Proof. unfold insert_at. rewrite firstn_all, skipn_all. reflexivity. Qed.

Lemma clone_run g fuel : consistent g -> forall l done k,
  NoDup (objs (done ++ l)) -> ord g (objs (done ++ l)) -> (forall e, In e l -> (0 <= snd e)%Z) ->
  add_objects (S fuel) g {| entries := done; counter := k |} l =
  CDone {| entries := done ++ l; counter := k |} 0.
Proof.
  intros Hg. induction l as [|[o i] l IH]; intros done k ND Ho Hi.
  - simpl. rewrite app_nil_r. reflexivity.
  - cbn [add_objects]. unfold add_object. cbn [counter entries].
    assert (Hi0 : (0 <= i)%Z) by (apply (Hi (o, i)); left; reflexivity).
    replace (i <? 0)%Z with false by (symmetry; apply Z.ltb_ge; exact Hi0).
    assert (Hno : ~ In o (objs done)).
    { rewrite objs_app in ND. simpl in ND. apply NoDup_remove_2 in ND.
      intros H; apply ND, in_or_app; auto. }
    assert (Hnc : forall c, In c (objs done) -> ~ edge g o c).
    { intros c Hc He. rewrite objs_app in Ho. apply ord_app in Ho. destruct Ho as (_ & _ & H3).
      apply (H3 c o Hc); [left; reflexivity|exact He]. }
    assert (NDd : NoDup (objs done)).
    { rewrite objs_app in ND. apply NoDup_app_split in ND. tauto. }
    assert (Hic : idx_child g o done = length done).
    { pose proof (idx_child_le g o done).
      destruct (Nat.lt_ge_cases (idx_child g o done) (length done)) as [Hlt|]; [exfalso|lia].
      destruct (idx_child_is g o done Hlt) as (c & Hc & Hn). apply nth_error_In in Hn.
      eapply Hnc; eauto. }
    rewrite add_direct.
    2:{ intros p Hp Hin. rewrite Hic. apply present_In in Hin. apply Nat.ltb_lt; exact Hin. }
    rewrite Hic, insert_at_length.
    rewrite IH.
    + rewrite <- app_assoc. reflexivity.
    + rewrite <- app_assoc. exact ND.
    + rewrite <- app_assoc. exact Ho.
    + intros e He. apply Hi. right; exact He.
Qed.

Lemma clone_same g c : consistent g -> NoDup (objs (entries c)) -> ordered g (objs (entries c)) ->
  (forall e, In e (entries c) -> (0 <= snd e)%Z) ->
  forall fuel, 1 <= fuel -> exists c', clone fuel g c = CDone c' 0 /\ entries c' = entries c.
Proof.
  intros Hg ND Ho Hi fuel Hf. destruct fuel as [|fuel]; [lia|].
  unfold clone. eexists. split.
  - apply (clone_run g fuel Hg (entries c) [] 0); auto. apply ord_ordered; exact Ho.
  - reflexivity.
Qed.

(** * The index returned *)

Lemma add_direct_index g c o id : consistent g -> NoDup (o :: objs (entries c)) ->
  (forall p x, In p (parents g o) -> In x (children g o) ->
     forall i j, nth_error (objs (entries c)) i = Some p -> nth_error (objs (entries c)) j = Some x -> i < j) ->
  forall fuel, 1 <= fuel ->
  exists c' r, add_object fuel g c o id = CDone c' (Z.of_nat r) /\
     nth_error (objs (entries c')) r = Some o.
Proof.
  intros Hg ND H fuel Hf. destruct fuel as [|fuel]; [lia|].
  inversion ND as [|? ? Hno NDl]; subst.
  set (l := entries c) in *.
  unfold add_object. fold l. rewrite add_direct.
  2:{ intros p Hp Hi. pose proof (idx_child_le g o l).
      destruct (Nat.lt_ge_cases (idx_child g o l) (length l)) as [Hlt|Hge].
      - destruct (idx_child_is g o l Hlt) as (x & Hx & Hn).
        eapply H; [exact Hp|exact Hx| |exact Hn]. apply index_of_nth; exact Hi.
      - apply present_In in Hi. apply Nat.ltb_lt in Hi. lia. }
  eexists _, (idx_child g o l). split; [reflexivity|].
  cbn [entries]. unfold insert_at. rewrite objs_app, objs_firstn.
  pose proof (idx_child_le g o l).
  rewrite nth_error_app2; rewrite firstn_length, objs_length, Nat.min_l by lia; [|lia].
  rewrite Nat.sub_diag. reflexivity.
Qed.

(** * Result -1 *)
Lemma add_minus_one g c o id fuel c' : consistent g -> NoDup (objs (entries c)) ->
  add_object fuel g c o id = CDone c' (-1) ->
  entries c' = entries c /\ exists x, In x (objs (entries c)) /\ edge g o x /\ edge g x o.
Proof.
  intros Hg ND H. unfold add_object in H.
  set (i := if Z.ltb id 0 then counter c else id) in *.
  destruct (add fuel g (entries c) o i) as [l r| |] eqn:E; try discriminate.
  injection H as <- ->. cbn [entries].
  destruct fuel as [|f]; [discriminate|].
  set (l0 := entries c) in *. clearbody l0 i.
  assert (Hnn : forall f l o i l' r, add f g l o i = Done l' r -> (-1 <= r)%Z).
  { clear. induction f as [|f IH]; intros l o i l' r H; [discriminate|].
    destruct l as [|e0 r0]; [simpl in H; injection H as <- <-; lia|].
    cbn [add] in H. destruct (existsb _ _); [injection H as <- <-; lia|].
    destruct (filter _ _) as [|pp pps]; [injection H as <- <-; lia|].
    destruct (take_out_all _ _) as [[out l1]|]; [|discriminate].
    destruct (add f g l1 o i) as [l2 idx| |] eqn:Ea; try discriminate.
    destruct (readd _ _ _); try discriminate. injection H as <- <-. apply IH in Ea. lia. }
  destruct l0 as [|e0 r0]; [simpl in E; injection E as <- ?; discriminate|].
  cbn [add] in E. set (l0 := e0 :: r0) in *.
  destruct (existsb _ (parents g o)) eqn:Ex.
  - injection E as <-. split; [reflexivity|].
    apply existsb_exists in Ex. destruct Ex as (p & Hp & He). apply Z.eqb_eq in He.
    assert (Hge : (Z.of_nat (idx_child g o l0) <= idx_parent p l0)%Z) by lia.
    apply idx_parent_ge in Hge. destruct Hge as [Hi _].
    unfold idx_parent in He. replace (present p l0) with true in He by (symmetry; apply present_In; exact Hi).
    apply Nat2Z.inj in He. pose proof (proj2 (present_In p l0) Hi) as Hpr. apply Nat.ltb_lt in Hpr.
    destruct (idx_child_is g o l0) as (x & Hx & Hn); [rewrite <- He; exact Hpr|].
    rewrite <- He, index_of_nth in Hn by exact Hi. injection Hn as ->.
    exists x. split; [exact Hi|]. split; [exact Hx|]. apply Hg; exact Hp.
  - destruct (filter _ _) as [|pp pps].
    + injection E as <- E. lia.
    + destruct (take_out_all _ _) as [[out l1]|]; [|discriminate].
      destruct (add f g l1 o i) as [l2 idx| |] eqn:Ea; try discriminate.
      destruct (readd _ _ _) as [l3 y| |]; try discriminate. injection E as <- E.
      (* idx = -2 impossible *)
      apply Hnn in Ea. lia.
Qed.
