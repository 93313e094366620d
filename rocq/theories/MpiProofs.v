(** Proofs about processes that communicate. *)
From Coq Require Import List Arith Bool Lia.
From Verif Require Import Mpi MpiSpec.
Import ListNotations.

Inductive status := NotYet | Sent | Done.
Section Proofs.
  Context {W : Type}.
  Notation item := (comm W * list W * status)%type.
  Definition ic (x : item) : comm W := fst (fst x).
  Definition iv (x : item) : list W := snd (fst x).
  Definition is (x : item) : status := snd x.

  Definition iside (i : nat) (x : item) : list (op W) :=
    match is x with
    | NotYet => side i (ic x)
    | Sent => if Nat.eqb (c_dst (ic x)) i then [Recv (c_src (ic x)) (c_tag (ic x)) (c_room (ic x))] else []
    | Done => []
    end.
  Definition imsg (i d : nat) (x : item) : list (nat * list W) :=
    match is x with Sent => if Nat.eqb (c_src (ic x)) i && Nat.eqb (c_dst (ic x)) d then [(c_tag (ic x), iv x)] else [] | _ => [] end.
  Definition brcv (i : nat) (x : comm W * list W) : list (rcv W) := if Nat.eqb (c_dst (fst x)) i then [(c_src (fst x), c_tag (fst x), snd x)] else [].
  Definition igot (i : nat) (x : item) : list (rcv W) := match is x with Done => brcv i (fst x) | _ => [] end.

  (** what is sent, one at a time *)
  Definition push (log : nat -> list (rcv W)) (c : comm W) (v : list W) : nat -> list (rcv W) := fun j => if Nat.eqb j (c_dst c) then log j ++ [(c_src c, c_tag c, v)] else log j.
  Fixpoint ann (cs : list (comm W)) (log : nat -> list (rcv W)) : list (comm W * list W) :=
    match cs with [] => [] | c :: r => let v := c_data c (log (c_src c)) in (c, v) :: ann r (push log c v) end.
  Fixpoint right (log : nat -> list (rcv W)) (b : list (comm W * list W)) : Prop :=
    match b with
    | [] => True
    | (c, v) :: r => c_src c <> c_dst c /\ v = c_data c (log (c_src c)) /\ length v <= c_room c (log (c_dst c)) /\ right (push log c v) r
    end.
  Lemma ann_right : forall cs log, fits cs log -> right log (ann cs log).
  Proof. induction cs as [|c r IH]; intros log H; cbn [ann right] in *; [exact I|]. cbv zeta. cbn [fits] in H. destruct H as (A & B & H). split; [exact A|]. split; [reflexivity|]. split; [exact B|]. apply IH. exact H. Qed.
  Lemma ann_play : forall cs log i, play cs log i = log i ++ flat_map (brcv i) (ann cs log).
  Proof.
    induction cs as [|c r IH]; intros log i; cbn [play ann flat_map]; cbv zeta; [rewrite app_nil_r; reflexivity|]. cbn [flat_map]. fold (push log c (c_data c (log (c_src c)))). rewrite (IH (push log c _)). unfold push at 1, brcv at 2. cbn [fst snd].
    rewrite (Nat.eqb_sym i). destruct (Nat.eqb (c_dst c) i); [rewrite <- app_assoc; reflexivity|reflexivity].
  Qed.
  Lemma ann_length : forall cs log, length (ann cs log) = length cs.
  Proof. induction cs as [|c r IH]; intros log; cbn [ann]; cbv zeta; [reflexivity|]. cbn [length]. rewrite IH. reflexivity. Qed.
  Lemma ann_fst : forall cs log, map fst (ann cs log) = cs.
  Proof. induction cs as [|c r IH]; intros log; cbn [ann]; cbv zeta; [reflexivity|]. cbn [map fst]. rewrite IH. reflexivity. Qed.
  Lemma push_log : forall log c v i, push log c v i = log i ++ brcv i (c, v).
  Proof. intros log c v i. unfold push, brcv. cbn [fst snd]. rewrite (Nat.eqb_sym i). destruct (Nat.eqb (c_dst c) i); [reflexivity|rewrite app_nil_r; reflexivity]. Qed.
  Lemma right_at : forall l1 log c v l2, right log (l1 ++ (c, v) :: l2) ->
    c_src c <> c_dst c /\ v = c_data c (log (c_src c) ++ flat_map (brcv (c_src c)) l1) /\ length v <= c_room c (log (c_dst c) ++ flat_map (brcv (c_dst c)) l1).
  Proof.
    induction l1 as [|(c', v') l1 IH]; intros log c v l2 H; cbn [app right flat_map] in H |- *; [rewrite !app_nil_r; destruct H as (A & B & C & _); auto|]. destruct H as (_ & _ & _ & H). apply IH in H. rewrite !push_log in H. rewrite !app_assoc. exact H.
  Qed.

  Fixpoint ordered (l : list item) : Prop :=
    match l with
    | [] => True
    | u :: r => (forall w j, In w r -> iside j u <> [] -> side j (ic w) <> [] -> iside j w <> []) /\ ordered r
    end.
  Record inv (l : list item) (s : net W) : Prop := {
    inv_prog : forall i, prog s i = flat_map (iside i) l;
    inv_chan : forall i d, chan s i d = flat_map (imsg i d) l;
    inv_got : forall i, got s i = flat_map (igot i) l;
    inv_right : right (fun _ => []) (map fst l);
    inv_ordered : ordered l }.

  Lemma flat_nil : forall (X Y : Type) (f : X -> list Y) l, (forall x, In x l -> f x = []) -> flat_map f l = [].
  Proof. intros X Y f l H. induction l as [|x l IH]; [reflexivity|]. cbn [flat_map]. rewrite (H x) by (left; reflexivity). apply IH. intros y I. apply H. right. exact I. Qed.
  Lemma flat_nil_inv : forall (X Y : Type) (f : X -> list Y) l, flat_map f l = [] -> forall x, In x l -> f x = [].
  Proof. intros X Y f l H x I. destruct (f x) as [|y r] eqn:E; [reflexivity|]. assert (J : In y (flat_map f l)) by (apply in_flat_map; exists x; rewrite E; split; [exact I|left; reflexivity]). rewrite H in J. destruct J. Qed.
  Lemma flat_head : forall (X Y : Type) (f : X -> list Y) l a r, (forall x, length (f x) <= 1) -> flat_map f l = a :: r -> exists l1 x l2, l = l1 ++ x :: l2 /\ flat_map f l1 = [] /\ f x = [a] /\ flat_map f l2 = r.
  Proof.
    intros X Y f l a r L. induction l as [|x l IH]; cbn [flat_map]; intros H; [discriminate|]. specialize (L x) as Lx. destruct (f x) as [|b [|c k]] eqn:E; cbn [length] in Lx; [|  |lia].
    - destruct (IH H) as (l1 & y & l2 & -> & A & B & C). exists (x :: l1), y, l2. split; [reflexivity|]. cbn [flat_map]. rewrite E, A. auto.
    - cbn [app] in H. injection H as <- <-. exists [], x, l. auto.
  Qed.
  Lemma iside_one : forall i x, length (iside i x) <= 1.
  Proof. intros i x. unfold iside, side. destruct (is x); repeat match goal with |- context [Nat.eqb ?a ?b] => destruct (Nat.eqb a b) end; cbn; lia. Qed.

  (** one call made *)
  Definition advanced (i : nat) (x x' : item) : Prop := fst x' = fst x /\ iside i x' = [] /\ forall j, j <> i -> iside j x' = iside j x.
  Lemma ordered_adv : forall i x x' l2 l1, advanced i x x' -> flat_map (iside i) l1 = [] -> ordered (l1 ++ x :: l2) -> ordered (l1 ++ x' :: l2).
  Proof.
    intros i x x' l2 l1 (F & A & B). induction l1 as [|u l1 IH]; cbn [app ordered]; intros N O.
    - destruct O as (O & O2). split; [|exact O2]. intros w j Iw U. apply O; [exact Iw|]. destruct (Nat.eq_dec j i) as [-> | D]; [contradiction|]. rewrite <- (B j D). exact U.
    - cbn [flat_map] in N. apply app_eq_nil in N. destruct N as (Nu & N). destruct O as (O & O2). split; [|apply IH; assumption]. intros w j Iw U Sd. destruct (Nat.eq_dec j i) as [-> | D]; [contradiction|].
      apply in_app_iff in Iw. destruct Iw as [Iw | [<- | Iw]].
      + apply O; [apply in_app_iff; auto|exact U|exact Sd].
      + rewrite (B j D). apply O; [apply in_app_iff; right; left; reflexivity|exact U|]. unfold ic in *. rewrite <- F. exact Sd.
      + apply O; [apply in_app_iff; right; right; exact Iw|exact U|exact Sd].
  Qed.
  Lemma ordered_at : forall l1 x l2 w j, ordered (l1 ++ x :: l2) -> In w l2 -> iside j x <> [] -> side j (ic w) <> [] -> iside j w <> [].
  Proof. induction l1 as [|u l1 IH]; cbn [app ordered]; intros x l2 w j (O & O2) Iw; [apply O; exact Iw|]. apply (IH x l2); assumption. Qed.
  Lemma map_fst_adv : forall (l1 : list item) x x' l2, fst x' = fst x -> map fst (l1 ++ x' :: l2) = map fst (l1 ++ x :: l2).
  Proof. intros l1 x x' l2 F. rewrite !map_app. cbn [map]. rewrite F. reflexivity. Qed.
  Lemma right_item : forall l1 x l2, right (fun _ => []) (map fst (l1 ++ x :: l2)) ->
    c_src (ic x) <> c_dst (ic x) /\ iv x = c_data (ic x) (flat_map (brcv (c_src (ic x))) (map fst l1)) /\ length (iv x) <= c_room (ic x) (flat_map (brcv (c_dst (ic x))) (map fst l1)).
  Proof. intros l1 ((c, v), st) l2 H. rewrite map_app in H. cbn [map fst] in H. apply right_at in H. exact H. Qed.

  (** what process i has received when its next call is in x *)
  Lemma got_at : forall l1 x l2 i, ordered (l1 ++ x :: l2) -> flat_map (iside i) l1 = [] -> iside i x <> [] -> (forall y, In y (l1 ++ x :: l2) -> c_src (ic y) <> c_dst (ic y)) ->
    flat_map (igot i) (l1 ++ x :: l2) = flat_map (brcv i) (map fst l1).
  Proof.
    intros l1 x l2 i O N U Sf. rewrite flat_map_app. cbn [flat_map].
    assert (Gd : forall y, In y (l1 ++ x :: l2) -> iside i y <> [] -> igot i y = []).
    { intros ((c, v), st) _ H. unfold igot, iside in *. cbn in *. destruct st; try reflexivity. contradiction. }
    rewrite (Gd x) by (first [exact U|apply in_app_iff; right; left; reflexivity]).
    rewrite (flat_nil _ _ (igot i) l2).
    - rewrite !app_nil_r. assert (Sf1 : forall y, In y l1 -> c_src (ic y) <> c_dst (ic y)) by (intros y I; apply Sf; apply in_app_iff; auto). clear - N Sf1. induction l1 as [|((c, v), st) l1 IH]; [reflexivity|]. cbn [flat_map map fst] in *. apply app_eq_nil in N. destruct N as (N & N1).
      rewrite (IH N1) by (intros y I; apply Sf1; right; exact I). f_equal. unfold igot, iside in *. cbn [is ic snd fst] in *. specialize (Sf1 _ (or_introl eq_refl)). cbn [ic fst] in Sf1. destruct st; [| |reflexivity].
      + unfold side in N. unfold brcv. cbn [fst]. destruct (Nat.eqb (c_src c) i); [discriminate|]. destruct (Nat.eqb (c_dst c) i); [discriminate|reflexivity].
      + unfold brcv. cbn [fst]. destruct (Nat.eqb (c_dst c) i); [discriminate|reflexivity].
    - intros y I. destruct (side i (ic y)) as [|o r] eqn:E.
      + destruct y as ((c, v), st). unfold igot, side, brcv in *. cbn in *. destruct st; try reflexivity. destruct (Nat.eqb (c_src c) i); [discriminate|]. destruct (Nat.eqb (c_dst c) i); [discriminate|reflexivity].
      + apply Gd; [apply in_app_iff; right; right; exact I|]. apply (ordered_at l1 x l2 y i O I U). rewrite E. discriminate.
  Qed.
  Lemma self_all : forall l, right (fun _ => []) (map fst l) -> forall y, In y l -> c_src (ic y) <> c_dst (ic y).
  Proof. intros l R y I. apply in_split in I. destruct I as (a & b & ->). apply right_item in R. apply R. Qed.

  Definition weight (x : item) : nat := match is x with NotYet => 2 | Sent => 1 | Done => 0 end.
  Fixpoint sumw (l : list item) : nat := match l with [] => 0 | x :: r => weight x + sumw r end.
  Lemma sumw_app : forall a b, sumw (a ++ b) = sumw a + sumw b.
  Proof. induction a as [|x a IH]; intros b; cbn; [reflexivity|]. rewrite IH. lia. Qed.

  Lemma upd_same : forall (X : Type) (f : nat -> X) i x, upd f i x i = x.
  Proof. intros. unfold upd. rewrite Nat.eqb_refl. reflexivity. Qed.
  Lemma upd_other : forall (X : Type) (f : nat -> X) i x j, j <> i -> upd f i x j = f j.
  Proof. intros. unfold upd. apply Nat.eqb_neq in H. rewrite H. reflexivity. Qed.
  Lemma inv_ext : forall l s s', inv l s -> (forall i, prog s' i = prog s i) -> (forall i d, chan s' i d = chan s i d) -> (forall i, got s' i = got s i) -> inv l s'.
  Proof. intros l s s' [A B C D E] P Q R. constructor; intros; rewrite ?P, ?Q, ?R; auto. Qed.

  (** the next call of a process *)
  Lemma next_call : forall l s i o r, inv l s -> prog s i = o :: r -> exists l1 x l2, l = l1 ++ x :: l2 /\ flat_map (iside i) l1 = [] /\ iside i x = [o] /\ flat_map (iside i) l2 = r.
  Proof. intros l s i o r V P. rewrite (inv_prog _ _ V) in P. apply flat_head; [apply iside_one|exact P]. Qed.
  Lemma prog_adv : forall i x x' l1 l2 r s, advanced i x x' -> (forall j, prog s j = flat_map (iside j) (l1 ++ x :: l2)) -> flat_map (iside i) l1 = [] -> flat_map (iside i) l2 = r ->
    forall j, upd (prog s) i r j = flat_map (iside j) (l1 ++ x' :: l2).
  Proof.
    intros i x x' l1 l2 r s (F & A & B) P N1 N2 j. rewrite flat_map_app. cbn [flat_map]. destruct (Nat.eq_dec j i) as [-> | D]; [rewrite upd_same, A, N1, N2; reflexivity|].
    rewrite upd_other by exact D. rewrite P, flat_map_app, (B j D). reflexivity.
  Qed.
  Lemma is_send : forall i (x : item) d t f, iside i x = [Send d t f] -> is x = NotYet /\ c_src (ic x) = i /\ c_dst (ic x) = d /\ c_tag (ic x) = t /\ c_data (ic x) = f.
  Proof.
    intros i ((c, v), st) d t f H. unfold iside, side in H. cbn [is ic fst snd] in *. destruct st; [| |discriminate].
    - destruct (Nat.eqb_spec (c_src c) i) as [E|E]; [injection H as; subst; auto 6|]. destruct (Nat.eqb (c_dst c) i); discriminate.
    - destruct (Nat.eqb (c_dst c) i); discriminate.
  Qed.
  Lemma is_recv : forall d (x : item) i t room, iside d x = [Recv i t room] -> is x <> Done /\ c_src (ic x) = i /\ c_dst (ic x) = d /\ c_tag (ic x) = t /\ c_room (ic x) = room.
  Proof.
    intros d ((c, v), st) i t room H. unfold iside, side in H. cbn [is ic fst snd] in *. destruct st; [| |discriminate]; (split; [discriminate|]).
    - destruct (Nat.eqb_spec (c_src c) d) as [E|E]; [discriminate|]. destruct (Nat.eqb_spec (c_dst c) d) as [E'|E']; [|discriminate]. injection H as; subst; auto.
    - destruct (Nat.eqb_spec (c_dst c) d) as [E'|E']; [|discriminate]. injection H as; subst; auto.
  Qed.
  Lemma no_sent_before : forall i d l1, flat_map (iside d) l1 = [] -> flat_map (imsg i d) l1 = [].
  Proof.
    intros i d l1 H. apply flat_nil. intros ((c, v), st) I. pose proof (flat_nil_inv _ _ _ _ H _ I) as N. unfold iside, imsg in *. cbn [is ic fst snd] in *. destruct st; try reflexivity.
    destruct (Nat.eqb (c_dst c) d); [discriminate|]. rewrite andb_false_r. reflexivity.
  Qed.
  Lemma no_sent_after : forall i d x l1 l2, ordered (l1 ++ x :: l2) -> (forall y, In y (l1 ++ x :: l2) -> c_src (ic y) <> c_dst (ic y)) -> iside i x <> [] -> i <> d -> flat_map (imsg i d) l2 = [].
  Proof.
    intros i d x l1 l2 O Sf U D. apply flat_nil. intros y I. pose proof (ordered_at l1 x l2 y i O I U) as Q. destruct y as ((c, v), st). unfold imsg. cbn [is ic fst snd] in *. destruct st; try reflexivity.
    destruct (Nat.eqb_spec (c_src c) i) as [E|E]; [|reflexivity]. destruct (Nat.eqb_spec (c_dst c) d) as [E'|E']; [|reflexivity]. exfalso. apply Q.
    - unfold side. destruct (Nat.eqb_spec (c_src c) i); [discriminate|contradiction].
    - unfold iside. cbn [is ic fst snd]. destruct (Nat.eqb_spec (c_dst c) i); [subst; congruence|reflexivity].
  Qed.

  Lemma inv_send : forall l s i d t f r, inv l s -> prog s i = Send d t f :: r ->
    exists l', inv l' (Net (upd (prog s) i r) (upd (chan s) i (upd (chan s i) d (chan s i d ++ [(t, f (got s i))]))) (got s)) /\ map fst l' = map fst l /\ sumw l = S (sumw l').
  Proof.
    intros l s i d t f r V P. destruct (next_call _ _ _ _ _ V P) as (l1 & ((c, v), st) & l2 & -> & N1 & X & N2). destruct (is_send _ _ _ _ _ X) as (St & Ci & Cd & Ct & Cf). cbn [is ic fst snd] in St, Ci, Cd, Ct, Cf. subst st.
    pose proof (self_all _ (inv_right _ _ V)) as Sf. pose proof (right_item _ _ _ (inv_right _ _ V)) as (Sd & Dt & _). cbn [ic iv fst snd] in Sd, Dt.
    assert (Gi : got s i = flat_map (brcv i) (map fst l1)) by (rewrite (inv_got _ _ V); apply got_at; [apply (inv_ordered _ _ V)|exact N1|rewrite X; discriminate|exact Sf]).
    assert (Ad : advanced i (c, v, NotYet) (c, v, Sent)).
    { split; [reflexivity|]. unfold iside, side. cbn [is ic fst snd]. split; [destruct (Nat.eqb_spec (c_dst c) i); [subst; congruence|reflexivity]|]. intros j D. destruct (Nat.eqb_spec (c_src c) j); [congruence|reflexivity]. }
    exists (l1 ++ (c, v, Sent) :: l2). split; [|split; [apply map_fst_adv; reflexivity|rewrite !sumw_app; cbn [sumw weight is snd]; lia]]. constructor; cbn [prog chan got].
    - apply (prog_adv i _ _ _ _ _ _ Ad (inv_prog _ _ V) N1 N2).
    - intros i' d'. rewrite flat_map_app. cbn [flat_map]. pose proof (inv_chan _ _ V i' d') as Q. rewrite flat_map_app in Q. cbn [flat_map] in Q. unfold imsg at 2. cbn [is ic iv fst snd]. rewrite Ci, Cd, Ct.
      destruct (Nat.eq_dec i' i) as [-> | Di]; [rewrite upd_same; destruct (Nat.eq_dec d' d) as [-> | Dd]|].
      + rewrite upd_same, !Nat.eqb_refl. cbn [andb]. assert (Z : flat_map (imsg i d) l2 = []) by (apply (no_sent_after i d (c, v, NotYet) l1 l2 (inv_ordered _ _ V) Sf); [rewrite X; discriminate|congruence]).
        rewrite Q, Z. unfold imsg at 2. cbn [is snd]. rewrite !app_nil_r. do 3 f_equal. rewrite Gi, Dt, Cf, Ci. reflexivity.
      + rewrite upd_other by exact Dd. rewrite Nat.eqb_refl. destruct (Nat.eqb_spec d d'); [congruence|]. cbn [andb app]. exact Q.
      + rewrite upd_other by exact Di. destruct (Nat.eqb_spec i i'); [congruence|]. cbn [andb app]. exact Q.
    - intros j. rewrite (inv_got _ _ V j), !flat_map_app. reflexivity.
    - rewrite (map_fst_adv l1 (c, v, NotYet)) by reflexivity. apply (inv_right _ _ V).
    - apply (ordered_adv i (c, v, NotYet) _ _ _ Ad N1). apply (inv_ordered _ _ V).
  Qed.
  Lemma inv_recv : forall l s d i t room r m q, inv l s -> prog s d = Recv i t room :: r -> take t (chan s i d) = Some (m, q) ->
    exists l', inv l' (Net (upd (prog s) d r) (upd (chan s) i (upd (chan s i) d q)) (upd (got s) d (got s d ++ [(i, t, m)]))) /\ map fst l' = map fst l /\ sumw l = S (sumw l').
  Proof.
    intros l s d i t room r m q V P T. destruct (next_call _ _ _ _ _ V P) as (l1 & ((c, v), st) & l2 & -> & N1 & X & N2). destruct (is_recv _ _ _ _ _ X) as (St & Ci & Cd & Ct & _). cbn [is ic fst snd] in St, Ci, Cd, Ct.
    pose proof (self_all _ (inv_right _ _ V)) as Sf. pose proof (right_item _ _ _ (inv_right _ _ V)) as (Sd & _). cbn [ic fst snd] in Sd.
    pose proof (inv_chan _ _ V i d) as Q. rewrite flat_map_app in Q. cbn [flat_map] in Q. rewrite (no_sent_before i d l1 N1) in Q. cbn [app] in Q. destruct st; [|  |congruence].
    { exfalso. assert (Z : flat_map (imsg i d) l2 = []).
      { apply (no_sent_after i d (c, v, NotYet) l1 l2 (inv_ordered _ _ V) Sf); [|congruence]. unfold iside, side. cbn [is ic fst snd]. rewrite Ci, Nat.eqb_refl. discriminate. }
      rewrite Z in Q. unfold imsg in Q. cbn [is snd app] in Q. rewrite Q in T. discriminate. }
    unfold imsg at 1 in Q. cbn [is ic iv fst snd] in Q. rewrite Ci, Cd, Ct, !Nat.eqb_refl in Q. cbn [andb app] in Q. rewrite Q in T. cbn [take] in T. rewrite Nat.eqb_refl in T. injection T as <- Eq.
    assert (Gd : flat_map (igot d) l2 = []).
    { apply flat_nil. intros y I. destruct (side d (ic y)) as [|o k] eqn:E.
      - destruct y as ((c', v'), st'). unfold igot, side, brcv in *. cbn in *. destruct st'; try reflexivity. destruct (Nat.eqb (c_src c') d); [discriminate|]. destruct (Nat.eqb (c_dst c') d); [discriminate|reflexivity].
      - assert (U : iside d y <> []) by (apply (ordered_at l1 _ l2 y d (inv_ordered _ _ V) I); [rewrite X; discriminate|rewrite E; discriminate]). destruct y as ((c', v'), st'). unfold igot, iside in *. cbn [is snd] in *. destruct st'; try reflexivity. contradiction. }
    assert (Ad : advanced d (c, v, Sent) (c, v, Done)).
    { split; [reflexivity|]. unfold iside. cbn [is ic fst snd]. split; [reflexivity|]. intros j D. destruct (Nat.eqb_spec (c_dst c) j); [congruence|reflexivity]. }
    exists (l1 ++ (c, v, Done) :: l2). split; [|split; [apply map_fst_adv; reflexivity|rewrite !sumw_app; cbn [sumw weight is snd]; lia]]. constructor; cbn [prog chan got].
    - apply (prog_adv d _ _ _ _ _ _ Ad (inv_prog _ _ V) N1 N2).
    - intros i' d'. rewrite flat_map_app. cbn [flat_map]. pose proof (inv_chan _ _ V i' d') as Q'. rewrite flat_map_app in Q'. cbn [flat_map] in Q'. unfold imsg at 2. cbn [is snd]. cbn [app].
      unfold imsg at 2 in Q'. cbn [is ic iv fst snd] in Q'. rewrite Ci, Cd, Ct in Q'.
      destruct (Nat.eq_dec i' i) as [-> | Di]; [rewrite upd_same; destruct (Nat.eq_dec d' d) as [-> | Dd]|].
      + rewrite upd_same, (no_sent_before i d l1 N1). symmetry. exact Eq.
      + rewrite upd_other by exact Dd. destruct (Nat.eqb_spec d d'); [congruence|]. rewrite andb_false_r in Q'. exact Q'.
      + rewrite upd_other by exact Di. destruct (Nat.eqb_spec i i'); [congruence|]. exact Q'.
    - intros j. rewrite flat_map_app. cbn [flat_map]. pose proof (inv_got _ _ V j) as G. rewrite flat_map_app in G. cbn [flat_map] in G. unfold igot at 2 in G. cbn [is snd app] in G. unfold igot at 2. cbn [is snd fst]. unfold brcv. cbn [fst snd]. rewrite Cd.
      destruct (Nat.eq_dec j d) as [-> | D]; [rewrite upd_same, G, Nat.eqb_refl, Gd, !app_nil_r, Ci, Ct; reflexivity|]. rewrite upd_other by exact D. destruct (Nat.eqb_spec d j); [congruence|]. exact G.
    - rewrite (map_fst_adv l1 (c, v, Sent)) by reflexivity. apply (inv_right _ _ V).
    - apply (ordered_adv d (c, v, Sent) _ _ _ Ad N1). apply (inv_ordered _ _ V).
  Qed.
  Lemma take_last : forall t q (m : list W), take t q = None -> take t (q ++ [(t, m)]) = Some (m, q).
  Proof.
    intros t q m. induction q as [|(t', m') q IH]; cbn [take app]; [rewrite Nat.eqb_refl; reflexivity|]. destruct (Nat.eqb t' t); [discriminate|]. destruct (take t q) as [(m2, q2)|]; [discriminate|]. intros _. rewrite (IH eq_refl). reflexivity.
  Qed.
  Lemma inv_step : forall l s s', inv l s -> step s s' -> exists l', inv l' s' /\ map fst l' = map fst l /\ S (sumw l') <= sumw l.
  Proof.
    intros l s s' V [H|H].
    - destruct H as [i d t f r P]. destruct (inv_send _ _ _ _ _ _ _ V P) as (l' & V' & M & Q). exists l'. split; [exact V'|]. split; [exact M|lia].
    - destruct H as [d i t room r m q P T L|i d t f r room r' D P P' T L].
      + destruct (inv_recv _ _ _ _ _ _ _ _ _ V P T) as (l' & V' & M & Q). exists l'. split; [exact V'|]. split; [exact M|lia].
      + destruct (inv_send _ _ _ _ _ _ _ V P) as (l' & V' & M & Q). set (mid := Net _ _ _) in V'.
        assert (Pm : prog mid d = Recv i t room :: r') by (unfold mid; cbn [prog]; rewrite upd_other by congruence; exact P').
        assert (Tm : take t (chan mid i d) = Some (f (got s i), chan s i d)) by (unfold mid; cbn [chan]; rewrite !upd_same; apply take_last; exact T).
        destruct (inv_recv _ _ _ _ _ _ _ _ _ V' Pm Tm) as (l2 & V2 & M2 & Q2). exists l2. split; [|split; [congruence|lia]]. apply (inv_ext _ _ _ V2); cbn [prog chan got mid].
        * reflexivity.
        * intros i' d'. destruct (Nat.eq_dec i' i) as [-> | Di]; [rewrite upd_same; destruct (Nat.eq_dec d' d) as [-> | Dd]; [rewrite upd_same; reflexivity|rewrite upd_other by exact Dd; rewrite upd_same, upd_other by exact Dd; reflexivity]|]. rewrite !upd_other by exact Di. reflexivity.
        * reflexivity.
  Qed.

  Lemma all_done_items : forall l s, inv l s -> all_done s -> forall x, In x l -> is x = Done.
  Proof.
    intros l s V A x I. pose proof (self_all _ (inv_right _ _ V) x I) as Sf. specialize (A (c_dst (ic x))). rewrite (inv_prog _ _ V) in A. pose proof (flat_nil_inv _ _ _ _ A x I) as N. destruct x as ((c, v), st). unfold iside, side in N. cbn [is ic fst snd] in *.
    destruct st; [| |reflexivity]; rewrite Nat.eqb_refl in N; [destruct (Nat.eqb (c_src c) (c_dst c)); discriminate|discriminate].
  Qed.
  Lemma first_not_done : forall l : list item, (forall x, In x l -> is x = Done) \/ exists l1 x l2, l = l1 ++ x :: l2 /\ (forall y, In y l1 -> is y = Done) /\ is x <> Done.
  Proof.
    induction l as [|x l IH]; [left; intros x []|]. destruct (is x) eqn:E.
    - right. exists [], x, l. split; [reflexivity|]. split; [intros y []|]. rewrite E. discriminate.
    - right. exists [], x, l. split; [reflexivity|]. split; [intros y []|]. rewrite E. discriminate.
    - destruct IH as [IH | (l1 & y & l2 & -> & A & B)]; [left; intros z [<- | I]; auto|]. right. exists (x :: l1), y, l2. split; [reflexivity|]. split; [|exact B]. intros z [<- | I]; auto.
  Qed.
  Lemma inv_progress : forall l s, inv l s -> all_done s \/ exists s', recv_step s s'.
  Proof.
    intros l s V. destruct (first_not_done l) as [A | (l1 & ((c, v), st) & l2 & E & A & B)].
    - left. intros i. rewrite (inv_prog _ _ V). apply flat_nil. intros x I. unfold iside. rewrite (A x I). reflexivity.
    - right. subst l. pose proof (self_all _ (inv_right _ _ V)) as Sf. pose proof (right_item _ _ _ (inv_right _ _ V)) as (Sd & Dt & Rm). cbn [is ic iv fst snd] in Sd, Dt, Rm, B.
      assert (N : forall i, flat_map (iside i) l1 = []) by (intros i; apply flat_nil; intros y I; unfold iside; rewrite (A y I); reflexivity).
      assert (Gi : forall i, iside i (c, v, st) <> [] -> got s i = flat_map (brcv i) (map fst l1)) by (intros i U; rewrite (inv_got _ _ V); apply got_at; [apply (inv_ordered _ _ V)|apply N|exact U|exact Sf]).
      assert (Pd : prog s (c_dst c) = Recv (c_src c) (c_tag c) (c_room c) :: flat_map (iside (c_dst c)) l2).
      { rewrite (inv_prog _ _ V), flat_map_app, N. cbn [flat_map app]. unfold iside at 1, side. cbn [is ic fst snd]. rewrite Nat.eqb_refl. destruct (Nat.eqb_spec (c_src c) (c_dst c)) as [Z|Z]; [contradiction|]. destruct st; [reflexivity|reflexivity|congruence]. }
      assert (Ud : iside (c_dst c) (c, v, st) <> []).
      { unfold iside, side. cbn [is ic fst snd]. rewrite Nat.eqb_refl. destruct (Nat.eqb (c_src c) (c_dst c)); destruct st; congruence. }
      assert (Ch : chan s (c_src c) (c_dst c) = imsg (c_src c) (c_dst c) (c, v, st) ++ flat_map (imsg (c_src c) (c_dst c)) l2) by (rewrite (inv_chan _ _ V), flat_map_app; rewrite (no_sent_before _ _ _ (N _)); reflexivity).
      destruct st; [| |congruence].
      + assert (Ps : prog s (c_src c) = Send (c_dst c) (c_tag c) (c_data c) :: flat_map (iside (c_src c)) l2) by (rewrite (inv_prog _ _ V), flat_map_app, N; cbn [flat_map app]; unfold iside at 1, side; cbn [is ic fst snd]; rewrite Nat.eqb_refl; reflexivity).
        assert (Us : iside (c_src c) (c, v, NotYet) <> []) by (unfold iside, side; cbn [is ic fst snd]; rewrite Nat.eqb_refl; discriminate).
        eexists. eapply (Met s (c_src c) (c_dst c)); [exact Sd|exact Ps|exact Pd| |].
        * rewrite Ch. rewrite (no_sent_after _ _ _ _ _ (inv_ordered _ _ V) Sf Us Sd). reflexivity.
        * rewrite (Gi _ Us), (Gi _ Ud), <- Dt. exact Rm.
      + eexists. eapply (Copied s (c_dst c) (c_src c)); [exact Pd| |].
        * rewrite Ch. unfold imsg at 1. cbn [is ic iv fst snd]. rewrite !Nat.eqb_refl. cbn [andb app take]. rewrite Nat.eqb_refl. reflexivity.
        * rewrite (Gi _ Ud). exact Rm.
  Qed.

  (** Calls that are the two sides of a list of communications. *)
  Lemma choreography : forall (cs : list (comm W)) p, fits cs (fun _ => []) -> (forall i, p i = flat_map (side i) cs) -> always_ends p (2 * length cs) (play cs (fun _ => [])).
  Proof.
    intros cs p Ft Pp. set (b := ann cs (fun _ => [])). set (l0 := map (fun cv => (cv, NotYet)) b : list item).
    assert (B0 : map fst l0 = b) by (unfold l0; rewrite map_map; cbn [fst]; apply map_id).
    assert (W0 : sumw l0 = 2 * length cs) by (unfold l0; rewrite <- (ann_length cs (fun _ => [])); fold b; clear; induction b as [|x b IH]; [reflexivity|]; cbn [map sumw weight is snd length] in *; lia).
    assert (V0 : inv l0 (start p)).
    { constructor; cbn [prog chan got start].
      - intros i. rewrite Pp. rewrite <- (ann_fst cs (fun _ => [])). fold b. unfold l0. clear. induction b as [|(c, v) b IH]; [reflexivity|]. cbn [map flat_map fst]. rewrite IH. reflexivity.
      - intros i d. symmetry. apply flat_nil. intros x I. apply in_map_iff in I. destruct I as (cv & <- & _). reflexivity.
      - intros i. symmetry. apply flat_nil. intros x I. apply in_map_iff in I. destruct I as (cv & <- & _). reflexivity.
      - rewrite B0. apply ann_right. exact Ft.
      - unfold l0. clear. induction b as [|x b IH]; cbn [map ordered]; [exact I|]. split; [|exact IH]. intros w j Iw _ Sd. apply in_map_iff in Iw. destruct Iw as (cv & <- & _). exact Sd. }
    assert (Reach : forall k s0 s, steps k s0 s -> s0 = start p -> exists l, inv l s /\ map fst l = b /\ k + sumw l <= 2 * length cs).
    { intros k s0 s H. induction H as [s|k s s' s'' H IH St]; intros E0.
      - subst s. exists l0. split; [exact V0|]. split; [exact B0|]. lia.
      - destruct (IH E0) as (l & V & M & Q). destruct (inv_step _ _ _ V St) as (l' & V' & M' & Q'). exists l'. split; [exact V'|]. split; [congruence|lia]. }
    intros k s H. destruct (Reach k _ s H eq_refl) as (l & V & M & Q). split; [lia|]. split; [apply (inv_progress _ _ V)|]. intros A i. rewrite ann_play. cbn [app]. fold b. rewrite <- M, (inv_got _ _ V).
    pose proof (all_done_items _ _ V A) as Dn. clear - Dn. induction l as [|x l IH]; [reflexivity|]. cbn [flat_map map]. rewrite IH by (intros y I; apply Dn; right; exact I). f_equal. unfold igot. rewrite (Dn x) by (left; reflexivity). reflexivity.
  Qed.
End Proofs.
