(** Proofs about IOConnections. *)
From Coq Require Import List Arith Bool Lia Permutation.
From Verif Require Import Chain Pins PinsSpec PinsProofs Xml XmlSpec.
Import ListNotations.

(** * Signatures *)
Lemma build_types : forall w o w', build_ports w o = Some w' ->
  (forall x s, out_type w' x s = out_type w x s) /\ (forall x s, in_type w' x s = in_type w x s) /\
  (forall x, b_ct (w' x) = b_ct (w x)).
Proof.
  intros w o w' H. unfold build_ports in H. destruct (b_built (w o)) eqn:B.
  { injection H as <-. auto. }
  destruct (b_proto (w o)) as [[os is]|] eqn:P; [|discriminate]. injection H as <-.
  unfold out_type, in_type, upd. split; [|split]; intros x; intros; destruct (Nat.eqb_spec x o); subst; simpl; auto;
  rewrite B, P; reflexivity.
Qed.

Definition same_types (w w' : world) : Prop :=
  (forall x s, out_type w' x s = out_type w x s) /\ (forall x s, in_type w' x s = in_type w x s) /\
  (forall x, b_ct (w' x) = b_ct (w x)).

Lemma same_types_trans : forall a b c, same_types a b -> same_types b c -> same_types a c.
Proof.
  intros a b c (H1 & H2 & H3) (K1 & K2 & K3).
  split; [|split]; intros; rewrite ?K1, ?K2, ?K3; auto.
Qed.

Lemma update_types : forall A T (ty : A -> T) k f (l : list (nat * A)) s,
  (forall x, ty (f x) = ty x) -> option_map ty (lookup s (update k f l)) = option_map ty (lookup s l).
Proof.
  intros. rewrite lookup_update. destruct (Nat.eqb_spec s k); auto. subst.
  destruct (lookup k l); simpl; f_equal; auto.
Qed.

Lemma upd_types : forall w o g,
  (forall B, b_built (g B) = b_built B) -> (forall B, b_proto (g B) = b_proto B) ->
  (forall B, b_ct (g B) = b_ct B) ->
  (forall B s, option_map po_type (lookup s (b_outs (g B))) = option_map po_type (lookup s (b_outs B))) ->
  (forall B s, option_map pi_type (lookup s (b_ins (g B))) = option_map pi_type (lookup s (b_ins B))) ->
  same_types w (upd w o g).
Proof.
  intros w o g H1 H2 H3 H4 H5. unfold same_types, out_type, in_type, upd.
  split; [|split]; intros x; intros; destruct (Nat.eqb_spec x o); subst; auto; rewrite H1, H2;
  destruct (b_built (w o)); auto.
Qed.

Lemma add_built_types : forall w a b s r f, same_types w (fst (add_pin_built w a b s r f)).
Proof.
  intros. assert (R : forall w, same_types w w) by (intros; split; [|split]; reflexivity).
  assert (SO : forall w a s f, same_types w (set_out_links w a s f)).
  { intros. apply upd_types; auto. intros. simpl. now apply update_types. }
  assert (SI : forall w a s f, same_types w (set_in_links w a s f)).
  { intros. apply upd_types; auto. intros. simpl. now apply update_types. }
  assert (AO : forall w, same_types w (add_pin_out w a b s r)).
  { intros. unfold add_pin_out. destruct (has_key s _); [|apply R]. destruct (has_key r _); [apply SO|apply R]. }
  assert (AI : forall w, same_types w (add_pin_in w b a r)).
  { intros. unfold add_pin_in. destruct (has_key r _); [apply SI|apply R]. }
  assert (AC : forall w, same_types w (add_child w a b)) by (intros; apply upd_types; reflexivity).
  assert (AP : forall w, same_types w (add_parent w b a)) by (intros; apply upd_types; reflexivity).
  unfold add_pin_built. destruct (_ && _); [|apply R]. destruct (_ && _); [|apply R]. destruct (_ || _); [|apply R].
  cbn [fst]. eapply same_types_trans; [|apply AP]. eapply same_types_trans; [|apply AC].
  eapply same_types_trans; [|apply AI]. apply AO.
Qed.

Lemma connectable_same : forall w w' a s b r, same_types w w' -> connectable w a s b r -> connectable w' a s b r.
Proof. intros w w' a s b r (H1 & H2 & H3) H. unfold connectable. now rewrite H1, H2, !H3. Qed.

Lemma build_ok : forall w o s t, out_type w o s = Some t \/ in_type w o s = Some t ->
  exists w', build_ports w o = Some w'.
Proof.
  intros w o s t H. unfold build_ports. destruct (b_built (w o)) eqn:B; eauto.
  destruct (b_proto (w o)) as [[os is]|] eqn:P; eauto.
  unfold out_type, in_type in H. rewrite B, P in H. simpl in H. destruct H; discriminate.
Qed.

Lemma build_keeps_built : forall w o w' x, build_ports w o = Some w' -> b_built (w x) = true -> b_built (w' x) = true.
Proof.
  intros w o w' x H B. unfold build_ports in H. destruct (b_built (w o)); [congruence|].
  destruct (b_proto (w o)) as [[]|]; [|discriminate]. injection H as <-. unfold upd.
  destruct (x =? o); auto.
Qed.

(** * One accepted connection *)
Definition effect (w w' : world) (a b : obj) (s r : pid) : Prop :=
  (forall x p, out_links w' x p = out_links w x p ++ (if Nat.eqb x a && Nat.eqb p s then [(b, r)] else [])) /\
  (forall x p, in_links w' x p = in_links w x p ++ (if Nat.eqb x b && Nat.eqb p r then [a] else [])) /\
  (forall x, b_chi (w' x) = if Nat.eqb x a then incr b (b_chi (w a)) else b_chi (w x)) /\
  (forall x, b_par (w' x) = if Nat.eqb x b then incr a (b_par (w b)) else b_par (w x)).

Definition untouched (w w' : world) : Prop :=
  (forall x p, out_links w' x p = out_links w x p) /\ (forall x p, in_links w' x p = in_links w x p) /\
  (forall x, b_chi (w' x) = b_chi (w x)) /\ (forall x, b_par (w' x) = b_par (w x)).

Lemma add_pin_cases : forall w a b s r f w' d, lazy_ok w -> add_pin w a b s r f = PinDone w' d ->
  lazy_ok w' /\ same_types w w' /\ if d then effect w w' a b s r else untouched w w'.
Proof.
  intros w a b s r f w' d L H. unfold add_pin in H.
  destruct (build_ports w a) as [w1|] eqn:B1; [|discriminate].
  destruct (build_ports w1 b) as [w2|] eqn:B2; [|discriminate].
  destruct (build_links _ _ _ L B1) as (O1 & I1 & C1 & P1 & _). pose proof (build_lazy _ _ _ L B1) as L1.
  destruct (build_links _ _ _ L1 B2) as (O2 & I2 & C2 & P2 & _). pose proof (build_lazy _ _ _ L1 B2) as L2.
  pose proof (add_lazy w2 a b s r f L2) as L3. pose proof (add_built_types w2 a b s r f) as T3.
  pose proof (add_pin_built_effect w2 a b s r f) as E. pose proof (add_pin_built_false w2 a b s r f) as F.
  destruct (add_pin_built w2 a b s r f) as [w3 d3]. injection H as <- <-. simpl in *.
  split; [exact L3|]. split.
  - eapply same_types_trans; [exact (build_types _ _ _ B1)|].
    eapply same_types_trans; [exact (build_types _ _ _ B2)|exact T3].
  - destruct d3.
    + destruct (E eq_refl) as (E1 & E2 & _ & _ & E3 & E4 & _).
      split; [|split; [|split]]; intros.
      * now rewrite E1, O2, O1.
      * now rewrite E2, I2, I1.
      * rewrite E3, !C2, !C1. reflexivity.
      * rewrite E4, !P2, !P1. reflexivity.
    + specialize (F eq_refl). subst. split; [|split; [|split]]; intros; congruence.
Qed.

Lemma add_pin_connectable : forall w a b s r, connectable w a s b r ->
  exists w', add_pin w a b s r false = PinDone w' true.
Proof.
  intros w a b s r (CA & CB & t & TA & TB). unfold add_pin.
  destruct (build_ok w a s t (or_introl TA)) as [w1 B1]. rewrite B1.
  destruct (build_types _ _ _ B1) as (O1 & I1 & C1).
  rewrite <- I1 in TB. rewrite <- O1 in TA.
  destruct (build_ok w1 b r t (or_intror TB)) as [w2 B2]. rewrite B2.
  destruct (build_types _ _ _ B2) as (O2 & I2 & C2). rewrite <- I2 in TB. rewrite <- O2 in TA.
  assert (BB : b_built (w2 b) = true).
  { unfold build_ports in B2. destruct (b_built (w1 b)) eqn:E; [congruence|].
    destruct (b_proto (w1 b)) as [[]|]; [|discriminate]. injection B2 as <-. unfold upd. now rewrite Nat.eqb_refl. }
  assert (BA : b_built (w2 a) = true).
  { apply (build_keeps_built _ _ _ _ B2).
    unfold build_ports in B1. destruct (b_built (w a)) eqn:E; [congruence|].
    destruct (b_proto (w a)) as [[]|]; [|discriminate]. injection B1 as <-. unfold upd. now rewrite Nat.eqb_refl. }
  assert (D : snd (add_pin_built w2 a b s r false) = true).
  { apply add_pin_built_done. unfold accepts. rewrite !C2, !C1. split; auto. split; auto.
    unfold out_type in TA. unfold in_type in TB. rewrite BA in TA. rewrite BB in TB.
    destruct (lookup s (b_outs (w2 a))) as [po|]; [|discriminate].
    destruct (lookup r (b_ins (w2 b))) as [pi|]; [|discriminate]. simpl in *.
    exists po, pi. repeat split; auto. right. congruence. }
  destruct (add_pin_built w2 a b s r false) as [w3 d]. simpl in D. subst. eauto.
Qed.

(** * A list of pins *)
Notation pin := (nat * nat * (nat * nat))%type.   (* sender, its port, (receiver, its port) *)

Definition out_of (x : obj) (p : pid) (q : pin) : list (obj * pid) :=
  if Nat.eqb x (fst (fst q)) && Nat.eqb p (snd (fst q)) then [snd q] else [].
Definition in_of (y : obj) (p : pid) (q : pin) : list obj :=
  if Nat.eqb y (fst (snd q)) && Nat.eqb p (snd (snd q)) then [fst (fst q)] else [].
Definition sec (names : list (nat * obj)) (q : pin) : conn :=
  {| c_snd := name_of names (fst (fst q)); c_sp := Some (snd (fst q));
     c_rcv := name_of names (fst (snd q)); c_rp := Some (snd (snd q)) |}.

Definition all_pins (names : list (nat * obj)) (w : world) : list pin :=
  flat_map (fun x => flat_map (fun sp => map (fun l => ((snd x, fst sp), l)) (po_links (snd sp)))
                              (b_outs (w (snd x)))) names.

Lemma flush_pins : forall names w, flush names w = map (sec names) (all_pins names w).
Proof.
  intros names w. unfold flush, all_pins.
  assert (G : forall l : list (nat * obj), flat_map (fun x => flat_map (fun sp =>
      map (fun l => {| c_snd := name_of names (snd x); c_sp := Some (fst sp);
                       c_rcv := name_of names (fst l); c_rp := Some (snd l) |})
          (po_links (snd sp))) (b_outs (w (snd x)))) l
    = map (sec names) (flat_map (fun x => flat_map (fun sp => map (fun l => ((snd x, fst sp), l)) (po_links (snd sp)))
                              (b_outs (w (snd x)))) l)).
  { induction l as [|x l IH]; simpl; auto.
    rewrite map_app, IH. f_equal. induction (b_outs (w (snd x))) as [|sp outs IH2]; simpl; auto.
    rewrite map_app, IH2. f_equal. rewrite map_map. reflexivity. }
  apply G.
Qed.

Lemma name_of_some : forall names o n, name_of names o = Some n -> In (n, o) names.
Proof.
  intros names o n. unfold name_of.
  assert (G : forall (l : list (nat * obj)) acc, fold_left (fun acc x => if Nat.eqb (snd x) o then Some (fst x) else acc) l acc = Some n ->
              acc = Some n \/ In (n, o) l).
  { induction l as [|[m x] l IH]; intros acc H; simpl in *; auto.
    destruct (IH _ H) as [E|E]; auto. destruct (Nat.eqb_spec x o); auto. injection E as ->. subst. auto. }
  intros H. destruct (G _ _ H); [discriminate|auto].
Qed.

Lemma name_of_in : forall names o, In o (map snd names) -> exists n, name_of names o = Some n.
Proof.
  intros names o. unfold name_of.
  assert (G : forall (l : list (nat * obj)) acc, acc <> None \/ In o (map snd l) ->
    fold_left (fun acc x => if Nat.eqb (snd x) o then Some (fst x) else acc) l acc <> None).
  { induction l as [|[m x] l IH]; intros acc H; simpl in *.
    - destruct H; [auto|tauto].
    - apply IH. destruct (Nat.eqb_spec x o); [left; discriminate|]. intuition. }
  intros H. specialize (G names None (or_intror H)).
  destruct (fold_left _ names None); [eauto|congruence].
Qed.

Lemma find_sec : forall names o, NoDup (map fst names) -> In o (map snd names) ->
  find_block names (name_of names o) = Some o.
Proof.
  intros names o N H. destruct (name_of_in names o H) as [n E]. rewrite E. simpl.
  apply in_lookup; auto. now apply name_of_some.
Qed.

Definition n_pins (f : pin -> bool) (l : list pin) : nat := length (filter f l).
Definition from_to (a b : obj) (q : pin) : bool := Nat.eqb a (fst (fst q)) && Nat.eqb b (fst (snd q)).

Lemma get_incr_eq : forall l k k', get k' (incr k l) = get k' l + (if Nat.eqb k' k then 1 else 0).
Proof. exact get_incr. Qed.

Lemma absorb_pins : forall names registered, NoDup (map fst names) -> forall l w ok,
  lazy_ok w ->
  (forall a s b r, In ((a, s), (b, r)) l -> In a (map snd names) /\ In b (map snd names) /\
     registered s = true /\ registered r = true /\ connectable w a s b r) ->
  exists w', absorb names registered w ok (map (sec names) l) = AbsDone w' ok /\ lazy_ok w' /\
    (forall x p, out_links w' x p = out_links w x p ++ flat_map (out_of x p) l) /\
    (forall x p, in_links w' x p = in_links w x p ++ flat_map (in_of x p) l) /\
    (forall a b, chi_mult w' a b = chi_mult w a b + n_pins (from_to a b) l) /\
    (forall a b, par_mult w' b a = par_mult w b a + n_pins (from_to a b) l).
Proof.
  intros names registered N. induction l as [|[[a s] [b r]] l IH]; intros w ok L H.
  - exists w. simpl. split; [reflexivity|]. split; [exact L|]. unfold n_pins; simpl.
    split; [|split; [|split]]; intros; rewrite ?app_nil_r; auto.
  - destruct (H a s b r) as (Ha & Hb & Hs & Hr & Hc); [now left|].
    cbn [map absorb sec fst snd c_snd c_rcv c_sp c_rp]. rewrite !find_sec by auto.
    cbn [find_port]. rewrite Hs, Hr.
    destruct (add_pin_connectable _ _ _ _ _ Hc) as [w1 E]. rewrite E.
    destruct (add_pin_cases _ _ _ _ _ _ _ _ L E) as (L1 & T1 & (E1 & E2 & E3 & E4)).
    rewrite andb_true_r.
    destruct (IH w1 ok L1) as (w' & A & L' & A1 & A2 & A3 & A4).
    { intros a' s' b' r' I. destruct (H a' s' b' r') as (K1 & K2 & K3 & K4 & K5); [now right|].
      repeat (split; [assumption|]). eapply connectable_same; eauto. }
    exists w'. split; [exact A|]. split; [exact L'|]. split; [|split; [|split]].
    + intros x p. rewrite A1, E1. simpl. unfold out_of at 2. simpl. now rewrite <- app_assoc.
    + intros x p. rewrite A2, E2. simpl. unfold in_of at 2. simpl. now rewrite <- app_assoc.
    + intros x y. rewrite A3. rewrite !chi_mult_get, E3.
      unfold n_pins. cbn [filter]. unfold from_to at 2. simpl.
      destruct (Nat.eqb_spec x a); simpl; [|reflexivity].
      subst. rewrite get_incr. destruct (Nat.eqb_spec y b); simpl; lia.
    + intros x y. rewrite A4. rewrite !par_mult_get, E4.
      unfold n_pins. cbn [filter]. unfold from_to at 2. simpl.
      destruct (Nat.eqb_spec y b); [|rewrite andb_false_r; reflexivity].
      subst. rewrite get_incr. destruct (Nat.eqb_spec x a); simpl; lia.
Qed.

(** * The pins of a world *)
Lemma in_all_pins : forall names w a s b r, well_formed w ->
  In ((a, s), (b, r)) (all_pins names w) <-> In a (map snd names) /\ In (b, r) (out_links w a s).
Proof.
  intros names w a s b r W. unfold all_pins. rewrite in_flat_map. split.
  - intros ([n x] & H1 & H2). simpl in H2. rewrite in_flat_map in H2. destruct H2 as ([s' po] & H2 & H3).
    simpl in H3. rewrite in_map_iff in H3. destruct H3 as (l & H3 & H4). injection H3 as -> -> ->.
    split; [change a with (snd (n, a)); now apply in_map|].
    unfold out_links. destruct (W a) as (NO & _). rewrite (in_lookup _ _ _ NO H2). exact H4.
  - intros [H1 H2]. apply in_map_iff in H1. destruct H1 as ([n x] & E & H1). simpl in E. subst x.
    exists (n, a). split; [exact H1|]. simpl. rewrite in_flat_map. unfold out_links in H2.
    destruct (lookup s (b_outs (w a))) as [po|] eqn:E; [|destruct H2].
    exists (s, po). split; [now apply lookup_in|]. simpl. apply in_map_iff. now exists (b, r).
Qed.

Lemma out_of_port : forall x p o sp (ls : list (obj * pid)),
  flat_map (out_of x p) (map (fun l => ((o, sp), l)) ls) = if Nat.eqb x o && Nat.eqb p sp then ls else [].
Proof.
  intros. unfold out_of. induction ls as [|l ls IH]; simpl; [now destruct (_ && _)|].
  rewrite IH. destruct (_ && _); reflexivity.
Qed.

Lemma flat_map_app : forall A B (f : A -> list B) l1 l2, flat_map f (l1 ++ l2) = flat_map f l1 ++ flat_map f l2.
Proof. intros. induction l1; simpl; auto. now rewrite IHl1, app_assoc. Qed.

Lemma out_of_block : forall x p o outs, NoDup (map fst outs) ->
  flat_map (out_of x p) (flat_map (fun sp => map (fun l => ((o, fst sp), l)) (po_links (snd sp))) outs)
  = if Nat.eqb x o then match lookup p outs with Some po => po_links po | None => [] end else [].
Proof.
  intros x p o outs N. induction outs as [|[s po] outs IH]; simpl.
  - now destruct (x =? o).
  - simpl in N. apply NoDup_cons_iff in N. destruct N as [N1 N2].
    rewrite flat_map_app, out_of_port, IH by auto.
    destruct (Nat.eqb_spec x o); simpl; auto. rewrite (Nat.eqb_sym s p).
    destruct (Nat.eqb_spec p s); simpl; auto. subst.
    apply lookup_none in N1. rewrite N1, app_nil_r. reflexivity.
Qed.

Lemma out_of_all : forall names w x p, well_formed w -> NoDup (map snd names) ->
  flat_map (out_of x p) (all_pins names w)
  = if existsb (fun y => Nat.eqb y x) (map snd names) then out_links w x p else [].
Proof.
  intros names w x p W N. unfold all_pins. induction names as [|[n o] names IH]; simpl; auto.
  simpl in N. apply NoDup_cons_iff in N. destruct N as [N1 N2].
  rewrite flat_map_app, out_of_block, IH by (auto; apply (W o)).
  rewrite (Nat.eqb_sym o x). destruct (Nat.eqb_spec x o); simpl; auto. subst.
  destruct (existsb (fun y => y =? o) (map snd names)) eqn:E.
  - apply existsb_exists in E. destruct E as (y & I & E). apply Nat.eqb_eq in E. subst. tauto.
  - rewrite app_nil_r. reflexivity.
Qed.

(** Counting. *)
Lemma count_in_of : forall y r a (l : list pin),
  count_occ Nat.eq_dec (flat_map (in_of y r) l) a
  = count_occ pair_dec (map snd (filter (fun q => Nat.eqb a (fst (fst q))) l)) (y, r).
Proof.
  intros y r a l. induction l as [|[[a' s] [b r']] l IH]; simpl; auto.
  rewrite count_occ_app, IH. unfold in_of at 1. simpl.
  destruct (Nat.eqb_spec a a').
  - subst. simpl. destruct (pair_dec (b, r') (y, r)) as [E|E].
    + injection E as -> ->. rewrite !Nat.eqb_refl. simpl. destruct (Nat.eq_dec a' a'); [reflexivity|congruence].
    + destruct (Nat.eqb_spec y b), (Nat.eqb_spec r r'); subst; simpl; try congruence; reflexivity.
  - destruct (_ && _); simpl; auto. destruct (Nat.eq_dec a' a); [congruence|reflexivity].
Qed.

Lemma filter_app2 : forall A (f : A -> bool) l1 l2, filter f (l1 ++ l2) = filter f l1 ++ filter f l2.
Proof. intros. apply filter_app. Qed.

Lemma sent_block : forall a o outs,
  map snd (filter (fun q : pin => Nat.eqb a (fst (fst q)))
     (flat_map (fun sp => map (fun l => ((o, fst sp), l)) (po_links (snd sp))) outs))
  = if Nat.eqb a o then flat_map (fun sp => po_links (snd sp)) outs else [].
Proof.
  intros a o outs. induction outs as [|[s po] outs IH]; simpl; [now destruct (a =? o)|].
  rewrite filter_app, map_app, IH.
  assert (E : map snd (filter (fun q : pin => Nat.eqb a (fst (fst q))) (map (fun l => (o, s, l)) (po_links po)))
              = if Nat.eqb a o then po_links po else []).
  { clear. induction (po_links po) as [|l ls IH]; simpl; [now destruct (a =? o)|].
    destruct (a =? o); simpl; rewrite ?IH; reflexivity. }
  rewrite E. destruct (a =? o); reflexivity.
Qed.

Lemma flat_outs : forall w a, NoDup (out_ports w a) ->
  all_out w a = flat_map (fun sp => po_links (snd sp)) (b_outs (w a)).
Proof.
  intros w a N. unfold all_out, out_ports, out_links in *.
  assert (G : forall l, (forall sp, In sp l -> lookup (fst sp) (b_outs (w a)) = Some (snd sp)) ->
    flat_map (fun s => match lookup s (b_outs (w a)) with Some p => po_links p | None => [] end) (map fst l)
    = flat_map (fun sp => po_links (snd sp)) l).
  { induction l as [|sp l IH]; intros H; simpl; auto. rewrite H by now left. f_equal. apply IH. intros; apply H; now right. }
  apply G. intros [s p] I. now apply in_lookup.
Qed.

Lemma sent_all : forall names w a, well_formed w -> NoDup (map snd names) ->
  map snd (filter (fun q : pin => Nat.eqb a (fst (fst q))) (all_pins names w))
  = if existsb (fun y => Nat.eqb y a) (map snd names) then all_out w a else [].
Proof.
  intros names w a W N. unfold all_pins. induction names as [|[n o] names IH]; simpl; auto.
  simpl in N. apply NoDup_cons_iff in N. destruct N as [N1 N2].
  rewrite filter_app, map_app, sent_block, IH by auto.
  rewrite (Nat.eqb_sym o a). destruct (Nat.eqb_spec a o); simpl; auto. subst.
  rewrite <- flat_outs by apply (W o).
  destruct (existsb (fun y => y =? o) (map snd names)) eqn:E.
  - apply existsb_exists in E. destruct E as (y & I & E). apply Nat.eqb_eq in E. subst. tauto.
  - rewrite app_nil_r. reflexivity.
Qed.

Lemma n_pins_from_to : forall a b l,
  n_pins (from_to a b) l = count_occ Nat.eq_dec (map fst (map snd (filter (fun q : pin => Nat.eqb a (fst (fst q))) l))) b.
Proof.
  intros a b l. unfold n_pins, from_to. induction l as [|[[a' s] [b' r]] l IH]; simpl; auto.
  destruct (a =? a'); simpl; auto. destruct (Nat.eqb_spec b b'), (Nat.eq_dec b' b); simpl; congruence.
Qed.

Lemma exists_in : forall x l, existsb (fun y => Nat.eqb y x) l = true <-> In x l.
Proof.
  intros. rewrite existsb_exists. split; [intros (y & I & E); apply Nat.eqb_eq in E; now subst|].
  intros I. exists x. now rewrite Nat.eqb_refl.
Qed.

Lemma unnamed_out : forall names registered w a s, pins_are_named names registered w ->
  ~ In a (map snd names) -> out_links w a s = [].
Proof.
  intros names registered w a s P H. destruct (out_links w a s) as [|[b r] l] eqn:E; auto.
  exfalso. apply H. apply (P a s b r). rewrite E. now left.
Qed.

Lemma perm_flat_map : forall A B (f : A -> list B) l l', Permutation l l' -> Permutation (flat_map f l) (flat_map f l').
Proof.
  intros A B f l l' H. induction H; simpl.
  - constructor.
  - now apply Permutation_app_head.
  - rewrite !app_assoc. apply Permutation_app_tail, Permutation_app_comm.
  - eapply perm_trans; eauto.
Qed.

Lemma perm_n_pins : forall f l l', Permutation l l' -> n_pins f l = n_pins f l'.
Proof.
  intros f l l' H. unfold n_pins. induction H; simpl; auto.
  - destruct (f x); simpl; auto.
  - destruct (f x), (f y); simpl; auto.
  - congruence.
Qed.

(** The two tables count the same links. *)
Lemma count_split : forall (L : list (obj * pid)) b ks, NoDup ks ->
  (forall r, In (b, r) L -> In r ks) ->
  count_occ Nat.eq_dec (map fst L) b = list_sum (map (fun r => count_occ pair_dec L (b, r)) ks).
Proof.
  intros L b ks N. induction L as [|[x p] L IH]; intros H; simpl.
  - clear. induction ks; simpl; auto.
  - specialize (IH (fun r I => H r (or_intror I))). destruct (Nat.eq_dec x b) as [E|E].
    + subst x. rewrite IH. assert (I : In p ks) by (apply H; now left). clear - N I.
      induction ks as [|k ks IH]; [destruct I|]. simpl. apply NoDup_cons_iff in N. destruct N as [N1 N2].
      destruct (pair_dec (b, p) (b, k)) as [E|E].
      * injection E as ->. simpl. f_equal. f_equal. f_equal. apply map_ext_in. intros r Ir.
        destruct (pair_dec (b, k) (b, r)) as [E|E]; [injection E as ->; tauto|reflexivity].
      * destruct I as [->|I]; [congruence|]. rewrite <- IH by auto. lia.
    + rewrite IH. f_equal. apply map_ext. intros r. destruct (pair_dec (x, p) (b, r)); [congruence|reflexivity].
Qed.

Lemma from_is_to : forall w a b, well_formed w -> graph_ok w -> n_from w a b = n_to w a b.
Proof.
  intros w a b W (G1 & _ & _). unfold n_to. rewrite (count_split _ b (in_ports w b)).
  - unfold n_from, all_in. induction (in_ports w b) as [|r ks IH]; simpl; auto.
    rewrite count_occ_app, IH. f_equal. symmetry. apply G1.
  - apply W.
  - intros r I. apply in_links_port. intros E.
    assert (n_sent w a b r > 0) by (apply count_occ_In; exact I).
    rewrite G1 in H. unfold n_received in H. rewrite E in H. simpl in H. lia.
Qed.

(** * Round trip *)
Lemma restore : forall names registered w w0 q,
  good_names names -> well_formed w -> graph_ok w -> pins_are_named names registered w ->
  no_pins_yet w0 ->
  (forall a s b r, In (b, r) (out_links w a s) -> connectable w0 a s b r) ->
  Permutation q (all_pins names w) ->
  exists w', absorb names registered w0 true (map (sec names) q) = AbsDone w' true /\
    (forall x p, Permutation (out_links w' x p) (out_links w x p)) /\
    (forall x p, Permutation (in_links w' x p) (in_links w x p)) /\
    (forall a b, chi_mult w' a b = chi_mult w a b) /\ (forall a b, par_mult w' b a = par_mult w b a) /\
    (q = all_pins names w -> forall x p, out_links w' x p = out_links w x p).
Proof.
  intros names registered w w0 q [N1 N2] W G PN F CN Pq. pose proof G as (G1 & G2 & G3).
  destruct (no_pins_inv _ F) as (L0 & _ & _).
  destruct (absorb_pins names registered N1 q w0 true L0) as (w' & A & _ & A1 & A2 & A3 & A4).
  { intros a s b r I. apply (Permutation_in _ Pq) in I. apply in_all_pins in I; auto.
    destruct I as [I1 I2]. destruct (PN _ _ _ _ I2) as (K1 & K2 & K3 & K4). auto 10. }
  assert (O0 : forall x p, out_links w0 x p = []) by (intros; apply F).
  assert (I0 : forall x p, in_links w0 x p = []) by (intros; apply F).
  assert (EO : forall x p, flat_map (out_of x p) (all_pins names w) = out_links w x p).
  { intros. rewrite out_of_all by auto. destruct (existsb _ _) eqn:E; auto.
    symmetry. eapply unnamed_out; eauto. rewrite <- exists_in. congruence. }
  assert (ES : forall a, map snd (filter (fun q : pin => Nat.eqb a (fst (fst q))) (all_pins names w)) = all_out w a).
  { intros. rewrite sent_all by auto. destruct (existsb _ _) eqn:E; auto.
    symmetry. apply flat_map_nil. intros. eapply unnamed_out; eauto. rewrite <- exists_in. congruence. }
  exists w'. split; [exact A|]. split; [|split; [|split; [|split]]].
  - intros x p. rewrite A1, O0. simpl. rewrite <- EO. now apply perm_flat_map.
  - intros x p. rewrite A2, I0. simpl.
    eapply perm_trans; [apply perm_flat_map; exact Pq|].
    apply (Permutation_count_occ Nat.eq_dec). intros a.
    rewrite count_in_of, ES. apply G1.
  - intros a b. rewrite A3, G2, (perm_n_pins _ _ _ Pq), n_pins_from_to, ES.
    rewrite chi_mult_get. destruct (F a) as (C & _). rewrite C. reflexivity.
  - intros a b. rewrite A4, G3, (perm_n_pins _ _ _ Pq), n_pins_from_to, ES.
    rewrite par_mult_get. destruct (F b) as (_ & C & _). rewrite C. simpl.
    symmetry. now apply from_is_to.
  - intros -> x p. now rewrite A1, O0, EO.
Qed.

Lemma restore_any_order : forall names registered w w0 l,
  good_names names -> well_formed w -> graph_ok w -> pins_are_named names registered w ->
  no_pins_yet w0 ->
  (forall a s b r, In (b, r) (out_links w a s) -> connectable w0 a s b r) ->
  Permutation l (flush names w) ->
  exists w', absorb names registered w0 true l = AbsDone w' true /\
    (forall x p, Permutation (out_links w' x p) (out_links w x p)) /\
    (forall x p, Permutation (in_links w' x p) (in_links w x p)) /\
    (forall a b, chi_mult w' a b = chi_mult w a b) /\ (forall a b, par_mult w' b a = par_mult w b a).
Proof.
  intros names registered w w0 l N W G PN F CN P. rewrite flush_pins in P.
  destruct (Permutation_map_inv _ _ P) as (q & -> & Pq).
  destruct (restore names registered w w0 q N W G PN F CN (Permutation_sym Pq)) as (w' & A & B1 & B2 & B3 & B4 & _).
  eauto 10.
Qed.

Lemma restore_in_order : forall names registered w w0,
  good_names names -> well_formed w -> graph_ok w -> pins_are_named names registered w ->
  no_pins_yet w0 ->
  (forall a s b r, In (b, r) (out_links w a s) -> connectable w0 a s b r) ->
  exists w', absorb names registered w0 true (flush names w) = AbsDone w' true /\
    (forall x p, out_links w' x p = out_links w x p).
Proof.
  intros names registered w w0 N W G PN F CN. rewrite flush_pins.
  destruct (restore names registered w w0 _ N W G PN F CN (Permutation_refl _)) as (w' & A & _ & _ & _ & _ & B).
  eauto.
Qed.

(** The visiting order is a permutation. *)
Lemma insert_perm : forall A (x : list nat * A) l, Permutation (insert_title x l) (x :: l).
Proof.
  induction l as [|y l IH]; simpl; auto. destruct (lex_leb _ _); auto.
  eapply perm_trans; [apply perm_skip; exact IH|]. apply perm_swap.
Qed.

Lemma visit_perm : forall A (l : list A), Permutation (visit_order l) l.
Proof.
  intros A l. unfold visit_order.
  assert (G : forall m acc, Permutation (fold_left (fun acc (x : list nat * A) => insert_title x acc) m acc) (m ++ acc)).
  { induction m as [|x m IH]; intros acc; simpl; auto.
    eapply perm_trans; [apply IH|]. eapply perm_trans; [apply Permutation_app_head, insert_perm|].
    apply Permutation_sym, Permutation_middle. }
  eapply perm_trans; [apply Permutation_map, G|]. rewrite app_nil_r.
  assert (E : forall (k : list (list nat)) (m : list A), length k = length m -> map snd (combine k m) = m).
  { induction k as [|x k IH]; intros [|y m] H; simpl in *; try discriminate; auto. f_equal. auto. }
  rewrite E; auto. now rewrite map_length, seq_length.
Qed.

(** * Arbitrary files *)
Lemma absorb_sound : forall names registered l w ok w' ok', lazy_ok w ->
  absorb names registered w ok l = AbsDone w' ok' ->
  (forall a s, exists new, out_links w' a s = out_links w a s ++ new /\
     forall b r, In (b, r) new -> exists c n m, In c l /\
       c_snd c = Some n /\ lookup n names = Some a /\ c_rcv c = Some m /\ lookup m names = Some b /\
       c_sp c = Some s /\ c_rp c = Some r /\ registered s = true /\ registered r = true /\
       connectable w a s b r).
Proof.
  intros names registered. induction l as [|c l IH]; intros w ok w' ok' L H a s.
  - simpl in H. injection H as <- <-. exists []. rewrite app_nil_r. split; auto. intros ? ? [].
  - assert (Skip : forall ok, absorb names registered w ok l = AbsDone w' ok' -> exists new,
       out_links w' a s = out_links w a s ++ new /\
       forall b r, In (b, r) new -> exists c0 n m, In c0 (c :: l) /\
       c_snd c0 = Some n /\ lookup n names = Some a /\ c_rcv c0 = Some m /\ lookup m names = Some b /\
       c_sp c0 = Some s /\ c_rp c0 = Some r /\ registered s = true /\ registered r = true /\
       connectable w a s b r).
    { intros ok2 H2. destruct (IH _ _ _ _ L H2 a s) as (new & E & K). exists new. split; auto.
      intros b r I. destruct (K b r I) as (c0 & n & m & I0 & K0). exists c0, n, m. split; [now right|auto]. }
    simpl in H.
    destruct (c_snd c) as [n|] eqn:E1; simpl in H; [|eapply Skip; eauto].
    destruct (lookup n names) as [a1|] eqn:E2; [|eapply Skip; eauto].
    destruct (c_rcv c) as [m|] eqn:E3; simpl in H; [|eapply Skip; eauto].
    destruct (lookup m names) as [b1|] eqn:E4; [|eapply Skip; eauto].
    destruct (c_sp c) as [s1|] eqn:E5; simpl in H; [|eapply Skip; eauto].
    destruct (registered s1) eqn:E6; [|eapply Skip; eauto].
    destruct (c_rp c) as [r1|] eqn:E7; simpl in H; [|eapply Skip; eauto].
    destruct (registered r1) eqn:E8; [|eapply Skip; eauto].
    destruct (add_pin w a1 b1 s1 r1 false) as [|w1 d] eqn:E9; [discriminate|].
    destruct (add_pin_cases _ _ _ _ _ _ _ _ L E9) as (L1 & T1 & X).
    destruct (IH _ _ _ _ L1 H a s) as (new & E & K).
    assert (K' : forall b r, In (b, r) new -> exists c0 n m, In c0 (c :: l) /\
       c_snd c0 = Some n /\ lookup n names = Some a /\ c_rcv c0 = Some m /\ lookup m names = Some b /\
       c_sp c0 = Some s /\ c_rp c0 = Some r /\ registered s = true /\ registered r = true /\
       connectable w a s b r).
    { intros b r I. destruct (K b r I) as (c0 & n0 & m0 & I0 & A1 & A2 & A3 & A4 & A5 & A6 & A7 & A8 & A9).
      exists c0, n0, m0. split; [now right|]. repeat (split; [assumption|]).
      apply (connectable_same w1 w); [|exact A9]. destruct T1 as (T1 & T2 & T3).
      split; [|split]; intros; symmetry; auto. }
    destruct d.
    + destruct X as (X & _). rewrite X in E. destruct (Nat.eqb_spec a a1); destruct (Nat.eqb_spec s s1);
      simpl in E; try (exists new; rewrite E, app_nil_r; auto; fail).
      subst. exists ((b1, r1) :: new). split; [now rewrite E, <- app_assoc|].
      intros b r [I|I]; [|auto]. injection I as <- <-. exists c, n, m. split; [now left|].
      repeat (split; [assumption|]).
      clear - E9 L. unfold add_pin in E9.
      destruct (build_ports w a1) as [w2|] eqn:B1; [|discriminate].
      destruct (build_ports w2 b1) as [w3|] eqn:B2; [|discriminate].
      assert (T : same_types w w3).
      { eapply same_types_trans; [exact (build_types _ _ _ B1)|exact (build_types _ _ _ B2)]. }
      assert (T' : same_types w3 w) by (destruct T as (T1 & T2 & T3); split; [|split]; intros; symmetry; auto).
      apply (connectable_same _ _ _ _ _ _ T').
      assert (BB : b_built (w3 b1) = true).
      { unfold build_ports in B2. destruct (b_built (w2 b1)) eqn:E; [congruence|].
        destruct (b_proto (w2 b1)) as [[]|]; [|discriminate]. injection B2 as <-. unfold upd. now rewrite Nat.eqb_refl. }
      assert (BA : b_built (w3 a1) = true).
      { apply (build_keeps_built _ _ _ _ B2).
        unfold build_ports in B1. destruct (b_built (w a1)) eqn:E; [congruence|].
        destruct (b_proto (w a1)) as [[]|]; [|discriminate]. injection B1 as <-. unfold upd. now rewrite Nat.eqb_refl. }
      destruct (add_pin_built w3 a1 b1 s1 r1 false) as [w4 d] eqn:E. injection E9 as <- ->.
      assert (D : snd (add_pin_built w3 a1 b1 s1 r1 false) = true) by now rewrite E.
      apply add_pin_built_done in D. destruct D as (D1 & D2 & po & pi & D3 & D4 & [D5|D5]); [discriminate|].
      split; [exact D1|]. split; [exact D2|]. unfold out_type, in_type. rewrite BA, BB, D3, D4. simpl.
      exists (po_type po). rewrite D5. auto.
    + destruct X as (X & _). rewrite X in E. exists new. auto.
Qed.

(** A section that names an unknown block or port, or misses an option, changes nothing. *)
Lemma absorb_skips : forall names registered c l2 l1 w ok,
  (forall n m s r, c_snd c = Some n -> c_rcv c = Some m -> c_sp c = Some s -> c_rp c = Some r ->
     ~ In n (map fst names) \/ ~ In m (map fst names) \/ registered s = false \/ registered r = false) ->
  absorb names registered w ok (l1 ++ c :: l2) = absorb names registered w ok (l1 ++ l2).
Proof.
  intros names registered c l2 l1 w ok H. revert w ok. induction l1 as [|x l1 IH]; intros w ok.
  - simpl app. simpl absorb. unfold find_block, find_port.
    destruct (c_snd c) as [n|]; [|reflexivity].
    assert (LK : forall n o, lookup n names = Some o -> In n (map fst names)).
    { clear H. intros k o. induction names as [|[k' v] l IHl]; simpl; intros E; [discriminate|].
      destruct (Nat.eqb_spec k' k); [left; congruence|].
      destruct (Nat.eqb_spec k k'); [left; congruence|right; exact (IHl E)]. }
    destruct (lookup n names) as [a|] eqn:E1; [|reflexivity].
    destruct (c_rcv c) as [m|]; [|reflexivity].
    destruct (lookup m names) as [b|] eqn:E2; [|reflexivity].
    destruct (c_sp c) as [s|]; [|reflexivity]. destruct (registered s) eqn:E3; [|reflexivity].
    destruct (c_rp c) as [r|]; [|reflexivity]. destruct (registered r) eqn:E4; [|reflexivity].
    exfalso. apply LK in E1, E2. destruct (H n m s r) as [K|[K|[K|K]]]; try reflexivity; try tauto; congruence.
  - simpl. destruct (find_block names (c_snd x)); [|apply IH]. destruct (find_block names (c_rcv x)); [|apply IH].
    destruct (find_port registered (c_sp x)); [|apply IH]. destruct (find_port registered (c_rp x)); [|apply IH].
    match goal with |- context[add_pin ?a ?b ?c ?d ?e ?f] => destruct (add_pin a b c d e f); [reflexivity|apply IH] end.
Qed.

(** Through a file. *)
Lemma restore_file : forall names registered w w0,
  good_names names -> well_formed w -> graph_ok w -> pins_are_named names registered w ->
  no_pins_yet w0 ->
  (forall a s b r, In (b, r) (out_links w a s) -> connectable w0 a s b r) ->
  exists w', absorb names registered w0 true (visit_order (flush names w)) = AbsDone w' true /\
    (forall x p, Permutation (out_links w' x p) (out_links w x p)) /\
    (forall x p, Permutation (in_links w' x p) (in_links w x p)) /\
    (forall a b, chi_mult w' a b = chi_mult w a b) /\ (forall a b, par_mult w' b a = par_mult w b a).
Proof. intros. eapply restore_any_order; eauto. apply visit_perm. Qed.
