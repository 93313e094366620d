(** Proofs about the search of the closest cell. *)
From Coq Require Import Reals Lra.
From Coq Require Import List Arith Bool Lia.
From Verif Require Import Vec SkdFind SkdFindSpec.
Import ListNotations.
Local Open Scope nat_scope.

Section Find.
  Variable mind maxd : box -> vec -> R.
  Variable dist : nat -> vec -> R.
  Variable interior : nat -> bool.
  Variable tie : vec -> nat -> nat -> bool.
  Variable p : vec.

  Notation fits := (right_boxes mind maxd dist p).

  Lemma some_cell : forall t, fits t -> exists c, In c (cells_of t).
  Proof.
    induction t as [b cells | b l IHl r IHr]; cbn; intros H.
    - destruct H as [H _]. destruct cells as [| c cells]; [congruence |]. exists c. now left.
    - destruct H as (_ & Hl & _). destruct (IHl Hl) as [c Hc]. exists c. apply in_or_app. now left.
  Qed.
  Lemma in_box : forall t c, fits t -> In c (cells_of t) -> (mind (box_of t) p <= dist c p <= maxd (box_of t) p)%R.
  Proof.
    intros [b cells | b l r] c H Hc; cbn in *.
    - destruct H as [_ H]. now apply H.
    - destruct H as [H _]. apply H. now apply in_app_or.
  Qed.

  Definition all_nodes (l : list tree) : nat := list_sum (map nodes l).

  Lemma nodes_pos : forall t, 1 <= nodes t.
  Proof. intros [b cells | b l r]; cbn; lia. Qed.
  Lemma scan_ok : forall fuel stack est cand E C,
    all_nodes stack <= fuel ->
    (forall t, In t stack -> fits t) ->
    scan mind maxd p fuel stack est cand = (E, C) ->
    (E <= est)%R /\
    (forall k, In k cand -> In k C) /\
    (forall k, In k C -> In k cand \/ exists t, In t stack /\ (forall c, In c (fst k) -> In c (cells_of t) /\ (snd k <= dist c p)%R)) /\
    (forall t c, In t stack -> In c (cells_of t) -> (dist c p <= E)%R -> exists k, In k C /\ In c (fst k)) /\
    (E = est \/ exists t g, In t stack /\ In g (cells_of t) /\ (dist g p <= E)%R).
  Proof.
    induction fuel as [| fuel IH]; intros stack est cand E C Hf Hfit H.
    - destruct stack as [| t stack].
      + cbn in H. injection H as <- <-. split; [lra |]. split; [auto |]. split; [auto |]. split; [intros t c [] |]. now left.
      + change (nodes t + all_nodes stack <= 0) in Hf. pose proof (nodes_pos t). lia.
    - destruct stack as [| t stack].
      { cbn in H. injection H as <- <-. split; [lra |]. split; [auto |]. split; [auto |]. split; [intros t c [] |]. now left. }
      cbn in H.
      assert (Ht : fits t) by (apply Hfit; now left).
      assert (Hs : forall t', In t' stack -> fits t') by (intros t' Ht'; apply Hfit; now right).
      change (nodes t + all_nodes stack <= S fuel) in Hf. pose proof (nodes_pos t) as Np.
      destruct (Rlt_dec est (mind (box_of t) p)) as [L | L].
      + assert (Hf' : all_nodes stack <= fuel) by lia.
        destruct (IH _ _ _ _ _ Hf' Hs H) as (H1 & H2 & H3 & H4 & H5).
        split; [exact H1 |]. split; [exact H2 |]. split; [| split].
        * intros k Hk. destruct (H3 k Hk) as [Hk' | (t' & Ht' & Hk')]; [now left |]. right. exists t'. split; [now right | exact Hk'].
        * intros t' c [<- | Ht'] Hc Hd; [| now apply (H4 t')].
          destruct (in_box _ _ Ht Hc) as [Hm _]. lra.
        * destruct H5 as [H5 | (t' & g & Ht' & Hg)]; [now left |]. right. exists t', g. split; [now right | exact Hg].
      + set (est1 := Rmin (maxd (box_of t) p) est) in *.
        assert (He1 : (est1 <= est)%R) by apply Rmin_r.
        assert (He2 : (est1 <= maxd (box_of t) p)%R) by apply Rmin_l.
        assert (He3 : est1 = est \/ exists g, In g (cells_of t) /\ (dist g p <= est1)%R).
        { unfold est1, Rmin. destruct (Rle_dec (maxd (box_of t) p) est); [right | now left].
          destruct (some_cell _ Ht) as [g Hg]. exists g. split; [exact Hg |]. apply (in_box _ _ Ht Hg). }
        destruct t as [b cells | b l r].
        * assert (Hf' : all_nodes stack <= fuel) by lia.
          destruct (IH _ _ _ _ _ Hf' Hs H) as (H1 & H2 & H3 & H4 & H5).
          split; [lra |]. split; [| split; [| split]].
          -- intros k Hk. apply H2. apply in_or_app. now left.
          -- intros k Hk. destruct (H3 k Hk) as [Hk' | (t' & Ht' & Hk')].
             ++ apply in_app_or in Hk'. destruct Hk' as [Hk' | [<- | []]]; [now left |]. right.
                exists (Leaf b cells). split; [now left |]. cbn. intros c Hc. split; [exact Hc |]. apply (in_box _ c Ht Hc).
             ++ right. exists t'. split; [now right | exact Hk'].
          -- intros t' c [<- | Ht'] Hc Hd; [| now apply (H4 t')].
             exists (cells, mind b p). split; [| exact Hc]. apply H2. apply in_or_app. right. now left.
          -- destruct H5 as [H5 | (t' & g & Ht' & Hg)].
             ++ destruct He3 as [He3 | (g & Hg & Hgd)]; [left; congruence |].
                right. exists (Leaf b cells), g. split; [now left |]. split; [exact Hg | lra].
             ++ right. exists t', g. split; [now right | exact Hg].
        * assert (Hf' : all_nodes (r :: l :: stack) <= fuel)
            by (change (nodes r + (nodes l + all_nodes stack) <= fuel); cbn [nodes] in Hf; lia).
          assert (Hs' : forall t', In t' (r :: l :: stack) -> fits t').
          { cbn in Ht. destruct Ht as (_ & Hl & Hr). intros t' [<- | [<- | Ht']]; auto. }
          destruct (IH _ _ _ _ _ Hf' Hs' H) as (H1 & H2 & H3 & H4 & H5).
          split; [lra |]. split; [exact H2 |]. split; [| split].
          -- intros k Hk. destruct (H3 k Hk) as [Hk' | (t' & Ht' & Hk')]; [now left |]. right.
             destruct Ht' as [<- | [<- | Ht']].
             ++ exists (Fork b l r). split; [now left |]. intros c Hc. destruct (Hk' c Hc). split; [| assumption]. cbn. apply in_or_app. now right.
             ++ exists (Fork b l r). split; [now left |]. intros c Hc. destruct (Hk' c Hc). split; [| assumption]. cbn. apply in_or_app. now left.
             ++ exists t'. split; [now right | exact Hk'].
          -- intros t' c [<- | Ht'] Hc Hd.
             ++ cbn in Hc. apply in_app_or in Hc. destruct Hc as [Hc | Hc]; [apply (H4 l) | apply (H4 r)]; auto; [right; now left | now left].
             ++ apply (H4 t'); auto. right. now right.
          -- destruct H5 as [H5 | (t' & g & Ht' & Hg & Hgd)].
             ++ destruct He3 as [He3 | (g & Hg & Hgd)]; [left; congruence |].
                right. exists (Fork b l r), g. split; [now left |]. split; [exact Hg | lra].
             ++ right. destruct Ht' as [<- | [<- | Ht']].
                ** exists (Fork b l r), g. split; [now left |]. split; [| exact Hgd]. cbn. apply in_or_app. now right.
                ** exists (Fork b l r), g. split; [now left |]. split; [| exact Hgd]. cbn. apply in_or_app. now left.
                ** exists t', g. split; [now right |]. now split.
  Qed.

  Variable io : bool.
  Definition eligible (c : nat) : bool := negb (io && negb (interior c)).

  (** what has been found among the cells [L], from the estimate [E] *)
  Definition progress (E : R) (L : list nat) (s : option nat * R) : Prop :=
    match fst s with
    | None => snd s = E /\ forall c, In c L -> eligible c = true -> (E < dist c p)%R
    | Some c => In c L /\ eligible c = true /\ snd s = dist c p /\ (dist c p <= E)%R /\
                forall c', In c' L -> eligible c' = true -> (dist c p <= dist c' p)%R
    end.

  Lemma update_cell_ok : forall E L s c, progress E L s -> progress E (L ++ [c]) (update_cell dist interior tie p io s c).
  Proof.
    intros E L [o d] c H. unfold update_cell. cbn [fst snd].
    assert (K : forall c', In c' (L ++ [c]) -> In c' L \/ c' = c).
    { intros c' Hc. apply in_app_or in Hc. destruct Hc as [Hc | [<- | []]]; auto. }
    assert (Kc : In c (L ++ [c])) by (apply in_or_app; right; now left).
    destruct (io && negb (interior c)) eqn:El.
    - assert (Ne : eligible c = false) by (unfold eligible; now rewrite El).
      unfold progress in *. destruct o as [c0 |]; cbn [fst snd] in *.
      + destruct H as (H1 & H2 & H3 & H4 & H5). split; [apply in_or_app; now left |]. do 3 (split; [assumption |]).
        intros c' Hc' He. destruct (K c' Hc') as [Hc | ->]; [now apply H5 | congruence].
      + destruct H as [H1 H2]. split; [assumption |]. intros c' Hc' He. destruct (K c' Hc') as [Hc | ->]; [now apply H2 | congruence].
    - assert (Ec : eligible c = true) by (unfold eligible; now rewrite El).
      unfold progress in H. destruct o as [c0 |]; cbn [fst snd] in H.
      + destruct H as (H1 & H2 & H3 & H4 & H5).
        destruct (Rlt_dec (dist c p) d) as [Hlt | Hge].
        * unfold progress; cbn [fst snd]. split; [exact Kc |]. split; [exact Ec |]. split; [reflexivity |]. split; [lra |].
          intros c' Hc' He. destruct (K c' Hc') as [Hc | ->]; [specialize (H5 _ Hc He); lra | lra].
        * destruct (Req_EM_T (dist c p) d) as [He | Hne]; [destruct (tie p c c0) |]; unfold progress; cbn [fst snd].
          -- split; [exact Kc |]. split; [exact Ec |]. split; [reflexivity |]. split; [lra |].
             intros c' Hc' He'. destruct (K c' Hc') as [Hc | ->]; [specialize (H5 _ Hc He'); lra | lra].
          -- split; [apply in_or_app; now left |]. do 3 (split; [assumption |]).
             intros c' Hc' He'. destruct (K c' Hc') as [Hc | ->]; [now apply H5 | lra].
          -- split; [apply in_or_app; now left |]. do 3 (split; [assumption |]).
             intros c' Hc' He'. destruct (K c' Hc') as [Hc | ->]; [now apply H5 | lra].
      + destruct H as [H1 H2]. subst d. destruct (Rle_dec (dist c p) E) as [Hle | Hgt]; unfold progress; cbn [fst snd].
        * split; [exact Kc |]. split; [exact Ec |]. split; [reflexivity |]. split; [exact Hle |].
          intros c' Hc' He'. destruct (K c' Hc') as [Hc | ->]; [specialize (H2 _ Hc He'); lra | lra].
        * split; [reflexivity |]. intros c' Hc' He'. destruct (K c' Hc') as [Hc | ->]; [now apply H2 | lra].
  Qed.
  Lemma update_node_ok : forall E cells L s, progress E L s -> progress E (L ++ cells) (update_node dist interior tie p io s cells).
  Proof.
    intros E. unfold update_node. induction cells as [| c cells IH]; intros L s H; cbn.
    - now rewrite app_nil_r.
    - replace (L ++ c :: cells) with ((L ++ [c]) ++ cells) by (rewrite <- app_assoc; reflexivity).
      apply IH. now apply update_cell_ok.
  Qed.
  Lemma look_ok : forall E C L s,
    (forall k c, In k C -> In c (fst k) -> (snd k <= dist c p)%R) ->
    progress E L s -> progress E (L ++ flat_map fst C) (fold_left (look dist interior tie p io) C s).
  Proof.
    intros E. induction C as [| k C IH]; intros L s HC H; cbn [fold_left flat_map].
    - now rewrite app_nil_r.
    - rewrite app_assoc. apply IH; [intros k' c Hk'; apply HC; now right |].
      unfold look. destruct (Rlt_dec (snd s) (snd k)) as [Hlt | _]; [| now apply update_node_ok].
      assert (Far : forall c, In c (fst k) -> (snd s < dist c p)%R).
      { intros c Hc. specialize (HC k c (or_introl eq_refl) Hc). lra. }
      destruct s as [[c0 |] d]; unfold progress in *; cbn [fst snd] in *.
      + destruct H as (H1 & H2 & H3 & H4 & H5). split; [apply in_or_app; now left |]. do 3 (split; [assumption |]).
        intros c' Hc' He'. apply in_app_or in Hc'. destruct Hc' as [Hc | Hc]; [now apply H5 |]. specialize (Far _ Hc). lra.
      + destruct H as [-> H2]. split; [reflexivity |].
        intros c' Hc' He'. apply in_app_or in Hc'. destruct Hc' as [Hc | Hc]; [now apply H2 | now apply Far].
  Qed.

  Variable big : R.
  (** everything about a search *)
  Lemma find_ok : forall t M, fits t ->
    match findPointClosestCell mind maxd dist interior tie big p t M io with
    | (Some c, d) => d = dist c p /\ (d <= M)%R /\ closest dist p (cells_of t) eligible c
    | (None, d) => d = big /\ forall c, In c (cells_of t) -> eligible c = true ->
                     (M < dist c p)%R \/ exists g, In g (cells_of t) /\ (dist g p < dist c p)%R
    end.
  Proof.
    intros t M Ht. unfold findPointClosestCell.
    destruct (scan mind maxd p (nodes t) [t] (Rmin (maxd (box_of t) p) M) []) as [E C] eqn:Es.
    assert (Hf : all_nodes [t] <= nodes t) by (unfold all_nodes; cbn; lia).
    assert (Hs : forall t', In t' [t] -> fits t') by (intros t' [<- | []]; exact Ht).
    destruct (scan_ok _ _ _ _ _ _ Hf Hs Es) as (H1 & _ & H3 & H4 & H5).
    assert (HC : forall k c, In k C -> In c (fst k) -> In c (cells_of t) /\ (snd k <= dist c p)%R).
    { intros k c Hk Hc. destruct (H3 k Hk) as [[] | (t' & [<- | []] & Hk')]. now apply Hk'. }
    assert (P : progress E ([] ++ flat_map fst C) (fold_left (look dist interior tie p io) C (None, E))).
    { apply look_ok; [intros k c Hk Hc; now apply (HC k c Hk Hc) |]. unfold progress. cbn. split; [reflexivity |]. intros c []. }
    cbn [app] in P.
    assert (Back : forall c, In c (flat_map fst C) -> In c (cells_of t)).
    { intros c Hc. apply in_flat_map in Hc. destruct Hc as (k & Hk & Hc). now apply (HC k c Hk Hc). }
    assert (Forth : forall c, In c (cells_of t) -> (dist c p <= E)%R -> In c (flat_map fst C)).
    { intros c Hc Hd. destruct (H4 t c (or_introl eq_refl) Hc Hd) as (k & Hk & Hk'). apply in_flat_map. now exists k. }
    destruct (fold_left (look dist interior tie p io) C (None, E)) as [[c |] d]; unfold progress in P; cbn [fst snd] in *.
    - destruct P as (P1 & P2 & P3 & P4 & P5). split; [exact P3 |].
      split; [pose proof (Rmin_r (maxd (box_of t) p) M); lra |].
      split; [now apply Back |]. split; [exact P2 |].
      intros c' Hc' He'. destruct (Rle_dec (dist c' p) E) as [Hd | Hd]; [apply P5; auto | lra].
    - split; [reflexivity |]. destruct P as [-> P2]. intros c Hc He.
      assert (Hfar : (E < dist c p)%R).
      { destruct (Rle_dec (dist c p) E) as [Hd | Hd]; [apply P2; auto | lra]. }
      destruct H5 as [H5 | (t' & g & [<- | []] & Hg & Hgd)]; [| right; exists g; split; [exact Hg | lra]].
      unfold Rmin in H5. destruct (Rle_dec (maxd (box_of t) p) M) as [_ | _].
      + right. destruct (in_box _ _ Ht Hc). lra.
      + left. lra.
  Qed.
End Find.

Lemma argmin : forall (A : Type) (f : A -> R) (l : list A) (a : A), In a l -> exists m, In m l /\ forall x, In x l -> (f m <= f x)%R.
Proof.
  intros A f. induction l as [| y l IH]; intros a Ha; [destruct Ha |].
  destruct l as [| z l].
  - exists y. split; [now left |]. intros x [<- | []]. lra.
  - destruct (IH z (or_introl eq_refl)) as (m & Hm & Hl).
    destruct (Rle_dec (f y) (f m)) as [L | L].
    + exists y. split; [now left |]. intros x [<- | Hx]; [lra |]. specialize (Hl x Hx). lra.
    + exists m. split; [now right |]. intros x [<- | Hx]; [lra |]. now apply Hl.
Qed.

Lemma not_farther_refl : forall a, not_farther a a.
Proof. intros [[[r c] d] |]; unfold not_farther; cbn; [lra | exact I]. Qed.
Lemma not_farther_trans : forall a b c, not_farther a b -> not_farther b c -> not_farther a c.
Proof.
  intros [[[r c] d] |] [[[r1 c1] d1] |] [[[r2 c2] d2] |]; unfold not_farther; cbn; intros; try lra; tauto.
Qed.

Section Global.
  Variable mind maxd : box -> vec -> R.
  Variable dist : nat -> nat -> vec -> R.
  Variable interior : nat -> nat -> bool.
  Variable trees : nat -> tree.
  Variable pbox : nat -> box.
  Variable tie : vec -> nat -> nat -> bool.
  Variable big : R.
  Variable nprocs : nat.
  Variable pick : found -> found -> found.
  Hypothesis Hpick : picks_least pick.

  Lemma reduce_ok : forall v, 0 < nprocs ->
    (exists r, r < nprocs /\ reduce nprocs pick v = v r) /\ forall r, r < nprocs -> not_farther (reduce nprocs pick v) (v r).
  Proof.
    intros v Hn. unfold reduce.
    assert (G : forall l, (forall r, In r l -> r < nprocs) ->
      (exists r, r < nprocs /\ fold_right (fun r m => pick (v r) m) (v 0) l = v r) /\
      forall r, In r l -> not_farther (fold_right (fun r m => pick (v r) m) (v 0) l) (v r)).
    { induction l as [| x l IH]; intros Hl; cbn.
      - split; [exists 0; now split |]. intros r [].
      - destruct IH as [(r0 & Hr0 & E0) IH]; [intros r Hr; apply Hl; now right |].
        destruct (Hpick (v x) (fold_right (fun r m => pick (v r) m) (v 0) l)) as ([E | E] & N1 & N2).
        + split; [exists x; split; [apply Hl; now left | exact E] |].
          intros r [<- | Hr]; [exact N1 |]. eapply not_farther_trans; [exact N2 | now apply IH].
        + split; [exists r0; split; [exact Hr0 | now rewrite E] |].
          intros r [<- | Hr]; [exact N1 |]. eapply not_farther_trans; [exact N2 | now apply IH]. }
    destruct (G (seq 0 nprocs)) as [G1 G2]; [intros r Hr; apply in_seq in Hr; lia |].
    split; [exact G1 |]. intros r Hr. apply G2. apply in_seq. lia.
  Qed.
  Lemma reduce_same : forall x, reduce nprocs pick (fun _ => x) = x.
  Proof.
    intros x. unfold reduce. induction (seq 0 nprocs) as [| r l IH]; cbn; [reflexivity |]. rewrite IH.
    destruct (Hpick x x) as ([E | E] & _); exact E.
  Qed.
  Lemma again_same : forall k x me, again nprocs pick k (fun _ => x) me = x.
  Proof. induction k as [| k IH]; intros x me; cbn; [reflexivity |]. rewrite reduce_same. apply IH. Qed.
  Lemma again_once : forall v me, 0 < nprocs -> again nprocs pick nprocs v me = reduce nprocs pick v.
  Proof. intros v me Hn. destruct nprocs as [| k] eqn:E; [lia |]. cbn [again]. rewrite <- E. apply again_same. Qed.

  Variable p : vec.
  Hypothesis Hgood : shared_out mind maxd dist interior trees pbox big nprocs p.
  Notation cells r := (cells_of (trees r)).
  Notation local := (local mind maxd dist interior trees pbox tie big nprocs).

  Lemma bound_ok : forall x, (x <= big)%R -> (forall r, r < nprocs -> (x <= maxd (pbox r) p)%R) ->
    (x <= bound maxd pbox big nprocs p)%R.
  Proof.
    intros x Hx Hr. unfold bound.
    assert (G : forall l m, (x <= m)%R -> (forall r, In r l -> (x <= maxd (pbox r) p)%R) ->
      (x <= fold_left (fun m r => Rmin (maxd (pbox r) p) m) l m)%R).
    { induction l as [| r l IH]; intros m Hm Hl; cbn; [exact Hm |].
      apply IH; [apply Rmin_glb; [apply Hl; now left | exact Hm] |]. intros r' Hr'. apply Hl. now right. }
    apply G; [exact Hx |]. intros r Hl. apply Hr. apply in_seq in Hl. lia.
  Qed.

  Lemma local_some : forall me r c d, me < nprocs -> local p me = Some (r, c, d) ->
    r = me /\ In c (cells me) /\ interior me c = true /\ d = dist me c p /\
    forall c', In c' (cells me) -> interior me c' = true -> (d <= dist me c' p)%R.
  Proof.
    intros me r c d Hme. unfold SkdFind.local. destruct Hgood as (G1 & _).
    pose proof (find_ok mind maxd (dist me) (interior me) tie p true big (trees me) (bound maxd pbox big nprocs p) (G1 _ Hme)) as F.
    destruct (findPointClosestCell mind maxd (dist me) (interior me) tie big p (trees me) (bound maxd pbox big nprocs p) true) as [[c0 |] d0];
      intros H; [| discriminate].
    injection H as <- <- <-. destruct F as (F1 & _ & F3 & F4 & F5).
    assert (El : forall x, eligible (interior me) true x = interior me x) by (intros x; unfold eligible; cbn; apply negb_involutive).
    rewrite El in F4. do 4 (split; [assumption || reflexivity |]).
    intros c' Hc' Hi. rewrite F1. apply F5; [exact Hc' |]. now rewrite El.
  Qed.

  Lemma nearest_owned : 0 < nprocs -> exists r c, r < nprocs /\ In c (cells r) /\ interior r c = true /\
    forall r' c', r' < nprocs -> In c' (cells r') -> (dist r c p <= dist r' c' p)%R.
  Proof.
    intros Hn. destruct Hgood as (G1 & G2 & G3 & G4).
    set (L := flat_map (fun r => map (pair r) (cells r)) (seq 0 nprocs)).
    assert (HL : forall r c, In (r, c) L <-> r < nprocs /\ In c (cells r)).
    { intros r c. unfold L. rewrite in_flat_map. split.
      - intros (r' & Hr' & Hc). apply in_map_iff in Hc. destruct Hc as (c' & E & Hc'). injection E as <- <-. apply in_seq in Hr'. split; [lia | exact Hc'].
      - intros [Hr Hc]. exists r. split; [apply in_seq; lia |]. apply in_map_iff. now exists c. }
    destruct (some_cell mind maxd (dist 0) p (trees 0) (G1 0 Hn)) as [c0 Hc0].
    destruct (argmin _ (fun k => dist (fst k) (snd k) p) L (0, c0)) as ([r c] & Hm & Hmin); [apply HL; now split |].
    apply HL in Hm. destruct Hm as [Hr Hc]. cbn [fst snd] in Hmin.
    assert (Min : forall r' c', r' < nprocs -> In c' (cells r') -> (dist r c p <= dist r' c' p)%R).
    { intros r' c' Hr' Hc'. apply (Hmin (r', c')). apply HL. now split. }
    destruct (interior r c) eqn:Ei; [now exists r, c |].
    destruct (G2 r c Hr Hc Ei) as (r1 & c1 & Hr1 & Hc1 & Hi1 & Hd1).
    exists r1, c1. do 3 (split; [assumption |]). intros r' c' Hr' Hc'. rewrite Hd1. now apply Min.
  Qed.

  Lemma reduced : 0 < nprocs -> exists r c,
    reduce nprocs pick (local p) = Some (r, c, dist r c p) /\
    closest_of_all nprocs dist interior (fun r => cells r) p r c.
  Proof.
    intros Hn. destruct (nearest_owned Hn) as (r0 & c0 & Hr0 & Hc0 & Hi0 & Min).
    destruct (reduce_ok (local p) Hn) as [(r1 & Hr1 & E1) Less].
    specialize (Less r0 Hr0).
    assert (L0 : exists c d, local p r0 = Some (r0, c, d) /\ (d <= dist r0 c0 p)%R).
    { destruct Hgood as (G1 & G2 & G3 & G4). unfold SkdFind.local.
      pose proof (find_ok mind maxd (dist r0) (interior r0) tie p true big (trees r0) (bound maxd pbox big nprocs p) (G1 _ Hr0)) as F.
      destruct (findPointClosestCell mind maxd (dist r0) (interior r0) tie big p (trees r0) (bound maxd pbox big nprocs p) true) as [[c |] d].
      - exists c, d. split; [reflexivity |]. destruct F as (F1 & _ & F3 & F4 & F5). rewrite F1. apply F5; [exact Hc0 |].
        unfold eligible. rewrite Hi0. reflexivity.
      - exfalso. destruct F as [_ F]. destruct (F c0 Hc0) as [Far | (g & Hg & Near)].
        + unfold eligible. rewrite Hi0. reflexivity.
        + assert (dist r0 c0 p <= bound maxd pbox big nprocs p)%R; [| lra].
          apply bound_ok; [now apply G4 |]. intros r Hr. destruct (G3 r Hr) as (c & Hc & Hd). specialize (Min r c Hr Hc). lra.
        + specialize (Min r0 g Hr0 Hg). lra. }
    destruct L0 as (c & d & L0 & Hd). rewrite L0 in Less. rewrite E1 in Less |- *.
    destruct (local p r1) as [[[r2 c2] d2] |] eqn:E2; [| unfold not_farther in Less; cbn in Less; contradiction].
    destruct (local_some _ _ _ _ Hr1 E2) as (-> & K2 & K3 & -> & _).
    unfold not_farther in Less. cbn in Less.
    exists r1, c2. split; [reflexivity |]. do 3 (split; [assumption |]).
    intros r' c' Hr' Hc'. specialize (Min r' c' Hr' Hc'). lra.
  Qed.
End Global.

Lemma row_of : forall (points : nat -> list vec) n me i d, me < n -> i < length (points me) ->
  nth (total points me + i) (flat_map points (seq 0 n)) d = nth i (points me) d.
Proof.
  intros points n me i d Hme Hi.
  assert (G : forall k s, nth (list_sum (map (fun r => length (points r)) (seq s k)) + i) (flat_map points (seq s k) ++ points (s + k) ++ flat_map points (seq (s + k + 1) (n - (s + k + 1)))) d
                        = nth i (points (s + k) ++ flat_map points (seq (s + k + 1) (n - (s + k + 1)))) d).
  { induction k as [| k IH]; intros s; [reflexivity |].
    cbn [seq flat_map map]. change (list_sum (length (points s) :: ?l)) with (length (points s) + list_sum l).
    rewrite <- !app_assoc. rewrite <- Nat.add_assoc.
    rewrite app_nth2 by lia. replace (length (points s) + _ - length (points s)) with (list_sum (map (fun r => length (points r)) (seq (S s) k)) + i) by lia.
    replace (s + S k) with (S s + k) by lia. apply IH. }
  specialize (G me 0). cbn [Nat.add] in G. unfold total.
  assert (S : flat_map points (seq 0 n) = flat_map points (seq 0 me) ++ points me ++ flat_map points (seq (me + 1) (n - (me + 1)))).
  { replace n with (me + (1 + (n - (me + 1)))) at 1 by lia. rewrite seq_app, flat_map_app. f_equal.
    cbn [seq flat_map Nat.add]. do 3 f_equal. lia. }
  rewrite S, G. now apply app_nth1.
Qed.
Lemma total_len : forall points n, length (flat_map points (seq 0 n)) = total points n.
Proof.
  intros points n. unfold total. induction (seq 0 n) as [| r l IH]; [reflexivity |].
  cbn [flat_map map]. rewrite app_length, IH. reflexivity.
Qed.
Lemma total_le : forall points n, total points (S n) = total points n + length (points n).
Proof.
  intros points n. unfold total. replace (S n) with (n + 1) by lia. rewrite seq_app, map_app, list_sum_app. cbn. lia.
Qed.
Lemma row_in : forall points me n i, me < n -> i < length (points me) -> total points me + i < total points n.
Proof.
  intros points me n i Hme Hi. induction n as [| n IH]; [lia |]. rewrite total_le.
  destruct (Nat.eq_dec me n) as [-> | Hne]; [lia |]. assert (me < n) by lia. specialize (IH H). lia.
Qed.
