From Coq Require Import List Arith Bool Lia Permutation.
From Verif Require Import Obj Select Topo TopoSpec TriProofs.
Import ListNotations.

Lemma same_sym : forall f h, same f h -> same h f.
Proof. intros f h H v. split; apply H. Qed.
Lemma same_trans : forall f h k, same f h -> same h k -> same f k.
Proof. intros f h k H J v. rewrite (H v). apply J. Qed.

Lemma touch_sym : forall m a b, touch m a b -> touch m b a.
Proof.
  intros m a b (f & Hf & Hn & h & Hh & Hs). exists h. split; [exact Hh|]. split; [congruence|]. exists f. split; [exact Hf|]. apply same_sym, Hs.
Qed.
Lemma linked_trans : forall m a b c, linked m a b -> linked m b c -> linked m a c.
Proof. intros m a b c H. induction H as [a|a x b Ht Hl IH]; intros J; [exact J|]. apply (lk_step m a x c Ht). apply IH, J. Qed.
Lemma linked_one : forall m a b, touch m a b -> linked m a b.
Proof. intros m a b H. apply (lk_step m a b b H), lk_refl. Qed.
Lemma linked_sym : forall m a b, linked m a b -> linked m b a.
Proof.
  intros m a b H. induction H as [a|a x b Ht Hl IH]; [apply lk_refl|]. apply (linked_trans m b x a IH). apply linked_one, touch_sym, Ht.
Qed.
(** a set of cells with all the cells they touch holds all the cells they are linked to *)
Lemma linked_closed : forall m (P : nat -> Prop), (forall a b, P a -> touch m a b -> P b) -> forall a b, linked m a b -> P a -> P b.
Proof. intros m P H a b L. induction L as [a|a x b Ht Hl IH]; intros Pa; [exact Pa|]. apply IH, (H a x Pa Ht). Qed.

Lemma first_none : forall l ch, first_unchecked l ch = None -> forall x, In x l -> In x ch.
Proof.
  induction l as [|y l IH]; cbn [first_unchecked]; intros ch H x Hx; [destruct Hx|].
  destruct (nin y ch) eqn:E; [|discriminate]. destruct Hx as [-> | Hx]; [apply nin_iff, E|]. apply (IH ch H x Hx).
Qed.
Lemma first_some : forall l ch n, first_unchecked l ch = Some n -> In n l /\ ~ In n ch.
Proof.
  induction l as [|y l IH]; cbn [first_unchecked]; intros ch n H; [discriminate|].
  destruct (nin y ch) eqn:E.
  - destruct (IH ch n H) as (A & B). split; [right; exact A|exact B].
  - injection H as <-. split; [left; reflexivity|]. apply nin_false, E.
Qed.

Lemma push_ok : forall fs st ch, exists new,
  push_faces fs st ch = (new ++ st, new ++ ch) /\ NoDup new /\
  (forall x, In x new -> ~ In x ch /\ exists ns, In ns fs /\ In x ns) /\
  (forall ns, In ns fs -> (forall x, In x ns -> In x ch) \/ exists n, In n ns /\ In n new).
Proof.
  induction fs as [|ns fs IH]; intros st ch; cbn [push_faces].
  - exists []. split; [reflexivity|]. split; [constructor|]. split; intros x [].
  - destruct (first_unchecked ns ch) as [n|] eqn:E.
    + destruct (first_some ns ch n E) as (Hn & Hc).
      destruct (IH (n :: st) (n :: ch)) as (new & Hp & Hd & Hin & Hall).
      exists (new ++ [n]). rewrite <- !app_assoc. split; [exact Hp|].
      split.
      { apply nodup_app; [exact Hd|constructor; [intros []|constructor]|]. intros x Hx [<- | []]. destruct (Hin n Hx) as (A & _). apply A. left. reflexivity. }
      split.
      * intros x Hx. apply in_app_iff in Hx. destruct Hx as [Hx | [<- | []]].
        -- destruct (Hin x Hx) as (A & k & Hk & Hxk). split; [intros F; apply A; right; exact F|]. exists k. split; [right; exact Hk|exact Hxk].
        -- split; [exact Hc|]. exists ns. split; [left; reflexivity|exact Hn].
      * intros k [<- | Hk].
        -- right. exists n. split; [exact Hn|]. apply in_app_iff. right. left. reflexivity.
        -- destruct (in_dec Nat.eq_dec n k) as [Hnk|Hnk].
           ++ right. exists n. split; [exact Hnk|]. apply in_app_iff. right. left. reflexivity.
           ++ destruct (Hall k Hk) as [A|(x & A & B)].
              ** left. intros x Hx. destruct (A x Hx) as [F|F]; [subst x; contradiction|exact F].
              ** right. exists x. split; [exact A|]. apply in_app_iff. left. exact B.
    + destruct (IH st ch) as (new & Hp & Hd & Hin & Hall). exists new. split; [exact Hp|]. split; [exact Hd|]. split.
      * intros x Hx. destruct (Hin x Hx) as (A & k & Hk & Hxk). split; [exact A|]. exists k. split; [right; exact Hk|exact Hxk].
      * intros k [<- | Hk]; [left; apply (first_none ns ch E)|apply (Hall k Hk)].
Qed.

Section Visit.
Variable m : mesh.
Variable adj : adjacency.
Hypothesis Hid : NoDup (map fst m).
Hypothesis Hadj : adjacent_right m adj.
Let ids := map fst m.

Lemma faces_unique : forall c fs fs', In (c, fs) m -> In (c, fs') m -> fs = fs'.
Proof.
  clear Hadj adj. unfold ids in *. clear ids. revert Hid. induction m as [|(x, l) r IH]; cbn [map fst]; intros N c fs fs' H J; [destruct H|].
  inversion N as [|y z Hy Hz Q]. destruct H as [H|H]; destruct J as [J|J].
  - congruence.
  - exfalso. injection H as -> ->. apply Hy. apply (in_map fst) in J. exact J.
  - exfalso. injection J as -> ->. apply Hy. apply (in_map fst) in H. exact H.
  - apply (IH Hz c fs fs' H J).
Qed.

Lemma adj_in : forall c fs ns, In (c, fs) m -> In ns (adj c) -> exists f, In f fs /\ forall n, In n ns <-> across m c f n.
Proof.
  intros c fs ns Hc Hns. pose proof (Hadj c fs Hc) as Q. clear Hc. revert ns Hns. induction Q as [|f k fs' l Hk Hl IH]; intros ns Hns; [destruct Hns|].
  destruct Hns as [<- | Hns]; [exists f; split; [left; reflexivity|exact Hk]|]. destruct (IH ns Hns) as (f' & A & B). exists f'. split; [right; exact A|exact B].
Qed.
Lemma face_adj : forall c fs f, In (c, fs) m -> In f fs -> exists ns, In ns (adj c) /\ forall n, In n ns <-> across m c f n.
Proof.
  intros c fs f Hc Hf. pose proof (Hadj c fs Hc) as Q. clear Hc. revert f Hf. induction Q as [|f0 k fs' l Hk Hl IH]; intros f Hf; [destruct Hf|].
  destruct Hf as [<- | Hf]; [exists k; split; [left; reflexivity|exact Hk]|]. destruct (IH f Hf) as (ns & A & B). exists ns. split; [right; exact A|exact B].
Qed.
Lemma across_id : forall c f n, across m c f n -> In n ids.
Proof. intros c f n (_ & h & (fs & H & _) & _). apply (in_map fst) in H. exact H. Qed.
Lemma known_faces : forall c, In c ids -> exists fs, In (c, fs) m.
Proof. intros c H. apply in_map_iff in H. destruct H as ((x, fs) & E & H). cbn in E. subst x. exists fs. exact H. Qed.

(** the cells done before are closed *)
Definition shut (l : list nat) : Prop := forall a b, In a l -> touch m a b -> In b l.

(** the faces of the cells that are saved: all the cells across are checked, or one of them waits *)
Definition pending (stack checked save : list nat) : Prop :=
  forall c f, In c save -> has_face m c f -> (forall n, across m c f n -> In n checked) \/ exists n, across m c f n /\ In n stack.

Lemma visit_ok : forall fuel s don stack checked save,
  length ids <= fuel + length don + length save ->
  (forall x, In x checked <-> In x don \/ In x save \/ In x stack) -> NoDup checked -> NoDup (don ++ save ++ stack) ->
  (forall x, In x (don ++ save ++ stack) -> In x ids) -> (forall x, In x (save ++ stack) -> linked m s x) ->
  pending stack checked save ->
  exists save' checked', visit fuel adj ids stack checked save = Some (save', checked') /\
    (forall x, In x checked' <-> In x don \/ In x save') /\ NoDup checked' /\ NoDup (don ++ save') /\
    (forall x, In x (don ++ save') -> In x ids) /\ (forall x, In x save' -> linked m s x) /\ incl (save ++ stack) save' /\
    (forall c n, In c save' -> touch m c n -> In n (don ++ save')).
Proof.
  induction fuel as [|k IH]; intros s don stack checked save Hf Hc Nc Nd Hids Hl Hp; (destruct stack as [|t st]; [|]).
  1, 3: exists save, checked; split; [reflexivity|]; rewrite app_nil_r in *; repeat split; auto;
    [intros Hx; apply Hc in Hx; cbn in Hx; tauto | intros Hx; apply Hc; tauto | intros x Hx; exact Hx |
     intros c n Hs (f & Hff & Ha); destruct (Hp c f Hs Hff) as [A|(x & _ & [])]; apply A in Ha; apply Hc in Ha; apply in_app_iff; cbn in Ha; tauto].
  - exfalso. assert (L : length (don ++ save ++ t :: st) <= length ids) by (apply NoDup_incl_length; [exact Nd|exact Hids]).
    rewrite !app_length in L. cbn [length] in L. lia.
  - cbn [visit]. assert (Ht : In t ids) by (apply Hids; apply in_app_iff; right; apply in_app_iff; right; left; reflexivity).
    rewrite (proj2 (nin_iff t ids) Ht).
    destruct (push_ok (adj t) st checked) as (new & -> & Nn & Hnew & Hall).
    destruct (known_faces t Ht) as (fs & Hfs).
    assert (Hac : forall x, In x new -> ~ In x checked /\ exists f, has_face m t f /\ across m t f x).
    { intros x Hx. destruct (Hnew x Hx) as (A & ns & Hns & Hxn). split; [exact A|].
      destruct (adj_in t fs ns Hfs Hns) as (f & Hff & E). exists f. split; [exists fs; split; assumption|]. apply E, Hxn. }
    assert (Hlt : linked m s t) by (apply Hl; apply in_app_iff; right; left; reflexivity).
    destruct (IH s don (new ++ st) (new ++ checked) (save ++ [t])) as (save' & ch' & A1 & A2 & A3 & A4 & A5 & A6 & A7 & A8).
    + rewrite app_length. cbn [length]. lia.
    + intros x. rewrite !in_app_iff, (Hc x). cbn [In]. tauto.
    + apply nodup_app; [exact Nn|exact Nc|]. intros x Hx J. destruct (Hac x Hx) as (F & _). contradiction.
    + apply (Permutation_NoDup (l := new ++ (don ++ save ++ t :: st))).
      * rewrite <- app_assoc. cbn [List.app].
        apply perm_trans with ((don ++ save ++ t :: st) ++ new); [apply Permutation_app_comm|].
        rewrite <- !app_assoc. apply Permutation_app_head, Permutation_app_head. cbn [List.app]. apply perm_skip, Permutation_app_comm.
      * apply nodup_app; [exact Nn|exact Nd|]. intros x Hx J. destruct (Hac x Hx) as (F & _). apply F, Hc. rewrite !in_app_iff in J. tauto.
    + intros x Hx. rewrite !in_app_iff in Hx. cbn [In] in Hx.
      assert (D : In x new \/ In x (don ++ save ++ t :: st)) by (rewrite !in_app_iff; cbn [In]; tauto).
      destruct D as [D|D]; [|apply Hids, D]. destruct (Hac x D) as (_ & f & _ & F). apply (across_id t f x F).
    + intros x Hx. rewrite !in_app_iff in Hx. cbn [In] in Hx.
      assert (D : In x new \/ In x (save ++ t :: st)) by (rewrite !in_app_iff; cbn [In]; tauto).
      destruct D as [D|D]; [|apply Hl, D]. destruct (Hac x D) as (_ & f & F & G). apply (linked_trans m s t x Hlt). apply linked_one. exists f. split; assumption.
    + (* the faces *)
      assert (Own : forall f, has_face m t f -> (forall n, across m t f n -> In n checked) \/ exists n, across m t f n /\ In n new).
      { intros f (fs' & Q & Hff). rewrite <- (faces_unique t fs fs' Hfs Q) in Hff.
        destruct (face_adj t fs f Hfs Hff) as (ns & Hns & E). destruct (Hall ns Hns) as [B|(n & B & D)].
        - left. intros n Hn. apply B, E, Hn.
        - right. exists n. split; [apply E, B|exact D]. }
      intros c f Hcs Hff. apply in_app_iff in Hcs. destruct Hcs as [Hcs | [<- | []]].
      * destruct (Hp c f Hcs Hff) as [B|(n & Hn & [<- | Hst])].
        -- left. intros n Hn. apply in_app_iff. right. apply B, Hn.
        -- (* the cell that waited is the one visited now *)
           destruct Hn as (Hne & h & Hh & Hs). destruct (Own h Hh) as [B|(n & B & D)].
           ++ left. intros n (Hn1 & k' & Hk' & Hs'). apply in_app_iff. right. destruct (Nat.eq_dec n t) as [-> | Hnt].
              ** apply Hc. right. right. left. reflexivity.
              ** apply B. split; [exact Hnt|]. exists k'. split; [exact Hk'|]. apply (same_trans h f k'); [apply same_sym, Hs|exact Hs'].
           ++ right. exists n. split; [|apply in_app_iff; left; exact D]. destruct B as (_ & k' & Hk' & Hs'). split.
              ** intros ->. destruct (Hac c D) as (F & _). apply F, Hc. right. left. exact Hcs.
              ** exists k'. split; [exact Hk'|]. apply (same_trans f h k'); assumption.
        -- right. exists n. split; [exact Hn|]. apply in_app_iff. right. exact Hst.
      * destruct (Own f Hff) as [B|(n & B & D)].
        -- left. intros n Hn. apply in_app_iff. right. apply B, Hn.
        -- right. exists n. split; [exact B|]. apply in_app_iff. left. exact D.
    + exists save', ch'. split; [exact A1|]. repeat (split; [first [exact A2|exact A3|exact A4|exact A5|exact A6]|]). split; [|exact A8].
      intros x Hx. apply A7. rewrite !in_app_iff in *. cbn [In] in *. tauto.
Qed.

(** a part: one of its cells is linked to exactly the cells of the part *)
Definition part (p : list nat) : Prop := exists s, In s p /\ forall x, In x p <-> linked m s x.

Lemma decompose_ok : forall fuel checked result,
  length ids <= fuel + length checked -> length checked < length ids ->
  NoDup checked -> (forall x, In x checked <-> In x (concat result)) -> NoDup (concat result) -> incl (concat result) ids -> shut (concat result) ->
  Forall part result ->
  exists parts, decompose fuel adj ids checked result = Some parts /\ Permutation (concat parts) ids /\ Forall part parts.
Proof.
  induction fuel as [|k IH]; intros checked result Hf Hlt Nc Hc Nr Hi Hs Hp; [lia|]. cbn [decompose].
  destruct (first_unchecked ids checked) as [s|] eqn:E.
  2:{ exfalso. assert (length ids <= length checked) by (apply NoDup_incl_length; [exact Hid|intros x Hx; apply (first_none ids checked E x Hx)]). lia. }
  destruct (first_some ids checked s E) as (Hsi & Hsc).
  assert (Lr : length (concat result) = length checked) by (apply Nat.le_antisymm; apply NoDup_incl_length; auto; intros x Hx; apply Hc, Hx).
  destruct (visit_ok (length ids) s (concat result) [s] (s :: checked) []) as (save & ch & -> & A2 & A3 & A4 & A5 & A6 & A7 & A8).
  - lia.
  - intros x. cbn [In]. rewrite (Hc x). tauto.
  - constructor; assumption.
  - cbn [List.app]. apply nodup_app; [exact Nr|constructor; [intros []|constructor]|]. intros x Hx [<- | []]. apply Hsc, Hc, Hx.
  - cbn [List.app]. intros x Hx. apply in_app_iff in Hx. destruct Hx as [Hx | [<- | []]]; [apply Hi, Hx|exact Hsi].
  - cbn [List.app]. intros x [<- | []]. apply lk_refl.
  - intros c f [].
  - assert (Hss : In s save) by (apply A7; left; reflexivity).
    assert (Hcl : forall a b, In a save -> touch m a b -> In b save).
    { intros a b Ha T. pose proof (A8 a b Ha T) as Q. apply in_app_iff in Q. destruct Q as [Q|Q]; [|exact Q]. exfalso.
      assert (D : In a (concat result)) by (apply (Hs b a Q), touch_sym, T).
      assert (F : forall l1 l2 : list nat, NoDup (l1 ++ l2) -> In a l1 -> In a l2 -> False).
      { clear. induction l1 as [|y l IH]; cbn; intros l2 N H1 H2; [exact H1|]. inversion N as [|u v Hu Hv Q]. destruct H1 as [-> | H1]; [apply Hu, in_app_iff; right; exact H2|apply (IH l2 Hv H1 H2)]. }
      apply (F _ _ A4 D Ha). }
    assert (Pa : part save).
    { exists s. split; [exact Hss|]. intros x. split; [apply A6|]. intros L. apply (linked_closed m (fun y => In y save) Hcl s x L Hss). }
    assert (Cc : concat (result ++ [save]) = concat result ++ save) by (rewrite concat_app; cbn [concat]; rewrite app_nil_r; reflexivity).
    assert (Lc : length ch = length (concat result ++ save)).
    { apply Nat.le_antisymm; apply NoDup_incl_length; auto; intros x Hx; [apply in_app_iff, A2, Hx|apply A2, in_app_iff, Hx]. }
    assert (Ls : 1 <= length save) by (destruct save; [destruct Hss|cbn; lia]).
    rewrite app_length in Lc.
    assert (Fp : Forall part (result ++ [save])) by (apply Forall_app; split; [exact Hp|constructor; [exact Pa|constructor]]).
    destruct (length ch <? length ids) eqn:L.
    + apply Nat.ltb_lt in L. apply IH; try assumption.
      * lia.
      * intros x. rewrite Cc, in_app_iff. apply A2.
      * rewrite Cc. exact A4.
      * rewrite Cc. intros x Hx. apply A5, Hx.
      * rewrite Cc. intros a b Ha T. apply in_app_iff in Ha. apply in_app_iff. destruct Ha as [Ha|Ha]; [left; apply (Hs a b Ha T)|right; apply (Hcl a b Ha T)].
    + apply Nat.ltb_ge in L. exists (result ++ [save]). split; [reflexivity|]. split; [|exact Fp]. rewrite Cc.
      apply NoDup_Permutation_bis; [exact A4| |intros x Hx; apply A5, Hx]. rewrite app_length. lia.
Qed.
End Visit.
