From Coq Require Import List Arith Bool Lia Reals Lra.
From Verif Require Import SharedPtr Obj ObjSpec ObjProofs Select TriProofs Band BandSpec.
Import ListNotations.
Open Scope nat_scope.

Lemma near_iff : forall d maxdist measure id, measured d maxdist measure -> (near measure maxdist id = true <-> (d id < maxdist)%R).
Proof.
  intros d maxdist measure id M. destruct (M id) as (A & B). unfold near. destruct (Rlt_dec (measure id) maxdist) as [H|H].
  - split; [intros _|reflexivity]. destruct (Rlt_le_dec (d id) maxdist) as [K|K]; [exact K|]. specialize (B K). lra.
  - split; [discriminate|]. intros K. rewrite (A K) in H. contradiction.
Qed.
Lemma near_measure : forall d maxdist measure id, measured d maxdist measure -> near measure maxdist id = true -> measure id = d id.
Proof. intros d maxdist measure id M H. apply (proj1 (M id)). apply (near_iff d maxdist measure id M), H. Qed.

Lemma add_all_same : forall l v, incl l v -> add_all l v = v.
Proof.
  unfold add_all. induction l as [|x l IH]; intros v H; cbn [fold_left]; [reflexivity|].
  rewrite (proj2 (nin_iff x v) (H x (or_introl eq_refl))). apply IH. intros y Hy. apply H. right. exact Hy.
Qed.
Lemma add_all_new : forall l v, NoDup l -> (forall x, In x l -> ~ In x v) -> add_all l v = v ++ l.
Proof.
  unfold add_all. induction l as [|x l IH]; intros v N H; cbn [fold_left]; [rewrite app_nil_r; reflexivity|]. inversion N as [|y z Hx Hl Q].
  rewrite (proj2 (nin_false x v) (H x (or_introl eq_refl))), IH; [rewrite <- app_assoc; reflexivity|exact Hl|].
  intros w Hw F. apply in_app_iff in F. destruct F as [F|[<- | []]]; [apply (H w (or_intror Hw) F)|contradiction].
Qed.

Lemma push_ok : forall ns new visited, exists add, band_push ns new visited = (new ++ add, visited ++ add) /\ NoDup add /\
  (forall x, In x add -> In x ns /\ ~ In x visited) /\ (forall x, In x ns -> In x visited \/ In x add).
Proof.
  induction ns as [|n ns IH]; intros new visited; cbn [band_push].
  - exists []. rewrite !app_nil_r. split; [reflexivity|]. split; [constructor|]. split; intros x [].
  - destruct (nin n visited) eqn:E.
    + apply nin_iff in E. destruct (IH new visited) as (add & -> & N & A & B). exists add. split; [reflexivity|]. split; [exact N|]. split.
      * intros x Hx. destruct (A x Hx) as (A1 & A2). split; [right; exact A1|exact A2].
      * intros x [<- | Hx]; [left; exact E|apply B, Hx].
    + apply nin_false in E. destruct (IH (new ++ [n]) (visited ++ [n])) as (add & -> & N & A & B). exists (n :: add). rewrite <- !app_assoc.
      split; [reflexivity|]. split; [constructor; [|exact N]; intros F; destruct (A n F) as (_ & G); apply G, in_app_iff; right; left; reflexivity|]. split.
      * intros x [<- | Hx]; [split; [left; reflexivity|exact E]|]. destruct (A x Hx) as (A1 & A2). split; [right; exact A1|]. intros F. apply A2, in_app_iff. left. exact F.
      * intros x [<- | Hx]; [right; left; reflexivity|]. destruct (B x Hx) as [C|C]; [|right; right; exact C]. apply in_app_iff in C. destruct C as [C|[<- | []]]; [left; exact C|right; left; reflexivity].
Qed.

Section Band.
Variables (d : nat -> R) (maxdist : R) (measure : nat -> R) (neigh : nat -> list nat) (ids seeds : list nat).
Hypothesis M : measured d maxdist measure.
Hypothesis Known : forall x y, In x ids -> In y (neigh x) -> In y ids.
Let J := joined d maxdist neigh seeds.

(** the pending elements, the visited ones, the result *)
Definition inv (pend visited : list nat) (result : list (nat * R)) : Prop :=
  NoDup visited /\ incl visited ids /\ NoDup (map fst result) /\ NoDup pend /\ incl pend visited /\ incl (map fst result) visited /\
  (forall x, In x pend -> ~ In x (map fst result)) /\
  (forall id x, In (id, x) result -> J id /\ x = d id) /\
  (forall x, In x pend -> exists y, J y /\ In x (neigh y)) /\
  (forall x n, In x (map fst result) -> In n (neigh x) -> In n visited) /\
  (forall x, In x visited -> In x (map fst result) \/ In x pend \/ ~ (d x < maxdist)%R) /\
  (forall x, In x seeds -> (d x < maxdist)%R -> In x (map fst result)).

Lemma layer_ok : forall stack new visited result, inv (stack ++ new) visited result ->
  exists new' visited' result', band_layer measure maxdist neigh stack new visited result = Some (new', visited', result') /\
  inv new' visited' result' /\ length visited' = length visited + (length new' - length new) /\ length new <= length new'.
Proof.
  induction stack as [|id stack IH]; intros new visited result I; cbn [band_layer].
  - exists new, visited, result. split; [reflexivity|]. split; [exact I|]. lia.
  - destruct I as (I1 & I2 & I3 & I4 & I5 & I6 & I7 & I8 & I9 & I10 & I11 & I12). cbn [List.app] in I4, I5, I7, I9, I11.
    inversion I4 as [|u v Hu Hv Q]. destruct (near measure maxdist id) eqn:E.
    + pose proof (proj1 (near_iff d maxdist measure id M) E) as E'.
      rewrite (proj2 (has_false R id result) (I7 id (or_introl eq_refl))).
      destruct (push_ok (neigh id) new visited) as (add & -> & N & A & B).
      assert (Jid : J id) by (destruct (I9 id (or_introl eq_refl)) as (y & Y1 & Y2); apply (joined_next d maxdist neigh seeds y id Y1 Y2 E')).
      assert (Iid : In id ids) by (apply I2, I5; left; reflexivity).
      assert (Vis : forall x, In x (id :: stack ++ new) -> ~ In x add) by (intros x Hx F; destruct (A x F) as (_ & G); apply G, I5, Hx).
      destruct (IH (new ++ add) (visited ++ add) (result ++ [(id, measure id)])) as (new' & v' & r' & -> & I' & L1 & L2).
      * unfold inv. rewrite map_app. cbn [map fst]. split; [apply nodup_app; [exact I1|exact N|intros x Hx F; destruct (A x F) as (_ & G); contradiction]|]. split.
        { intros x Hx. apply in_app_iff in Hx. destruct Hx as [Hx|Hx]; [apply I2, Hx|]. destruct (A x Hx) as (G & _). apply (Known id x Iid G). }
        split; [apply nodup_snoc; [exact I3|apply I7; left; reflexivity]|]. split.
        { rewrite app_assoc. apply nodup_app; [exact Hv|exact N|]. intros x Hx. apply Vis. right. exact Hx. }
        split; [intros x Hx; rewrite app_assoc in Hx; apply in_app_iff in Hx; apply in_app_iff; destruct Hx as [Hx|Hx]; [left; apply I5; right; exact Hx|right; exact Hx]|].
        split; [intros x Hx; apply in_app_iff in Hx; apply in_app_iff; left; destruct Hx as [Hx|[<- | []]]; [apply I6, Hx|apply I5; left; reflexivity]|].
        split.
        { intros x Hx F. rewrite app_assoc in Hx. apply in_app_iff in Hx. apply in_app_iff in F. destruct Hx as [Hx|Hx]; destruct F as [F|[<- | []]].
          - apply (I7 x (or_intror Hx) F).
          - contradiction.
          - destruct (A x Hx) as (_ & G). apply G, I6, F.
          - destruct (A id Hx) as (_ & G). apply G, I5. left. reflexivity. }
        split.
        { intros i x Hx. apply in_app_iff in Hx. destruct Hx as [Hx|[Hx|[]]]; [apply I8, Hx|]. injection Hx as <- <-. split; [exact Jid|]. apply (near_measure d maxdist measure id M E). }
        split.
        { intros x Hx. rewrite app_assoc in Hx. apply in_app_iff in Hx. destruct Hx as [Hx|Hx]; [apply I9; right; exact Hx|]. exists id. split; [exact Jid|]. apply A, Hx. }
        split.
        { intros x n Hx Hn. apply in_app_iff. apply in_app_iff in Hx. destruct Hx as [Hx|[<- | []]]; [left; apply (I10 x n Hx Hn)|]. apply B, Hn. }
        split.
        { intros x Hx. rewrite !in_app_iff. cbn [In]. apply in_app_iff in Hx. destruct Hx as [Hx|Hx]; [|tauto]. destruct (I11 x Hx) as [C|[[C|C]|C]]; try tauto. apply in_app_iff in C. tauto. }
        intros x Hx Hd. apply in_app_iff. left. apply I12; assumption.
      * exists new', v', r'. split; [reflexivity|]. split; [exact I'|]. rewrite !app_length in *. lia.
    + destruct (IH new visited result) as (new' & v' & r' & -> & I' & L1 & L2).
      * unfold inv. do 3 (split; [assumption|]). split; [exact Hv|]. split; [intros x Hx; apply I5; right; exact Hx|]. split; [exact I6|].
        split; [intros x Hx; apply I7; right; exact Hx|]. split; [exact I8|]. split; [intros x Hx; apply I9; right; exact Hx|]. split; [exact I10|]. split; [|exact I12].
        intros x Hx. destruct (I11 x Hx) as [C|[[<- | C]|C]]; [left; exact C| |right; left; exact C|right; right; exact C]. right. right. intros F.
        apply (near_iff d maxdist measure id M) in F. congruence.
      * exists new', v', r'. split; [reflexivity|]. split; [exact I'|]. lia.
Qed.

Lemma loop_ok : forall fuel stack visited result, inv stack visited result -> (stack = [] \/ length ids < fuel + length visited) ->
  exists r, band_loop fuel measure maxdist neigh stack visited result = Some r /\ band_of d J r.
Proof.
  induction fuel as [|k IH]; intros stack visited result I L; (destruct stack as [|s stack]; [|]).
  1, 3: exists result; split; [reflexivity|]; destruct I as (I1 & I2 & I3 & I4 & I5 & I6 & I7 & I8 & I9 & I10 & I11 & I12); split; [exact I3|];
    assert (All : forall x, J x -> In x (map fst result)) by
      (intros x Hx; induction Hx as [x Hs Hd|x y Hx IHx Hn Hd]; [apply (I12 x Hs Hd)|]; destruct (I11 y (I10 x y IHx Hn)) as [C|[[]|C]]; [exact C|contradiction]);
    intros id x; split; [apply I8|]; intros (H1 & ->); apply All in H1; apply in_map_iff in H1; destruct H1 as ((i, y) & E & H1); cbn [fst] in E; subst i;
    destruct (I8 id y H1) as (_ & <-); exact H1.
  - exfalso. destruct L as [L|L]; [discriminate|]. destruct I as (I1 & I2 & _). pose proof (NoDup_incl_length I1 I2). lia.
  - cbn [band_loop]. rewrite add_all_same by apply I.
    destruct (layer_ok (s :: stack) [] visited result) as (new' & v' & r' & -> & I' & L1 & L2); [rewrite app_nil_r; exact I|].
    apply IH; [exact I'|]. destruct L as [L|L]; [discriminate|]. destruct new' as [|y n]; [left; reflexivity|right]. cbn [length] in L1. lia.
Qed.

Lemma seeds_ok : forall l result, NoDup (map fst result ++ l) -> exists r, band_seeds measure maxdist l result = Some r /\ NoDup (map fst r) /\
  forall id x, In (id, x) r <-> In (id, x) result \/ (In id l /\ (d id < maxdist)%R /\ x = d id).
Proof.
  induction l as [|i l IH]; intros result N; cbn [band_seeds].
  - exists result. split; [reflexivity|]. rewrite app_nil_r in N. split; [exact N|]. intros id x. cbn [In]. tauto.
  - pose proof (NoDup_remove_2 _ _ _ N) as Ni. destruct (near measure maxdist i) eqn:E.
    + rewrite (proj2 (has_false R i result)) by (intros F; apply Ni, in_app_iff; left; exact F).
      destruct (IH (result ++ [(i, measure i)])) as (r & -> & Nr & B); [rewrite map_app, <- app_assoc; exact N|]. exists r. split; [reflexivity|]. split; [exact Nr|].
      intros id x. rewrite B, in_app_iff. cbn [In]. split.
      * intros [[C|[C|[]]]|(C & D)]; [left; exact C| |right; split; [right; exact C|exact D]]. injection C as <- <-. right. split; [left; reflexivity|].
        split; [apply (near_iff d maxdist measure i M), E|apply (near_measure d maxdist measure i M E)].
      * intros [C|([<- | C] & D & F)]; [left; left; exact C| |right; split; [exact C|split; assumption]]. left. right. left. rewrite F, (near_measure d maxdist measure i M E). reflexivity.
    + destruct (IH result (NoDup_remove_1 _ _ _ N)) as (r & -> & Nr & B). exists r. split; [reflexivity|]. split; [exact Nr|]. intros id x. rewrite B. cbn [In]. split; [tauto|].
      intros [C|([<- | C] & D & F)]; [left; exact C| |right; split; [exact C|split; assumption]]. exfalso. apply (near_iff d maxdist measure i M) in D. congruence.
Qed.

Lemma band_ok : NoDup seeds -> incl seeds ids -> exists r, band_from (length ids) measure maxdist neigh seeds = Some r /\ band_of d J r.
Proof.
  intros N Inc. unfold band_from. destruct (seeds_ok seeds [] N) as (r & -> & Nr & B). cbv zeta.
  set (stack := nodup Nat.eq_dec (filter (fun id => negb (has id r)) (flat_map (fun e => neigh (fst e)) r))).
  assert (Rin : forall i, In i (map fst r) <-> In i seeds /\ (d i < maxdist)%R).
  { intros i. rewrite in_map_iff. split.
    - intros ((j, x) & E & H). cbn [fst] in E. subst j. apply B in H. destruct H as [[]|(H1 & H2 & _)]. split; assumption.
    - intros (H1 & H2). exists (i, d i). split; [reflexivity|]. apply B. right. split; [exact H1|]. split; [exact H2|reflexivity]. }
  assert (Sin : forall i, In i stack <-> ~ In i (map fst r) /\ exists y, In y (map fst r) /\ In i (neigh y)).
  { intros i. unfold stack. rewrite nodup_In, filter_In, in_flat_map, negb_true_iff, has_false. split.
    - intros ((e & E1 & E2) & F). split; [exact F|]. exists (fst e). split; [apply in_map, E1|exact E2].
    - intros (F & y & Y1 & Y2). split; [|exact F]. apply in_map_iff in Y1. destruct Y1 as (e & <- & E). exists e. split; assumption. }
  assert (Ns : NoDup stack) by apply NoDup_nodup.
  rewrite (add_all_new (map fst r) stack Nr) by (intros x Hx F; apply Sin in F; tauto).
  apply loop_ok.
  - unfold inv. split; [apply nodup_app; [exact Ns|exact Nr|intros x Hx F; apply Sin in Hx; tauto]|]. split.
    { intros x Hx. apply in_app_iff in Hx. destruct Hx as [Hx|Hx]; [|apply Rin in Hx; apply Inc, Hx]. apply Sin in Hx. destruct Hx as (_ & y & Y1 & Y2). apply Rin in Y1. apply (Known y x); [apply Inc, Y1|exact Y2]. }
    split; [exact Nr|]. split; [exact Ns|]. split; [intros x Hx; apply in_app_iff; left; exact Hx|]. split; [intros x Hx; apply in_app_iff; right; exact Hx|].
    split; [intros x Hx; apply Sin, Hx|]. split.
    { intros i x H. apply B in H. destruct H as [[]|(H1 & H2 & H3)]. split; [apply joined_seed; assumption|exact H3]. }
    split.
    { intros x Hx. apply Sin in Hx. destruct Hx as (_ & y & Y1 & Y2). exists y. split; [|exact Y2]. apply Rin in Y1. apply joined_seed; apply Y1. }
    split.
    { intros x n Hx Hn. apply in_app_iff. destruct (in_dec Nat.eq_dec n (map fst r)) as [C|C]; [right; exact C|left]. apply Sin. split; [exact C|]. exists x. split; assumption. }
    split; [intros x Hx; apply in_app_iff in Hx; tauto|]. intros x H1 H2. apply Rin. split; assumption.
  - right. lia.
Qed.
End Band.
