(** Lemmas on synchronization statuses. *)
From Coq Require Import List ZArith Bool Lia.
From Verif Require Import Sync SyncSpec.
Import ListNotations.
Open Scope Z_scope.

Lemma lower_not_synced : forall s, lower s <> Synced.
Proof. intros []; discriminate. Qed.
Lemma cleaned_not_synced : forall s, cleaned s <> Synced.
Proof. intros []; discriminate. Qed.

Section Proofs.
Context {C : Type}.
Implicit Types g : geo C.
Implicit Types o : obj C.

Lemma coord_In : forall (vs : list (Z * C)) id c, coord vs id = Some c -> In (id, c) vs.
Proof.
  induction vs as [|[i x] vs IH]; intros id c H; cbn [coord] in H; [discriminate|].
  destruct (i =? id) eqn:E; [apply Z.eqb_eq in E; subst; injection H as ->; left; reflexivity|right; apply IH; exact H].
Qed.

Lemma coords_In : forall (vs : list (Z * C)) ids l, coords vs ids = Some l -> Forall2 (fun v x => In (v, x) vs) ids l.
Proof.
  intros vs ids. induction ids as [|id ids IH]; intros l H; cbn [coords] in H; [injection H as <-; constructor|].
  destruct (coord vs id) as [c|] eqn:E; [|discriminate]. destruct (coords vs ids) as [r|]; [|discriminate]. injection H as <-.
  constructor; [apply coord_In; exact E|apply IH; reflexivity].
Qed.

Lemma cell_boxes_ok : forall (vs : list (Z * C)) cs t, cell_boxes vs cs = Some t ->
  Forall2 (fun cell box => fst cell = fst box /\ Forall2 (fun v x => In (v, x) vs) (snd cell) (snd box)) cs t.
Proof.
  intros vs cs. induction cs as [|[id conn] cs IH]; intros t H; cbn [cell_boxes] in H; [injection H as <-; constructor|].
  destruct (coords vs conn) as [l|] eqn:E; [|discriminate]. destruct (cell_boxes vs cs) as [r|]; [|discriminate]. injection H as <-.
  constructor; [split; [reflexivity|apply coords_In; exact E]|apply IH; reflexivity].
Qed.

Lemma boxes_more : forall g t v, boxes_of g t -> boxes_of {| g_verts := g_verts g ++ [v]; g_cells := g_cells g |} t.
Proof.
  intros g t v H. unfold boxes_of in *. cbn [g_verts g_cells]. induction H as [|c b cs bs [E F] H IH]; constructor; [|exact IH].
  split; [exact E|]. clear -F. induction F; constructor; [apply in_or_app; left; assumption|assumption].
Qed.

Lemma has_vertex_spec : forall g id, has_vertex g id = false -> ~ In id (map fst (g_verts g)).
Proof.
  intros g id H I. apply in_map_iff in I. destruct I as [v [E I]]. unfold has_vertex in H.
  assert (existsb (fun v => fst v =? id) (g_verts g) = true); [|congruence]. apply existsb_exists. exists v. split; [exact I|apply Z.eqb_eq; exact E].
Qed.

Record inv g o : Prop := {
  inv_ids : NoDup (map fst (g_verts g));
  inv_sync : in_sync g o;
  inv_type : 1 <= o_type o <= 4;
  inv_pc : o_type o = 3 -> o_pcS o = NoneS
}.

Lemma modify_ids : forall id (c : C) vs, map fst (map (fun v => if fst v =? id then (id, c) else v) vs) = map fst vs.
Proof.
  intros id c vs. induction vs as [|[i x] vs IH]; [reflexivity|]. cbn [map fst]. rewrite IH.
  destruct (i =? id) eqn:E; [apply Z.eqb_eq in E; subst|]; reflexivity.
Qed.

Ltac flags := constructor; cbn; intros X; try (exfalso; revert X; apply lower_not_synced); try (exfalso; revert X; apply cleaned_not_synced); try discriminate; auto.

Lemma unsync_inv : forall g g' o, NoDup (map fst (g_verts g')) -> inv g o -> inv g' (snd (setUnsyncAll (g', o))).
Proof.
  intros g g' o N [I S T P]. constructor; cbn; [exact N| |exact T|].
  - flags.
  - intros X. rewrite (P X). reflexivity.
Qed.

Lemma updateAdjacencies_inv : forall g o, inv g o -> inv g (snd (updateAdjacencies (g, o))) /\ fst (updateAdjacencies (g, o)) = g.
Proof.
  intros g o [I S T P]. unfold updateAdjacencies. destruct (o_adjS o) eqn:E; cbn; (split; [|reflexivity]);
    constructor; cbn; auto; destruct S; constructor; cbn; auto.
Qed.

Lemma updateInterfaces_inv : forall g o, inv g o -> inv g (snd (updateInterfaces (g, o))) /\ fst (updateInterfaces (g, o)) = g.
Proof.
  intros g o H. unfold updateInterfaces. cbn [snd].
  set (s := match o_adjS o with Synced => (g, o) | _ => updateAdjacencies (g, o) end).
  assert (inv g (snd s) /\ fst s = g) as [H1 H2].
  { subst s. destruct (o_adjS o); try (apply updateAdjacencies_inv; exact H). split; [exact H|reflexivity]. }
  destruct s as [g1 o1]. cbn [snd fst] in *. subst g1. destruct H1 as [I S T P].
  destruct (o_intS o1) eqn:E; cbn; (split; [|reflexivity]); constructor; cbn; auto; destruct S; constructor; cbn; auto.
Qed.

Lemma buildSkdTree_inv : forall g o s, inv g o -> buildSkdTree (g, o) = Some s -> inv g (snd s) /\ fst s = g.
Proof.
  intros g o s [I S T P] H. unfold buildSkdTree in H. destruct (isSkdTreeSupported o); [|injection H as <-; split; [constructor; auto|reflexivity]].
  assert (forall t, cell_boxes (g_verts g) (g_cells g) = Some t -> inv g (set_skd o t Synced)) as K.
  { intros t Ht. constructor; cbn; auto. destruct S; constructor; cbn; auto. intros _. apply (cell_boxes_ok _ _ _ Ht). }
  destruct (o_skdS o); try (injection H as <-; split; [constructor; auto|reflexivity]);
    destruct (o_skdp o); try discriminate; destruct (cell_boxes (g_verts g) (g_cells g)) as [t|] eqn:B; try discriminate;
    injection H as <-; (split; [cbn; apply K; reflexivity|reflexivity]).
Qed.

Lemma buildKdTree_inv : forall g o, inv g o -> inv g (snd (buildKdTree (g, o))) /\ fst (buildKdTree (g, o)) = g.
Proof.
  intros g o [I S T P]. unfold buildKdTree. destruct (g_verts g) as [|v vs] eqn:V; [split; [constructor; auto; rewrite V; auto|reflexivity]|].
  rewrite <- V. destruct (o_kdS o) eqn:E; cbn; (split; [|reflexivity]); constructor; cbn; auto; try (rewrite V; exact I); destruct S; constructor; cbn; auto.
Qed.

Lemma buildPatchInfo_inv : forall g o, inv g o -> inv g (snd (buildPatchInfo (g, o))).
Proof. intros g o [I S T P]. constructor; cbn; auto. destruct S; constructor; cbn; auto. Qed.

Lemma buildPC_inv : forall g o, inv g o -> inv g (snd (buildPointConnectivity (g, o))) /\ fst (buildPointConnectivity (g, o)) = g.
Proof.
  intros g o [I S T P]. unfold buildPointConnectivity, cleanPointConnectivity. cbn.
  destruct (o_type o =? 3) eqn:E3; [|destruct ((o_type o =? 1) || (o_type o =? 2) || (o_type o =? 4)) eqn:E].
  - split; [|reflexivity]. constructor; cbn; auto.
    + destruct S; constructor; cbn; auto. intros X. exfalso. revert X. apply cleaned_not_synced.
    + intros X. rewrite (P X). reflexivity.
  - split; [|reflexivity]. constructor; cbn; auto; [destruct S; constructor; cbn; auto|].
    intros X. rewrite X in E3. discriminate.
  - split; [|reflexivity]. constructor; cbn; auto.
    + destruct S; constructor; cbn; auto. intros X. exfalso. revert X. apply cleaned_not_synced.
    + intros X. rewrite (P X). reflexivity.
Qed.

(** The chain of [update], cut in pieces. *)
Lemma update_chain : forall g o s', inv g o -> update (g, o) = Some s' -> inv g (snd s') /\ fst s' = g.
Proof.
  intros g o s' H U. unfold update in U. cbn [snd] in U.
  set (s1 := match o_adjS o with Unsync => updateAdjacencies (g, o) | _ => (g, o) end) in U.
  assert (inv g (snd s1) /\ fst s1 = g) as [H1 F1].
  { subst s1. destruct (o_adjS o); try (split; [exact H|reflexivity]). apply updateAdjacencies_inv. exact H. }
  clearbody s1. destruct s1 as [g1 o1]. cbn [fst snd] in *. subst g1.
  set (s2 := match o_intS o1 with Unsync => updateInterfaces (g, o1) | _ => (g, o1) end) in U.
  assert (inv g (snd s2) /\ fst s2 = g) as [H2 F2].
  { subst s2. destruct (o_intS o1); try (split; [exact H1|reflexivity]). apply updateInterfaces_inv. exact H1. }
  clearbody s2. destruct s2 as [g2 o2]. cbn [fst snd] in *. subst g2.
  destruct (match o_skdS o2 with Unsync => buildSkdTree (g, o2) | _ => Some (g, o2) end) as [s3|] eqn:E3; [|discriminate].
  assert (inv g (snd s3) /\ fst s3 = g) as [H3 F3].
  { destruct (o_skdS o2); try (injection E3 as <-; split; [exact H2|reflexivity]). apply (buildSkdTree_inv g o2 s3 H2 E3). }
  destruct s3 as [g3 o3]. cbn [fst snd] in *. subst g3.
  set (s4 := match o_kdS o3 with Unsync => buildKdTree (g, o3) | _ => (g, o3) end) in U.
  assert (inv g (snd s4) /\ fst s4 = g) as [H4 F4].
  { subst s4. destruct (o_kdS o3); try (split; [exact H3|reflexivity]). apply buildKdTree_inv. exact H3. }
  clearbody s4. destruct s4 as [g4 o4]. cbn [fst snd] in *. subst g4.
  set (s5 := match o_infoS o4 with Unsync => buildPatchInfo (g, o4) | _ => (g, o4) end) in U.
  assert (inv g (snd s5) /\ fst s5 = g) as [H5 F5].
  { subst s5. destruct (o_infoS o4); try (split; [exact H4|reflexivity]). split; [apply buildPatchInfo_inv; exact H4|reflexivity]. }
  clearbody s5. destruct s5 as [g5 o5]. cbn [fst snd] in *. subst g5.
  set (s6 := match o_bbS o5 with Synced => (g, o5) | _ => (g, set_bb o5 (map snd (g_verts g)) Synced) end) in U.
  assert (inv g (snd s6) /\ fst s6 = g) as [H6 F6].
  { assert (inv g (set_bb o5 (map snd (g_verts g)) Synced)) as K.
    { destruct H5 as [I S T P]. constructor; cbn; auto. destruct S; constructor; cbn; auto. }
    subst s6. destruct (o_bbS o5); (split; [assumption|reflexivity]). }
  clearbody s6. destruct s6 as [g6 o6]. cbn [fst snd] in *. subst g6.
  injection U as <-. destruct (o_pcS o6); try (split; [exact H6|reflexivity]). apply buildPC_inv. exact H6.
Qed.

Lemma resetPatch_some : forall (s s' : geo C * obj C), resetPatch s = Some s' ->
  fst s' = {| g_verts := []; g_cells := [] |} /\ o_type (snd s') = o_type (snd s) /\ o_skdp (snd s') = o_skdp (snd s) /\
  o_skdS (snd s') = NoneS /\ o_kdS (snd s') = NoneS /\ o_adjS (snd s') = NoneS /\ o_intS (snd s') = NoneS /\
  o_infoS (snd s') = NoneS /\ o_bbS (snd s') = NoneS /\ o_pcS (snd s') = NoneS.
Proof.
  intros [g o] s' H. unfold resetPatch in H. cbn [snd] in H. unfold cleanSkdTree in H.
  destruct (isSkdTreeSupported o).
  - destruct (o_skdp o) eqn:E; try discriminate. injection H as <-. cbn. repeat split; auto.
  - injection H as <-. cbn. repeat split.
Qed.

Lemma step_inv : forall a g o s', inv g o -> legal a g -> step a (g, o) = Some s' -> inv (fst s') (snd s').
Proof.
  intros a g o s' H L E. destruct a; cbn [step] in E.
  - injection E as <-. unfold addVertex. destruct (has_vertex g id) eqn:V; [exact H|]. destruct H as [I S T P]. constructor; cbn; auto.
    + rewrite map_app. apply has_vertex_spec in V. cbn [map fst]. clear -I V.
      induction (map fst (g_verts g)) as [|x l IH]; [repeat constructor; auto|]. inversion I; subst. simpl. constructor.
      * intros A. apply in_app_or in A. destruct A as [A|[A|[]]]; [contradiction|]. apply V. left. symmetry. exact A.
      * apply IH; [assumption|intros A; apply V; right; exact A].
    + destruct S. constructor; cbn; auto; intros X; try (exfalso; revert X; apply lower_not_synced).
      apply boxes_more. auto.
    + intros X. rewrite (P X). reflexivity.
  - injection E as <-. unfold modifyVertex. destruct (has_vertex g id) eqn:V; [|exact H]. destruct H as [I S T P]. constructor; cbn; auto.
    + rewrite modify_ids. exact I.
    + destruct S. constructor; cbn; auto; intros X; exfalso; revert X; apply lower_not_synced.
  - injection E as <-. unfold addCell. destruct (has_cell g id) eqn:V; [exact H|]. destruct H as [I S T P]. constructor; cbn; auto.
    + destruct S. constructor; cbn; auto; intros X; exfalso; revert X; apply lower_not_synced.
    + intros X. rewrite (P X). reflexivity.
  - destruct (buildSkdTree_inv g o s' H E) as [K ->]. exact K.
  - unfold cleanSkdTree in E. destruct (isSkdTreeSupported o); [|injection E as <-; exact H].
    destruct (o_skdp o); try discriminate. injection E as <-. destruct H as [I S T P]. constructor; cbn; auto.
    destruct S. constructor; cbn; auto. intros X; exfalso; revert X; apply cleaned_not_synced.
  - destruct (buildKdTree_inv g o H) as [K F]. pose proof (f_equal (fun x => match x with Some y => y | None => s' end) E) as E'. cbn beta iota in E'. rewrite <- E', F. exact K.
  - injection E as <-. destruct H as [I S T P]. constructor; cbn; auto. destruct S. constructor; cbn; auto. intros X; exfalso; revert X; apply cleaned_not_synced.
  - injection E as <-. apply (buildPatchInfo_inv g o H).
  - injection E as <-. destruct H as [I S T P]. constructor; cbn; auto. destruct S. constructor; cbn; auto. intros X; exfalso; revert X; apply cleaned_not_synced.
  - injection E as <-. destruct H as [I S T P]. constructor; cbn; auto. destruct S. constructor; cbn; auto. intros X; exfalso; revert X; apply cleaned_not_synced.
  - destruct (updateAdjacencies_inv g o H) as [K F]. pose proof (f_equal (fun x => match x with Some y => y | None => s' end) E) as E'. cbn beta iota in E'. rewrite <- E', F. exact K.
  - destruct (updateInterfaces_inv g o H) as [K F]. pose proof (f_equal (fun x => match x with Some y => y | None => s' end) E) as E'. cbn beta iota in E'. rewrite <- E', F. exact K.
  - injection E as <-. destruct H as [I S T P]. constructor; cbn; auto. destruct S. constructor; cbn; auto. intros X; discriminate.
  - injection E as <-. destruct H as [I S T P]. constructor; cbn; auto. destruct S. constructor; cbn; auto. intros X; discriminate.
  - destruct (buildPC_inv g o H) as [K F]. pose proof (f_equal (fun x => match x with Some y => y | None => s' end) E) as E'. cbn beta iota in E'. rewrite <- E', F. exact K.
  - injection E as <-. destruct H as [I S T P]. constructor; cbn; auto.
    + destruct S. constructor; cbn; auto. intros X; exfalso; revert X; apply cleaned_not_synced.
    + intros X. rewrite (P X). reflexivity.
  - injection E as <-. apply (unsync_inv g g o); [apply H|exact H].
  - injection E as <-. cbn in L. destruct L as [N Q]. unfold cleanGeometry. cbn [fst snd].
    destruct (Nat.eqb (length (g_verts g)) (length (g_verts g'))) eqn:F.
    + apply Nat.eqb_eq in F. rewrite (Q F). exact H.
    + apply (unsync_inv g g' o N H).
  - destruct (update_chain g o s' H E) as [K ->]. exact K.
  - pose proof (resetPatch_some _ _ E) as R. destruct R as [F [T [_ [A1 [A2 [A3 [A4 [A5 [A6 A7]]]]]]]]]. rewrite F. cbn [snd] in T.
    constructor; cbn; [constructor| |rewrite T; apply H|intros _; exact A7].
    constructor; intros X; congruence.
  - unfold reset in E. destruct (resetPatch (g, o)) as [[g1 o1]|] eqn:R; [|discriminate]. injection E as <-.
    apply resetPatch_some in R. destruct R as [F _]. cbn [fst] in F. subst g1. cbn in L. constructor; cbn; [constructor| |exact L|reflexivity].
    constructor; cbn; intros X; try discriminate. destruct (type =? 3); discriminate.
Qed.

Lemma construct_inv : forall type, 1 <= type <= 4 -> inv (fst (construct type)) (snd (@construct C type)).
Proof.
  intros type L. constructor; cbn; [constructor| |exact L|reflexivity].
  constructor; cbn; intros X; try discriminate; [|reflexivity]. destruct (type =? 3); discriminate.
Qed.

Lemma history_inv : forall ops s s', inv (fst s) (snd s) -> history ops s s' -> inv (fst s') (snd s').
Proof.
  induction ops as [|a ops IH]; intros [g o] s' H Hh; cbn [history] in Hh; [subst s'; exact H|].
  destruct Hh as [L [s1 [E Hh]]]. apply (IH s1 s'); [|exact Hh]. apply (step_inv a g o s1 H L E).
Qed.

(** * Refreshing *)


Definition same_but_adj o o' := o_type o' = o_type o /\ o_skdS o' = o_skdS o /\ o_kdS o' = o_kdS o /\ o_intS o' = o_intS o /\
  o_infoS o' = o_infoS o /\ o_bbS o' = o_bbS o /\ o_pcS o' = o_pcS o.

Lemma updateAdjacencies_status : forall g o, same_but_adj o (snd (updateAdjacencies (g, o))) /\
  (o_adjS o <> NotSupported -> o_adjS (snd (updateAdjacencies (g, o))) = Synced) /\
  (o_adjS o = NotSupported -> o_adjS (snd (updateAdjacencies (g, o))) = NotSupported).
Proof.
  intros g o. unfold updateAdjacencies. destruct (o_adjS o) eqn:E; cbn; (split; [repeat split|]); (split; [congruence|congruence]).
Qed.

Lemma updateInterfaces_status : forall g o, o_intS o = Unsync ->
  let o' := snd (updateInterfaces (g, o)) in
  o_type o' = o_type o /\ o_skdS o' = o_skdS o /\ o_kdS o' = o_kdS o /\ o_intS o' = Synced /\
  o_infoS o' = o_infoS o /\ o_bbS o' = o_bbS o /\ o_pcS o' = o_pcS o /\
  (o_adjS o <> NotSupported -> o_adjS o' = Synced) /\ (o_adjS o = NotSupported -> o_adjS o' = NotSupported).
Proof.
  intros g o E. unfold updateInterfaces, updateAdjacencies. cbn [snd].
  destruct (o_adjS o) eqn:A; cbn; rewrite ?E; cbn; repeat split; congruence.
Qed.

(** What [update] leaves, for each structure. *)
Record updated g o o' : Prop := {
  up_skd : refreshed (o_skdS o) (o_skdS o');
  up_kd : g_verts g <> [] -> refreshed (o_kdS o) (o_kdS o');
  up_kd_empty : g_verts g = [] -> o_kdS o' = o_kdS o;
  up_adj : o_intS o <> Unsync -> refreshed (o_adjS o) (o_adjS o');
  up_adj_int : o_intS o = Unsync -> o_adjS o <> NotSupported -> o_adjS o' = Synced;
  up_int : refreshed (o_intS o) (o_intS o');
  up_info : refreshed (o_infoS o) (o_infoS o');
  up_bb : o_bbS o' = Synced;
  up_pc : refreshed (o_pcS o) (o_pcS o')
}.

Lemma update_refresh : forall g o s', inv g o -> update (g, o) = Some s' -> updated g o (snd s').
Proof.
  intros g o s' H U. unfold update in U. cbn [snd] in U.
  set (s1 := match o_adjS o with Unsync => updateAdjacencies (g, o) | _ => (g, o) end) in U.
  assert (inv g (snd s1) /\ fst s1 = g) as [H1 F1].
  { subst s1. destruct (o_adjS o); try (split; [exact H|reflexivity]). apply updateAdjacencies_inv. exact H. }
  assert (same_but_adj o (snd s1) /\ refreshed (o_adjS o) (o_adjS (snd s1))) as [B1 R1].
  { subst s1. destruct (updateAdjacencies_status g o) as [A [A1 A2]].
    destruct (o_adjS o) eqn:E; cbn [snd]; try solve [split; [repeat split|cbn; rewrite E; reflexivity]].
    split; [exact A|apply A1; discriminate]. }
  clearbody s1. destruct s1 as [g1 o1]. cbn [fst snd] in *. subst g1.
  destruct B1 as [T1 [K1 [D1 [I1 [N1 [X1 P1]]]]]].
  set (s2 := match o_intS o1 with Unsync => updateInterfaces (g, o1) | _ => (g, o1) end) in U.
  assert (inv g (snd s2) /\ fst s2 = g) as [H2 F2].
  { subst s2. destruct (o_intS o1); try (split; [exact H1|reflexivity]). apply updateInterfaces_inv. exact H1. }
  assert (o_type (snd s2) = o_type o /\ o_skdS (snd s2) = o_skdS o /\ o_kdS (snd s2) = o_kdS o /\ o_infoS (snd s2) = o_infoS o /\
          o_bbS (snd s2) = o_bbS o /\ o_pcS (snd s2) = o_pcS o /\ refreshed (o_intS o) (o_intS (snd s2)) /\
          (o_intS o <> Unsync -> o_adjS (snd s2) = o_adjS o1) /\ (o_intS o = Unsync -> o_adjS o <> NotSupported -> o_adjS (snd s2) = Synced))
    as [T2 [K2 [D2 [N2 [X2 [P2 [I2 [A2 A3]]]]]]]].
  { subst s2. rewrite <- I1. destruct (o_intS o1) eqn:E; cbn [snd]; try solve [repeat split; try congruence; rewrite E; reflexivity].
    pose proof (updateInterfaces_status g o1 E) as W. cbn zeta in W. destruct W as [W1 [W2 [W3 [W4 [W5 [W6 [W7 [W8 W9]]]]]]]].
    repeat split; try congruence.
    intros _ N. apply W8. intros Q. rewrite Q in R1. destruct (o_adjS o); cbn in R1; congruence. }
  clearbody s2. destruct s2 as [g2 o2]. cbn [fst snd] in *. subst g2.
  destruct (match o_skdS o2 with Unsync => buildSkdTree (g, o2) | _ => Some (g, o2) end) as [s3|] eqn:E3; [|discriminate].
  assert (fst s3 = g /\ o_type (snd s3) = o_type o2 /\ refreshed (o_skdS o2) (o_skdS (snd s3)) /\ o_kdS (snd s3) = o_kdS o2 /\
          o_adjS (snd s3) = o_adjS o2 /\ o_intS (snd s3) = o_intS o2 /\ o_infoS (snd s3) = o_infoS o2 /\ o_bbS (snd s3) = o_bbS o2 /\ o_pcS (snd s3) = o_pcS o2)
    as [F3 [T3 [K3 [D3 [A4 [I3 [N3 [X3 P3]]]]]]]].
  { destruct (o_skdS o2) eqn:E; try solve [injection E3 as <-; cbn; rewrite ?E; repeat split; reflexivity].
    unfold buildSkdTree, isSkdTreeSupported in E3. rewrite E in E3.
    destruct (o_skdp o2); try discriminate. destruct (cell_boxes (g_verts g) (g_cells g)); [|discriminate]. injection E3 as <-. cbn. repeat split; reflexivity. }
  destruct s3 as [g3 o3]. cbn [fst snd] in *. subst g3.
  set (s4 := match o_kdS o3 with Unsync => buildKdTree (g, o3) | _ => (g, o3) end) in U.
  assert (fst s4 = g /\ o_type (snd s4) = o_type o3 /\ o_skdS (snd s4) = o_skdS o3 /\ (g_verts g <> [] -> refreshed (o_kdS o3) (o_kdS (snd s4))) /\
          (g_verts g = [] -> o_kdS (snd s4) = o_kdS o3) /\
          o_adjS (snd s4) = o_adjS o3 /\ o_intS (snd s4) = o_intS o3 /\ o_infoS (snd s4) = o_infoS o3 /\ o_bbS (snd s4) = o_bbS o3 /\ o_pcS (snd s4) = o_pcS o3)
    as [F4 [T4 [K4 [D4 [D5 [A5 [I4 [N4 [X4 P4]]]]]]]]].
  { subst s4. unfold buildKdTree. destruct (o_kdS o3) eqn:E; try solve [cbn; rewrite ?E; repeat split; reflexivity].
    destruct (g_verts g) eqn:V; cbn; rewrite ?E; repeat split; congruence. }
  clearbody s4. destruct s4 as [g4 o4]. cbn [fst snd] in *. subst g4.
  set (s5 := match o_infoS o4 with Unsync => buildPatchInfo (g, o4) | _ => (g, o4) end) in U.
  assert (fst s5 = g /\ o_type (snd s5) = o_type o4 /\ o_skdS (snd s5) = o_skdS o4 /\ o_kdS (snd s5) = o_kdS o4 /\
          o_adjS (snd s5) = o_adjS o4 /\ o_intS (snd s5) = o_intS o4 /\ refreshed (o_infoS o4) (o_infoS (snd s5)) /\ o_bbS (snd s5) = o_bbS o4 /\ o_pcS (snd s5) = o_pcS o4)
    as [F5 [T5 [K5 [D6 [A6 [I5 [N5 [X5 P5]]]]]]]].
  { subst s5. destruct (o_infoS o4) eqn:E; cbn; rewrite ?E; repeat split; reflexivity. }
  clearbody s5. destruct s5 as [g5 o5]. cbn [fst snd] in *. subst g5.
  set (s6 := match o_bbS o5 with Synced => (g, o5) | _ => (g, set_bb o5 (map snd (g_verts g)) Synced) end) in U.
  assert (fst s6 = g /\ o_type (snd s6) = o_type o5 /\ o_skdS (snd s6) = o_skdS o5 /\ o_kdS (snd s6) = o_kdS o5 /\
          o_adjS (snd s6) = o_adjS o5 /\ o_intS (snd s6) = o_intS o5 /\ o_infoS (snd s6) = o_infoS o5 /\ o_bbS (snd s6) = Synced /\ o_pcS (snd s6) = o_pcS o5)
    as [F6 [T6 [K6 [D7 [A7 [I6 [N6 [X6 P6]]]]]]]].
  { subst s6. destruct (o_bbS o5) eqn:E; cbn; rewrite ?E; repeat split; reflexivity. }
  clearbody s6. destruct s6 as [g6 o6]. cbn [fst snd] in *. subst g6. injection U as <-.
  assert (o_type o6 = o_type o) as T by congruence. assert (o_pcS o6 = o_pcS o) as PP by congruence.
  set (s7 := match o_pcS o6 with Unsync => buildPointConnectivity (g, o6) | _ => (g, o6) end).
  assert (o_skdS (snd s7) = o_skdS o6 /\ o_kdS (snd s7) = o_kdS o6 /\
          o_adjS (snd s7) = o_adjS o6 /\ o_intS (snd s7) = o_intS o6 /\ o_infoS (snd s7) = o_infoS o6 /\ o_bbS (snd s7) = o_bbS o6 /\ refreshed (o_pcS o) (o_pcS (snd s7)))
    as [K7 [D8 [A8 [I7 [N7 [X7 P7]]]]]].
  { subst s7. rewrite PP. destruct (o_pcS o) eqn:E; cbn [snd]; try solve [repeat split; cbn; congruence].
    unfold buildPointConnectivity, cleanPointConnectivity. cbn. rewrite T.
    assert (o_type o <> 3) as N by (intros Q; pose proof (inv_pc g o H Q); congruence).
    pose proof (inv_type g o H) as TT.
    destruct (o_type o =? 3) eqn:E3'; [apply Z.eqb_eq in E3'; contradiction|].
    destruct ((o_type o =? 1) || (o_type o =? 2) || (o_type o =? 4)) eqn:E'; [cbn; repeat split; reflexivity|].
    exfalso. apply orb_false_iff in E'. destruct E' as [E' E4]. apply orb_false_iff in E'. destruct E' as [E1 E2].
    apply Z.eqb_neq in E1, E2, E4, E3'. lia. }
  clearbody s7. constructor.
  - rewrite K7, K6, K5, K4, <- K2. exact K3.
  - intros V. rewrite D8, D7, D6, <- D2, <- D3. apply D4. exact V.
  - intros V. rewrite D8, D7, D6, (D5 V). congruence.
  - intros N. rewrite A8, A7, A6, A5, A4, (A2 N). exact R1.
  - intros E N. rewrite A8, A7, A6, A5, A4. apply A3; assumption.
  - rewrite I7, I6, I5, I4, I3. exact I2.
  - rewrite N7, N6. rewrite <- N2, <- N3, <- N4. exact N5.
  - rewrite X7, X6. reflexivity.
  - exact P7.
Qed.

(** * The cell tree *)

Record tree_ok (o : obj C) : Prop := {
  tree_sup : isSkdTreeSupported o = negb (o_type o =? 3);
  tree_ptr : o_type o <> 3 -> o_skdp o = SkOk
}.

Lemma lower_sup : forall s, (match lower s with NotSupported => false | _ => true end) = (match s with NotSupported => false | _ => true end).
Proof. intros []; reflexivity. Qed.
Lemma cleaned_sup : forall s, (match cleaned s with NotSupported => false | _ => true end) = (match s with NotSupported => false | _ => true end).
Proof. intros []; reflexivity. Qed.

Lemma adj_tree : forall s : geo C * obj C, o_type (snd (updateAdjacencies s)) = o_type (snd s) /\ o_skdp (snd (updateAdjacencies s)) = o_skdp (snd s) /\
  o_skdS (snd (updateAdjacencies s)) = o_skdS (snd s).
Proof. intros [g o]. unfold updateAdjacencies. destruct (o_adjS o); cbn; repeat split. Qed.

Lemma int_tree : forall s : geo C * obj C, o_type (snd (updateInterfaces s)) = o_type (snd s) /\ o_skdp (snd (updateInterfaces s)) = o_skdp (snd s) /\
  o_skdS (snd (updateInterfaces s)) = o_skdS (snd s).
Proof.
  intros [g o]. unfold updateInterfaces. cbn [snd].
  set (s1 := match o_adjS o with Synced => (g, o) | _ => updateAdjacencies (g, o) end).
  assert (o_type (snd s1) = o_type o /\ o_skdp (snd s1) = o_skdp o /\ o_skdS (snd s1) = o_skdS o) as H.
  { subst s1. destruct (o_adjS o); try apply (adj_tree (g, o)). repeat split. }
  clearbody s1. destruct s1 as [g1 o1]. cbn [snd] in *. destruct (o_intS o1); cbn; exact H.
Qed.

Lemma tree_same : forall o o', o_type o' = o_type o -> o_skdp o' = o_skdp o -> isSkdTreeSupported o' = isSkdTreeSupported o -> tree_ok o -> tree_ok o'.
Proof. intros o o' T P S [A B]. constructor; [rewrite S, T; exact A|rewrite T, P; exact B]. Qed.

Lemma skd_tree : forall g o s', buildSkdTree (g, o) = Some s' -> tree_ok o -> tree_ok (snd s').
Proof.
  intros g o s' E H. unfold buildSkdTree in E. destruct (isSkdTreeSupported o) eqn:S; [|injection E as <-; exact H].
  assert (forall t, tree_ok (set_skd o t Synced)) as K.
  { intros t. apply (tree_same o); try reflexivity; [|exact H]. rewrite S. reflexivity. }
  destruct (o_skdS o); try (injection E as <-; exact H); destruct (o_skdp o); try discriminate;
    destruct (cell_boxes (g_verts g) (g_cells g)); try discriminate; injection E as <-; apply K.
Qed.

Lemma kd_tree : forall s : geo C * obj C, tree_ok (snd s) -> tree_ok (snd (buildKdTree s)).
Proof.
  intros [g o] H. unfold buildKdTree. destruct (g_verts g); [exact H|].
  destruct (o_kdS o); try exact H; (apply (tree_same o); [reflexivity|reflexivity|reflexivity|exact H]).
Qed.

Lemma pc_tree : forall s : geo C * obj C, tree_ok (snd s) -> tree_ok (snd (buildPointConnectivity s)).
Proof.
  intros [g o] H. unfold buildPointConnectivity, cleanPointConnectivity. cbn [o_type set_pc].
  destruct (o_type o =? 3); [|destruct ((o_type o =? 1) || (o_type o =? 2) || (o_type o =? 4))];
    (apply (tree_same o); [reflexivity|reflexivity|reflexivity|exact H]).
Qed.

Lemma before_tree : forall s : geo C * obj C, tree_ok (snd s) ->
  let s1 := match o_adjS (snd s) with Unsync => updateAdjacencies s | _ => s end in
  let s2 := match o_intS (snd s1) with Unsync => updateInterfaces s1 | _ => s1 end in tree_ok (snd s2).
Proof.
  intros s H s1 s2. assert (tree_ok (snd s1)) as H1.
  { subst s1. destruct (o_adjS (snd s)); try exact H. destruct (adj_tree s) as [A [B D]]. apply (tree_same (snd s)); auto. unfold isSkdTreeSupported. rewrite D. reflexivity. }
  subst s2. clearbody s1. destruct (o_intS (snd s1)); try exact H1. destruct (int_tree s1) as [A [B D]].
  apply (tree_same (snd s1)); auto. unfold isSkdTreeSupported. rewrite D. reflexivity.
Qed.

Lemma update_tree : forall s s' : geo C * obj C, update s = Some s' -> tree_ok (snd s) -> tree_ok (snd s').
Proof.
  intros s s' U H. pose proof (before_tree s H) as B. unfold update in U. cbn zeta in B, U.
  set (s1 := match o_adjS (snd s) with Unsync => updateAdjacencies s | _ => s end) in *.
  set (s2 := match o_intS (snd s1) with Unsync => updateInterfaces s1 | _ => s1 end) in *. clearbody s2.
  destruct (match o_skdS (snd s2) with Unsync => buildSkdTree s2 | _ => Some s2 end) as [s3|] eqn:E; [|discriminate].
  assert (tree_ok (snd s3)) as H3.
  { destruct s2 as [g2 o2]. cbn [snd] in *. destruct (o_skdS o2); try (injection E as <-; exact B). apply (skd_tree g2 o2 s3 E B). }
  set (s4 := match o_kdS (snd s3) with Unsync => buildKdTree s3 | _ => s3 end) in U.
  assert (tree_ok (snd s4)) as H4. { subst s4. destruct (o_kdS (snd s3)); try exact H3. apply kd_tree. exact H3. }
  clearbody s4. destruct s4 as [g4 o4]. cbn [snd fst] in U, H4.
  set (s5 := match o_infoS o4 with Unsync => buildPatchInfo (g4, o4) | _ => (g4, o4) end) in U.
  assert (tree_ok (snd s5)) as H5. { subst s5. destruct (o_infoS o4); try exact H4. apply (tree_same o4); try reflexivity. exact H4. }
  clearbody s5. destruct s5 as [g5 o5]. cbn [snd fst] in U, H5.
  set (s6 := match o_bbS o5 with Synced => (g5, o5) | _ => (g5, set_bb o5 (map snd (g_verts g5)) Synced) end) in U.
  assert (tree_ok (snd s6)) as H6. { subst s6. destruct (o_bbS o5); try exact H5; (apply (tree_same o5); try reflexivity; exact H5). }
  clearbody s6. injection U as <-. destruct (o_pcS (snd s6)); try exact H6. apply pc_tree. exact H6.
Qed.

Lemma step_tree : forall (a : op C) (s s' : geo C * obj C), (o_type (snd s) = 3 -> a <> ResetPatch) -> step a s = Some s' -> tree_ok (snd s) -> tree_ok (snd s').
Proof.
  intros a [g o] s' N E H. cbn [snd] in *. destruct a; cbn [step] in E.
  - injection E as <-. unfold addVertex. destruct (has_vertex g id); [exact H|]. apply (tree_same o); [reflexivity|reflexivity|reflexivity|exact H].
  - injection E as <-. unfold modifyVertex. destruct (has_vertex g id); [|exact H].
    apply (tree_same o); [reflexivity|reflexivity|unfold isSkdTreeSupported; cbn; apply lower_sup|exact H].
  - injection E as <-. unfold addCell. destruct (has_cell g id); [exact H|].
    apply (tree_same o); [reflexivity|reflexivity|unfold isSkdTreeSupported; cbn; apply lower_sup|exact H].
  - apply (skd_tree g o s' E H).
  - unfold cleanSkdTree in E. destruct (isSkdTreeSupported o); [|injection E as <-; exact H]. destruct (o_skdp o) eqn:Q; try discriminate. injection E as <-.
    apply (tree_same o); [reflexivity|reflexivity|unfold isSkdTreeSupported; cbn; apply cleaned_sup|exact H].
  - assert (s' = buildKdTree (g, o)) as -> by congruence. apply kd_tree. exact H.
  - injection E as <-. apply (tree_same o); [reflexivity|reflexivity|reflexivity|exact H].
  - injection E as <-. apply (tree_same o); [reflexivity|reflexivity|reflexivity|exact H].
  - injection E as <-. apply (tree_same o); [reflexivity|reflexivity|reflexivity|exact H].
  - injection E as <-. apply (tree_same o); [reflexivity|reflexivity|reflexivity|exact H].
  - assert (s' = updateAdjacencies (g, o)) as -> by congruence. destruct (adj_tree (g, o)) as [A [B D]]. apply (tree_same o); auto. unfold isSkdTreeSupported. rewrite D. reflexivity.
  - assert (s' = updateInterfaces (g, o)) as -> by congruence. destruct (int_tree (g, o)) as [A [B D]]. apply (tree_same o); auto. unfold isSkdTreeSupported. rewrite D. reflexivity.
  - injection E as <-. apply (tree_same o); [reflexivity|reflexivity|reflexivity|exact H].
  - injection E as <-. apply (tree_same o); [reflexivity|reflexivity|reflexivity|exact H].
  - assert (s' = buildPointConnectivity (g, o)) as -> by congruence. apply pc_tree. exact H.
  - injection E as <-. apply (tree_same o); [reflexivity|reflexivity|reflexivity|exact H].
  - injection E as <-. apply (tree_same o); [reflexivity|reflexivity|unfold isSkdTreeSupported; cbn; apply lower_sup|exact H].
  - injection E as <-. unfold cleanGeometry. cbn [fst snd]. destruct (Nat.eqb (length (g_verts g)) (length (g_verts g'))); [exact H|].
    apply (tree_same o); [reflexivity|reflexivity|unfold isSkdTreeSupported; cbn; apply lower_sup|exact H].
  - apply (update_tree (g, o) s' E H).
  - pose proof (resetPatch_some _ _ E) as R. destruct R as [_ [T [P [S _]]]]. cbn [snd] in T, P.
    destruct H as [A B]. constructor.
    + unfold isSkdTreeSupported. rewrite S, T. symmetry. apply negb_true_iff, Z.eqb_neq. intros Q. apply (N Q). reflexivity.
    + rewrite T, P. exact B.
  - unfold reset in E. destruct (resetPatch (g, o)) as [[g1 o1]|]; [|discriminate]. injection E as <-. constructor; unfold isSkdTreeSupported; cbn.
    + destruct (type =? 3); reflexivity.
    + intros Q. apply Z.eqb_neq in Q. rewrite Q. reflexivity.
Qed.

Lemma history_tree : forall ops s s', clouds_kept ops s -> history ops s s' -> tree_ok (snd s) -> tree_ok (snd s').
Proof.
  induction ops as [|a ops IH]; intros s s' K H T; cbn in K, H; [subst s'; exact T|].
  destruct K as [N K]. destruct H as [_ [s1 [E H]]]. apply (IH s1 s' (K s1 E) H). apply (step_tree a s s1 N E T).
Qed.

Lemma coord_ex : forall (vs : list (Z * C)) id x, In (id, x) vs -> exists c, coord vs id = Some c.
Proof.
  induction vs as [|[i y] vs IH]; intros id x H; [destruct H|]. cbn [coord]. destruct (i =? id) eqn:E; [eexists; reflexivity|].
  destruct H as [H|H]; [injection H as -> _; rewrite Z.eqb_refl in E; discriminate|apply (IH id x H)].
Qed.

Lemma coord_none : forall (vs : list (Z * C)) id c, coord vs id = Some c -> exists x, In (id, x) vs.
Proof. intros vs id c H. exists c. apply coord_In. exact H. Qed.

Lemma coords_ex : forall (vs : list (Z * C)) ids, (forall v, In v ids -> exists x, In (v, x) vs) <-> exists l, coords vs ids = Some l.
Proof.
  intros vs ids. induction ids as [|id ids IH]; cbn [coords].
  - split; [intros _; eexists; reflexivity|intros _ v []].
  - split.
    + intros H. destruct (H id (or_introl eq_refl)) as [x Hx]. destruct (coord_ex vs id x Hx) as [c ->].
      destruct (proj1 IH (fun v Hv => H v (or_intror Hv))) as [l ->]. eexists. reflexivity.
    + intros [l H] v Hv. destruct (coord vs id) as [c|] eqn:E; [|discriminate]. destruct (coords vs ids) as [r|] eqn:R; [|discriminate].
      destruct Hv as [<-|Hv]; [apply (coord_none vs id c E)|]. apply (proj2 IH (ex_intro _ r eq_refl) v Hv).
Qed.

Lemma cell_boxes_ex : forall (vs : list (Z * C)) cs,
  (forall cell v, In cell cs -> In v (snd cell) -> exists x, In (v, x) vs) <-> exists t, cell_boxes vs cs = Some t.
Proof.
  intros vs cs. induction cs as [|[id conn] cs IH]; cbn [cell_boxes].
  - split; [intros _; eexists; reflexivity|intros _ cell v []].
  - split.
    + intros H. destruct (proj1 (coords_ex vs conn) (fun v Hv => H (id, conn) v (or_introl eq_refl) Hv)) as [l ->].
      destruct (proj1 IH (fun cell v Hc Hv => H cell v (or_intror Hc) Hv)) as [t ->]. eexists. reflexivity.
    + intros [t H]. destruct (coords vs conn) as [l|] eqn:E; [|discriminate]. destruct (cell_boxes vs cs) as [r|] eqn:R; [|discriminate].
      intros cell v [<-|Hc] Hv; [apply (proj2 (coords_ex vs conn) (ex_intro _ l E) v Hv)|].
      apply (proj2 IH (ex_intro _ r eq_refl) cell v Hc Hv).
Qed.

Lemma before_geo : forall s : geo C * obj C,
  let s1 := match o_adjS (snd s) with Unsync => updateAdjacencies s | _ => s end in
  let s2 := match o_intS (snd s1) with Unsync => updateInterfaces s1 | _ => s1 end in
  fst s2 = fst s /\ o_skdS (snd s2) = o_skdS (snd s).
Proof.
  assert (forall s : geo C * obj C, fst (updateAdjacencies s) = fst s) as A. { intros [g o]. unfold updateAdjacencies. destruct (o_adjS o); reflexivity. }
  assert (forall s : geo C * obj C, fst (updateInterfaces s) = fst s) as B.
  { intros [g o]. unfold updateInterfaces. cbn [snd].
    assert (fst (match o_adjS o with Synced => (g, o) | _ => updateAdjacencies (g, o) end) = g) as Q.
    { destruct (o_adjS o); try apply A. reflexivity. }
    destruct (match o_adjS o with Synced => (g, o) | _ => updateAdjacencies (g, o) end) as [g1 o1]. cbn in Q. subst g1. destruct (o_intS o1); reflexivity. }
  intros s s1 s2.
  assert (fst s1 = fst s /\ o_skdS (snd s1) = o_skdS (snd s)) as [F1 K1].
  { subst s1. destruct (o_adjS (snd s)); try (split; reflexivity). split; [apply A|apply adj_tree]. }
  subst s2. clearbody s1. destruct (o_intS (snd s1)); try (split; assumption).
  split; [rewrite B; exact F1|]. destruct (int_tree s1) as [_ [_ D]]. rewrite D. exact K1.
Qed.

(** The update fails only if the tree of cells must be built and a vertex is missing. *)
Lemma update_total : forall g o, tree_ok o -> ((exists s', update (g, o) = Some s') <-> (o_skdS o = Unsync -> well_linked g)).
Proof.
  intros g o H. pose proof (before_tree (g, o) H) as B. pose proof (before_geo (g, o)) as G. unfold update. cbn zeta in *.
  set (s1 := match o_adjS (snd (g, o)) with Unsync => updateAdjacencies (g, o) | _ => (g, o) end) in *.
  set (s2 := match o_intS (snd s1) with Unsync => updateInterfaces s1 | _ => s1 end) in *. clearbody s2. clear s1.
  destruct s2 as [g2 o2]. cbn [fst snd] in *. destruct G as [-> G]. rewrite <- G.
  destruct (o_skdS o2) eqn:E; try (split; [intros _ Q; discriminate|intros _; eexists; reflexivity]).
  unfold buildSkdTree, isSkdTreeSupported. rewrite E.
  assert (o_type o2 <> 3) as N. { intros Q. destruct B as [S _]. unfold isSkdTreeSupported in S. rewrite E, Q in S. discriminate. }
  rewrite (tree_ptr o2 B N). split.
  - intros [s' U] _ cell v Hc Hv. destruct (cell_boxes (g_verts g) (g_cells g)) as [t|] eqn:W; [|discriminate].
    apply (proj2 (cell_boxes_ex (g_verts g) (g_cells g)) (ex_intro _ t W) cell v Hc Hv).
  - intros W. destruct (proj1 (cell_boxes_ex (g_verts g) (g_cells g)) (W eq_refl)) as [t ->]. eexists. reflexivity.
Qed.
End Proofs.
