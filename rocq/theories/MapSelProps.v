(** C149, C150: the selection of the part of a geometry near to other ones. *)
From Coq Require Import List Arith NArith ZArith Bool Reals Lia Lra.
From Verif Require Import Vec Select SelectProofs SkdSel SkdSelSpec SkdSelProofs SkdSelProps MapSel MapSelSpec.
Import ListNotations.
Open Scope list_scope.
Open Scope nat_scope.

(** * C149: settings *)

Lemma tol0_pos : (0 < tol0)%R.
Proof. unfold tol0. apply Rinv_0_lt_compat, pow_lt. lra. Qed.
Lemma allowed_fits topo t : allowed_type topo t = true <-> fits topo t.
Proof.
  unfold allowed_type, fits. destruct (Z.eqb_spec topo 1) as [->|N1]; [|destruct (Z.eqb_spec topo 2) as [->|N2]; [|destruct (Z.eqb_spec topo 4) as [->|N4]]];
    cbn [existsb]; rewrite ?orb_true_iff, ?Z.eqb_eq; intuition (try lia; try discriminate).
Qed.
Lemma allowed_geometry topo t : allowed_topology topo t = true <-> fits_geometry topo t.
Proof.
  unfold allowed_topology, fits_geometry. destruct (Z.eqb_spec topo 1) as [->|N1]; [|destruct (Z.eqb_spec topo 2) as [->|N2]; [|destruct (Z.eqb_spec topo 4) as [->|N4]]];
    cbn [existsb]; rewrite ?orb_true_iff, ?Z.eqb_eq; intuition (try lia; try discriminate).
Qed.
Lemma good_kind t : kind (good_topo t).
Proof. unfold good_topo, kind. cbv zeta. destruct (Z.ltb_spec 4 (Z.max 1 t)); cbn [orb]; [tauto|]. destruct (Z.eqb_spec (Z.max 1 t) 3); lia. Qed.
Lemma good_kept t : kind t -> good_topo t = t.
Proof. unfold kind. intros [-> | [-> | ->]]; reflexivity. Qed.
Lemma good_default t : ~ kind t -> good_topo t = 1%Z.
Proof. unfold good_topo, kind. cbv zeta. intros N. destruct (Z.ltb_spec 4 (Z.max 1 t)); cbn [orb]; [reflexivity|]. destruct (Z.eqb_spec (Z.max 1 t) 3); lia. Qed.
Lemma same_text_iff a b : same_text a b = true <-> a = b.
Proof. unfold same_text. destruct (list_eq_dec N.eq_dec a b); split; congruence. Qed.
Lemma nodup_one {A} (l : list A) x : NoDup l -> ~ In x l -> NoDup (l ++ [x]).
Proof.
  intros H N. induction H as [|y l Hy H IH]; cbn [app]; [constructor; [intros []|constructor]|]. constructor; [|apply IH; intros Q; apply N; right; exact Q].
  intros Q. apply in_app_iff in Q. destruct Q as [Q|[<- | []]]; [exact (Hy Q)|]. apply N. left. reflexivity.
Qed.
Lemma nodup_filter {A B} (f : A -> B) p l : NoDup (map f l) -> NoDup (map f (filter p l)).
Proof.
  induction l as [|x l IH]; intros H; [exact H|]. cbn [map] in H. inversion H as [|y l' Hy Hl]; subst. cbn [filter]. destruct (p x); [|exact (IH Hl)].
  cbn [map]. constructor; [|exact (IH Hl)]. intros Q. apply Hy. apply in_map_iff in Q. destruct Q as (z & E & Q). apply in_map_iff. exists z. split; [exact E|]. apply filter_In in Q. tauto.
Qed.
Lemma known_iff (l : list (text * Z)) f : existsb (fun e => same_text (fst e) f) l = true <-> exists t, In (f, t) l.
Proof.
  rewrite existsb_exists. split.
  - intros ((a, t) & H & E). apply same_text_iff in E. cbn [fst] in E. subst a. exists t. exact H.
  - intros (t & H). exists (f, t). split; [exact H|]. apply same_text_iff. reflexivity.
Qed.

Definition ms_run (c : ms_call) (s : mapsel) : mapsel :=
  match c with
  | MsTolerance t => ms_setTolerance t s | MsGeometry g => ms_setGeometry g s | MsFile f => ms_addFile f s
  | MsMap k g => match ms_addMap (Some (k, g)) s with Some s => s | None => s end
  | MsDropFile f => ms_removeFile f s | MsDropFiles => ms_removeFiles s | MsDropMaps => ms_removeMaps s | MsDual d => ms_setDual d s
  end.
Fixpoint ms_after (h : list ms_call) (s : mapsel) : mapsel := match h with [] => s | c :: r => ms_run c (ms_after r s) end.

(** Whatever the calls: the topology is the one given, or a surface when it is not allowed; the target
    has this topology; the tolerance is not negative; the mapped geometries fit the target; and the files
    are those added with a type that fits and not removed, the first type given to a name being kept. *)
Theorem C149_settings : forall topo h, let s := ms_after h (new_mapsel topo) in
  (kind topo -> ms_topo s = topo) /\ (~ kind topo -> ms_topo s = 1%Z) /\
  (forall g, ms_geo s = Some g -> gm_type g = ms_topo s) /\ (0 <= ms_tol s)%R /\
  (forall k g, In (k, g) (ms_maps s) -> fits_geometry (ms_topo s) (gm_type g)) /\ NoDup (map fst (ms_maps s)) /\
  (forall f t, In (f, t) (ms_files s) <-> file_in (ms_topo s) h f t) /\ NoDup (map fst (ms_files s)).
Proof.
  intros topo h. cbv zeta.
  assert (T : forall h, ms_topo (ms_after h (new_mapsel topo)) = good_topo topo).
  { clear h. intros h. induction h as [|c h IH]; [reflexivity|]. cbn [ms_after]. destruct c as [t|[g|]|f|k g|f| | |d]; cbn [ms_run ms_setTolerance ms_setGeometry ms_addMap ms_removeFile ms_removeFiles ms_removeMaps ms_setDual ms_topo]; try exact IH.
    - destruct (_ =? _)%Z; exact IH.
    - unfold ms_addFile. destruct (_ && _); exact IH.
    - destruct (_ && _); exact IH. }
  rewrite (T h). split; [exact (good_kept topo)|]. split; [exact (good_default topo)|].
  induction h as [|c h IH].
  - cbn [ms_after new_mapsel ms_geo ms_tol ms_maps ms_files map]. split; [discriminate|]. split; [apply Rlt_le, tol0_pos|]. split; [intros k g []|]. split; [constructor|]. split; [reflexivity|constructor].
  - destruct IH as (G & Tl & M & Nm & F & Nf). cbn [ms_after]. set (s := ms_after h (new_mapsel topo)) in *. specialize (T h). fold s in T.
    destruct c as [t|[g|]|[f t]|k g|f| | |d]; cbn [ms_run ms_setTolerance ms_setGeometry ms_addMap ms_removeFile ms_removeFiles ms_removeMaps ms_setDual ms_topo ms_geo ms_tol ms_maps ms_files file_in].
    + split; [exact G|]. split; [destruct (Rlt_dec t 0); [apply Rlt_le, tol0_pos|lra]|]. auto.
    + destruct (Z.eqb_spec (gm_type g) (ms_topo s)) as [E|E]; [|auto 8]. cbn [ms_geo ms_tol ms_maps ms_files]. split; [intros g' Q; injection Q as <-; congruence|]. auto.
    + auto 8.
    + unfold ms_addFile. cbn [fst snd]. destruct (allowed_type (ms_topo s) t) eqn:A; [destruct (existsb _ (ms_files s)) eqn:X|]; cbn [andb negb].
      * split; [exact G|]. split; [exact Tl|]. split; [exact M|]. split; [exact Nm|]. split; [|exact Nf]. intros f' t'. rewrite F. split; [tauto|].
        intros [H|(-> & -> & _ & N)]; [exact H|]. exfalso. apply known_iff in X. destruct X as (u & X). apply F in X. exact (N u X).
      * cbn [ms_geo ms_tol ms_maps ms_files]. split; [exact G|]. split; [exact Tl|]. split; [exact M|]. split; [exact Nm|].
        assert (New : forall u, ~ In (f, u) (ms_files s)) by (intros u Q; assert (existsb (fun e => same_text (fst e) f) (ms_files s) = true) by (apply known_iff; exists u; exact Q); congruence).
        split.
        -- intros f' t'. rewrite in_app_iff, F. cbn [In]. split.
           ++ intros [H|[H|[]]]; [tauto|]. injection H as <- <-. right. split; [reflexivity|]. split; [reflexivity|]. split; [rewrite T in A; apply allowed_fits, A|]. intros u Q. apply F in Q. exact (New u Q).
           ++ intros [H|(-> & -> & _)]; tauto.
        -- rewrite map_app. cbn [map fst]. apply nodup_one; [exact Nf|]. intros Q. apply in_map_iff in Q. destruct Q as ((a, u) & E & Q). cbn [fst] in E. subst a. exact (New u Q).
      * split; [exact G|]. split; [exact Tl|]. split; [exact M|]. split; [exact Nm|]. split; [|exact Nf]. intros f' t'. rewrite F. split; [tauto|].
        intros [H|(-> & -> & Q & _)]; [exact H|]. rewrite <- T in Q. apply allowed_fits in Q. congruence.
    + destruct (allowed_topology (ms_topo s) (gm_type g)) eqn:A; [destruct (existsb _ (ms_maps s)) eqn:X|]; cbn [andb negb]; [auto 8| |auto 8].
      cbn [ms_geo ms_tol ms_maps ms_files]. split; [exact G|]. split; [exact Tl|]. split.
      * intros k' g' H. apply in_app_iff in H. destruct H as [H|[H|[]]]; [exact (M k' g' H)|]. injection H as _ <-. rewrite <- T. apply allowed_geometry, A.
      * split; [|auto]. rewrite map_app. cbn [map fst]. apply nodup_one; [exact Nm|]. intros Q. apply in_map_iff in Q. destruct Q as ((a, u) & E & Q). cbn [fst] in E. subst a.
        assert (existsb (fun e => Nat.eqb (fst e) k) (ms_maps s) = true) by (apply existsb_exists; exists (k, u); split; [exact Q|apply Nat.eqb_refl]). congruence.
    + split; [exact G|]. split; [exact Tl|]. split; [exact M|]. split; [exact Nm|]. split.
      * intros f' t'. rewrite filter_In, F. cbn [fst]. rewrite negb_true_iff. split.
        -- intros (H & N). split; [|exact H]. intros ->. assert (same_text f' f' = true) by (apply same_text_iff; reflexivity). congruence.
        -- intros (N & H). split; [exact H|]. destruct (same_text f' f) eqn:E; [|reflexivity]. apply same_text_iff in E. congruence.
      * apply nodup_filter, Nf.
    + split; [exact G|]. split; [exact Tl|]. split; [exact M|]. split; [exact Nm|]. split; [intros f t; split; intros []|constructor].
    + split; [exact G|]. split; [exact Tl|]. split; [intros k g []|]. split; [constructor|]. auto.
    + auto 8.
Qed.
Print Assumptions C149_settings.
Theorem C149_tolerance : forall topo h, tol_in h (ms_tol (ms_after h (new_mapsel topo))).
Proof.
  intros topo h. assert (D : (tol0 * 10 ^ 8 = 1)%R) by (unfold tol0; apply Rinv_l, pow_nonzero; lra).
  induction h as [|c h IH]; [exact D|]. cbn [ms_after].
  destruct c as [t|[g|]|f|k g|f| | |d]; cbn [ms_run ms_setTolerance ms_setGeometry ms_addMap ms_removeFile ms_removeFiles ms_removeMaps ms_setDual ms_tol tol_in]; try exact IH.
  - destruct (Rlt_dec t 0); split; intros; auto; lra.
  - destruct (_ =? _)%Z; exact IH.
  - unfold ms_addFile. destruct (_ && _); exact IH.
  - destruct (_ && _); exact IH.
Qed.
Print Assumptions C149_tolerance.

(** To give a name another type has no effect. *)
Theorem C149_again_refuted : exists s f t t', fits (ms_topo s) t' /\ t <> t' /\ ms_files (ms_addFile (f, t') (ms_addFile (f, t) s)) = [(f, t)].
Proof. exists (new_mapsel 1), [97%N], 0%Z, 3%Z. split; [unfold fits; cbn; tauto|]. split; [discriminate|]. vm_compute. reflexivity. Qed.
Print Assumptions C149_again_refuted.

(** The constructor from a target works for a surface; a volume or a curve is refused, and nothing is
    extracted. *)
Theorem C149_surface : forall files g tol, gm_type g = 1%Z -> let s := new_mapsel_for files (Some g) tol in
  ms_topo s = 1%Z /\ ms_geo s = Some g /\ ms_tol s = tol /\ ms_dual s = false.
Proof.
  intros files g tol T. unfold new_mapsel_for. rewrite T. cbv zeta.
  change (if (4 <? Z.min 1 1)%Z || (Z.min 1 1 =? 3)%Z then 1%Z else Z.min 1 1) with 1%Z. unfold ms_setGeometry at 1 2 3 4 5. rewrite T. cbn [ms_topo Z.eqb Pos.eqb]. unfold ms_setGeometry. rewrite T. cbn [ms_topo ms_geo ms_tol ms_dual ms_files ms_maps Z.eqb Pos.eqb].
  assert (K : forall l s, ms_topo (ms_setFiles l s) = ms_topo s /\ ms_geo (ms_setFiles l s) = ms_geo s /\ ms_dual (ms_setFiles l s) = ms_dual s).
  { induction l as [|f l IH]; intros s; [auto|]. cbn. destruct (IH (ms_addFile f s)) as (A & B & C). unfold ms_setFiles in *. rewrite A, B, C. unfold ms_addFile. destruct (_ && _); auto. }
  destruct (K files (Ms 1 (Some g) tol0 [] [] false)) as (A & B & C). rewrite A, B, C. auto.
Qed.
Print Assumptions C149_surface.
Theorem C149_target_refuted : forall files g tol read, gm_type g = 2%Z \/ gm_type g = 4%Z ->
  ms_geo (new_mapsel_for files (Some g) tol) = None /\ ms_extract read (new_mapsel_for files (Some g) tol) = None /\
  forall s, ms_topo s = gm_type g -> ms_geo (ms_setGeometry (Some g) s) = Some g.
Proof.
  intros files g tol read T.
  assert (K : forall l s, ms_geo (ms_setFiles l s) = ms_geo s).
  { induction l as [|f l IH]; intros s; [auto|]. cbn. pose proof (IH (ms_addFile f s)) as B. unfold ms_setFiles in *. rewrite B. unfold ms_addFile. destruct (_ && _); auto. }
  assert (G : ms_geo (new_mapsel_for files (Some g) tol) = None).
  { unfold new_mapsel_for. cbv zeta. cbn [ms_geo]. rewrite K. unfold ms_setGeometry. destruct T as [-> | ->]; reflexivity. }
  split; [exact G|]. split; [unfold ms_extract; rewrite G; reflexivity|]. intros s E. unfold ms_setGeometry. rewrite E, Z.eqb_refl. reflexivity.
Qed.
Print Assumptions C149_target_refuted.
(** This constructor keeps a negative tolerance, and drops the files and the tolerance when the target is
    null; a null geometry to map is dereferenced. *)
Theorem C149_arguments_refuted : (forall files g, ms_tol (new_mapsel_for files (Some g) (-1)) = (-1)%R) /\
  (forall files tol, ms_files (new_mapsel_for files None tol) = [] /\ ms_tol (new_mapsel_for files None tol) = tol0) /\ forall s, ms_addMap None s = None.
Proof. split; [reflexivity|]. split; [split; reflexivity|reflexivity]. Qed.
Print Assumptions C149_arguments_refuted.

(** From a section of XML the block is made exactly when the topology is missing or allowed; any other
    number, documented to be taken as a surface, raises an exception. *)
Theorem C149_xml : forall x, (exists s, mapsel_xml x = Some s) <-> mx_topo x = None \/ exists t, mx_topo x = Some (Some t) /\ kind t.
Proof.
  intros [[[t|]|] d tl fs]; unfold mapsel_xml, ms_absorb; cbn [mx_topo mx_dual mx_tol mx_files new_mapsel ms_topo].
  - destruct (Z.eqb_spec (good_topo t) t) as [E|E].
    + split; [|intros _; eexists; reflexivity]. intros _. right. exists t. split; [reflexivity|]. rewrite <- E. apply good_kind.
    + split; [intros (s & Q); discriminate Q|]. intros [Q|(t' & Q & K)]; [discriminate Q|]. injection Q as <-. destruct (E (good_kept t K)).
  - split; [intros (s & Q); discriminate Q|]. intros [Q|(t' & Q & K)]; discriminate Q.
  - split; [intros _; left; reflexivity|intros _; eexists; reflexivity].
Qed.
Print Assumptions C149_xml.
(** What is written is read back: topology, dual, files, and the tolerance as its text says. *)
Theorem C149_back : forall show topo h, (forall r, (0 <= r)%R -> (0 <= show r)%R) -> let s := ms_after h (new_mapsel topo) in
  exists s', mapsel_xml (ms_flush show s) = Some s' /\ ms_topo s' = ms_topo s /\ ms_dual s' = ms_dual s /\
  (forall f t, In (f, t) (ms_files s') <-> In (f, t) (ms_files s)) /\ (ms_tol s = tol0 -> ms_tol s' = tol0) /\ (ms_tol s <> tol0 -> ms_tol s' = show (ms_tol s)).
Proof.
  intros show topo h Sh. cbv zeta. destruct (C149_settings topo h) as (K & NK & _ & Tl & _ & _ & F & Nf). cbv zeta in *. set (s := ms_after h (new_mapsel topo)) in *.
  assert (Kd : kind (ms_topo s)).
  { assert (X : kind topo \/ ~ kind topo) by (unfold kind; lia). destruct X as [X|X]; [rewrite (K X); exact X|rewrite (NK X); left; reflexivity]. }
  assert (Fit : forall f t, In (f, t) (ms_files s) -> fits (ms_topo s) t).
  { intros f t H. apply F in H. clear F. revert H. clear. generalize (ms_topo s). intros tp. induction h as [|c h IH]; cbn [file_in]; [tauto|].
    destruct c as [u|g|[f' t']|k g|f'| | |d]; try exact IH; [intros [H|(_ & _ & H & _)]; [exact (IH H)|exact H]|intros (_ & H); exact (IH H)|tauto]. }
  assert (Add : forall l s0, ms_topo s0 = ms_topo s -> (forall f t, In (f, t) l -> fits (ms_topo s) t) -> NoDup (map fst (ms_files s0) ++ map fst l) ->
     ms_setFiles l s0 = Ms (ms_topo s0) (ms_geo s0) (ms_tol s0) (ms_files s0 ++ l) (ms_maps s0) (ms_dual s0)).
  { induction l as [|[f t] l IH]; intros s0 E Fl N; [cbn; rewrite app_nil_r; destruct s0; reflexivity|].
    assert (A : ms_addFile (f, t) s0 = Ms (ms_topo s0) (ms_geo s0) (ms_tol s0) (ms_files s0 ++ [(f, t)]) (ms_maps s0) (ms_dual s0)).
    { unfold ms_addFile. cbn [fst snd]. rewrite E, (proj2 (allowed_fits _ t) (Fl f t (or_introl eq_refl))). cbn [andb].
      destruct (existsb _ (ms_files s0)) eqn:X; [|rewrite <- E; reflexivity]. exfalso. apply known_iff in X. destruct X as (u & X). cbn [map fst] in N. apply NoDup_remove_2 in N. apply N.
      apply in_app_iff. left. apply in_map_iff. exists (f, u). auto. }
    unfold ms_setFiles. cbn [fold_left]. fold (ms_setFiles l (ms_addFile (f, t) s0)). rewrite A, IH; cbn [ms_topo ms_geo ms_tol ms_files ms_maps ms_dual].
    - rewrite <- app_assoc. reflexivity.
    - exact E.
    - intros f' t' H. apply (Fl f' t'). right. exact H.
    - rewrite map_app, <- app_assoc. exact N. }
  unfold mapsel_xml, ms_flush, ms_absorb. cbn [mx_topo mx_dual mx_tol mx_files new_mapsel ms_topo]. rewrite (good_kept _ Kd), Z.eqb_refl. eexists. split; [reflexivity|].
  cbn [mx_tol]. destruct (Req_EM_T (ms_tol s) tol0) as [E|E].
  - rewrite Add; [|apply (good_kept _ Kd)|exact Fit|exact Nf]. cbn [ms_setDual ms_setTolerance new_mapsel ms_topo ms_geo ms_tol ms_files ms_maps ms_dual app]. split; [apply (good_kept _ Kd)|]. split; [reflexivity|]. split; [reflexivity|]. split; [reflexivity|]. intros N. contradiction.
  - rewrite Add; [|apply (good_kept _ Kd)|exact Fit|exact Nf]. cbn [ms_setDual ms_setTolerance new_mapsel ms_topo ms_geo ms_tol ms_files ms_maps ms_dual app]. split; [apply (good_kept _ Kd)|]. split; [reflexivity|]. split; [reflexivity|]. split; [intros N; contradiction|].
    intros _. destruct (Rlt_dec (show (ms_tol s)) 0) as [L|L]; [|reflexivity]. specialize (Sh (ms_tol s) Tl). lra.
Qed.
Print Assumptions C149_back.

Example C149_nonvacuous : exists h s, s = ms_after h (new_mapsel 4) /\ ms_topo s = 4%Z /\ ms_files s = [([98%N], 5%Z)] /\ kind 4 /\ ~ kind 3 /\
  file_in 4 h [98%N] 5 /\ ~ file_in 4 h [97%N] 99 /\ ms_dual s = true.
Proof.
  exists [MsDual true; MsDropFile [97%N]; MsFile ([99%N], 0%Z); MsFile ([98%N], 5%Z); MsFile ([97%N], 99%Z)]. eexists. split; [reflexivity|].
  split; [reflexivity|]. split; [vm_compute; reflexivity|]. split; [unfold kind; lia|]. split; [unfold kind; lia|]. split; [|split; [|reflexivity]].
  - cbn [file_in]. split; [discriminate|]. left. right. split; [reflexivity|]. split; [reflexivity|]. split; [unfold fits; lia|]. intros u [[]|(Q & _)]. discriminate Q.
  - cbn [file_in]. intros (Q & _). congruence.
Qed.

(** * C150: extraction *)

(** The cells extracted are those near to one of the files or of the geometries; with the dual, the other
    cells of the target; each once. *)
Theorem C150_extract : forall read s g, ms_geo s = Some g -> in_order g -> (0 <= ms_tol s)%R ->
  (forall d n t tr, read d n t = Some tr -> bounding tr) -> (forall k o, In (k, o) (ms_maps s) -> bounding (gm_tree o)) ->
  let near i := (exists f t tr, In (f, t) (ms_files s) /\ read (fst (fst (extractInfo f))) (snd (fst (extractInfo f))) t = Some tr /\ near_cell tr (gm_tree g) (ms_tol s) i) \/
                (exists k o, In (k, o) (ms_maps s) /\ near_cell (gm_tree o) (gm_tree g) (ms_tol s) i) in
  exists l, ms_extract read s = Some l /\ NoDup l /\
  (ms_dual s = false -> forall i, In i l <-> near i) /\ (ms_dual s = true -> forall i, In i l <-> In i (gm_cells g) /\ ~ near i).
Proof.
  intros read s g G (B & N & C) T R M. cbv zeta. unfold ms_extract. rewrite G. cbv zeta.
  set (near := flat_map _ (ms_files s) ++ flat_map _ (ms_maps s)).
  assert (Nr : forall i, In i near <-> (exists f t tr, In (f, t) (ms_files s) /\ read (fst (fst (extractInfo f))) (snd (fst (extractInfo f))) t = Some tr /\ near_cell tr (gm_tree g) (ms_tol s) i) \/
                (exists k o, In (k, o) (ms_maps s) /\ near_cell (gm_tree o) (gm_tree g) (ms_tol s) i)).
  { intros i. unfold near. rewrite in_app_iff, !in_flat_map. split.
    - intros [((f, t) & H & K)|((k, o) & H & K)].
      + left. unfold proximity_file in K. cbv zeta in K. cbn [fst snd] in K. destruct (read _ _ t) as [tr|] eqn:E; [|destruct K]. exists f, t, tr. split; [exact H|]. split; [exact E|].
        apply (proj2 (C97_select tr (gm_tree g) (ms_tol s) (R _ _ _ _ E) B T)), K.
      + right. exists k, o. split; [exact H|]. apply (proj2 (C97_select (gm_tree o) (gm_tree g) (ms_tol s) (M k o H) B T)), K.
    - intros [(f & t & tr & H & E & K)|(k & o & H & K)].
      + left. exists (f, t). split; [exact H|]. unfold proximity_file. cbv zeta. cbn [fst snd]. rewrite E. apply (proj2 (C97_select tr (gm_tree g) (ms_tol s) (R _ _ _ _ E) B T)), K.
      + right. exists (k, o). split; [exact H|]. apply (proj2 (C97_select (gm_tree o) (gm_tree g) (ms_tol s) (M k o H) B T)), K. }
  assert (Sub : forall i, In i near -> In i (gm_cells g)).
  { intros i H. apply C. apply Nr in H. destruct H as [(f & t & tr & _ & _ & K)|(k & o & _ & K)]; destruct K as (b & cs & b' & cs' & L & I & _); exists b, cs; auto. }
  set (ex := sort (nodup Nat.eq_dec near)).
  assert (Ex : forall i, In i ex <-> In i near) by (intros i; unfold ex; rewrite sort_in, nodup_In; reflexivity).
  assert (Sx : sorted ex) by (apply sort_sorted, NoDup_nodup). assert (Sc : sorted (sort (gm_cells g))) by (apply sort_sorted, N).
  assert (Inc : forall x, In x ex -> In x (sort (gm_cells g))) by (intros x H; apply sort_in, Sub, Ex, H).
  assert (Snd : forall l, sorted l -> NoDup l).
  { intros l H. induction H as [|x l Hx _ IH]; constructor; [intros Q; specialize (Hx x Q); lia|exact IH]. }
  assert (Nm : forall tot cand, NoDup tot -> NoDup (merge_out tot cand) /\ forall x, In x (merge_out tot cand) -> In x tot).
  { clear. induction tot as [|v tot IH]; intros cand H; cbn [merge_out]; [split; [constructor|intros x []]|]. inversion H; subst. destruct cand as [|c cand].
    - destruct (IH [] ltac:(assumption)) as (A & Bq). split; [constructor; [intros Q; apply Bq in Q; contradiction|exact A]|]. intros x [->|Q]; [left; reflexivity|right; apply Bq, Q].
    - destruct (Nat.eqb v c).
      + destruct (IH cand ltac:(assumption)) as (A & Bq). split; [exact A|]. intros x Q. right. apply Bq, Q.
      + destruct (IH (c :: cand) ltac:(assumption)) as (A & Bq). split; [constructor; [intros Q; apply Bq in Q; contradiction|exact A]|]. intros x [->|Q]; [left; reflexivity|right; apply Bq, Q]. }
  eexists. split; [reflexivity|]. destruct (ms_dual s).
  - destruct (Nat.eqb_spec (length (gm_cells g)) (length ex)) as [E|E].
    + split; [constructor|]. split; [discriminate|]. intros _ i. split; [intros []|]. intros (H & Q). apply Q, Nr, Ex.
      apply (NoDup_length_incl (Snd ex Sx)) in H; [exact H|lia|]. intros x X. apply Sub, Ex, X.
    + split; [apply Nm, Snd, Sc|]. split; [discriminate|]. intros _ i. rewrite merge_out_ok; [|exact Sc|exact Sx|exact Inc]. rewrite sort_in, Ex, Nr. reflexivity.
  - split; [apply Snd, Sx|]. split; [|discriminate]. intros _ i. rewrite Ex. apply Nr.
Qed.
Print Assumptions C150_extract.

(** A path with a directory is divided in the directory, the name and the extension. *)
Lemma last_of_app p l : forall k r l', (forall c, In c l' -> p c = false) -> last_of p (l ++ l') k r = last_of p l k r.
Proof.
  induction l as [|c l IH]; intros k r l' H; [|cbn; apply IH, H]. cbn [app last_of]. revert k. induction l' as [|c l' IH]; intros k; [reflexivity|]. cbn [last_of].
  rewrite (H c (or_introl eq_refl)). apply IH. intros d D. apply H. right. exact D.
Qed.
Lemma last_of_end p l c : forall k r, p c = true -> last_of p (l ++ [c]) k r = Some (k + length l).
Proof. induction l as [|d l IH]; intros k r H; cbn [app last_of length]; [rewrite H, Nat.add_0_r; reflexivity|]. rewrite IH by exact H. f_equal. lia. Qed.
Lemma last_of_mid p l c l' : p c = true -> (forall d, In d l' -> p d = false) -> last_of p (l ++ c :: l') 0 None = Some (length l).
Proof. intros H N. change (c :: l') with ([c] ++ l'). rewrite app_assoc, last_of_app by exact N. apply last_of_end, H. Qed.
Lemma slash_no l : plain l -> forall c, In c l -> slash c = false.
Proof. intros (A & B) c H. unfold slash. destruct (N.eqb_spec c 47) as [->|]; [contradiction|]. destruct (N.eqb_spec c 92) as [->|]; [contradiction|reflexivity]. Qed.
Lemma dot_no l : dotless l -> forall c, In c l -> dot c = false.
Proof. intros A c H. unfold dot. destruct (N.eqb_spec c 46) as [->|]; [contradiction|reflexivity]. Qed.
Lemma cut_mid (l : text) c l' : before (Some (length l)) (l ++ c :: l') = l /\ after (Some (length l)) (l ++ c :: l') = l'.
Proof.
  cbn [before after]. split; [rewrite firstn_app, firstn_all, Nat.sub_diag; apply app_nil_r|]. change (c :: l') with ([c] ++ l'). rewrite app_assoc.
  replace (S (length l)) with (length (l ++ [c])) by (rewrite app_length; cbn; lia). rewrite skipn_app, skipn_all, Nat.sub_diag. reflexivity.
Qed.
Theorem C150_path : forall d c n t, c = 47%N \/ c = 92%N -> plain n -> plain t -> dotless t -> extractInfo (d ++ c :: n ++ 46%N :: t) = (d, n, t).
Proof.
  intros d c n t C Pn Pt Dt. unfold extractInfo. cbv zeta.
  assert (S1 : last_of slash (d ++ c :: n ++ 46%N :: t) 0 None = Some (length d)).
  { apply last_of_mid; [unfold slash; destruct C as [-> | ->]; reflexivity|]. intros x H. apply in_app_iff in H. destruct H as [H|[<-|H]]; [exact (slash_no n Pn x H)|reflexivity|exact (slash_no t Pt x H)]. }
  rewrite S1. destruct (cut_mid d c (n ++ 46%N :: t)) as (-> & ->).
  rewrite (last_of_mid dot n 46%N t eq_refl (dot_no t Dt)). destruct (cut_mid n 46%N t) as (-> & ->). reflexivity.
Qed.
Print Assumptions C150_path.
(** The name of a file without a directory is taken as the directory. *)
Theorem C150_bare_refuted : forall n t, plain n -> plain t -> dotless t -> extractInfo (n ++ 46%N :: t) = (n ++ 46%N :: t, n, t).
Proof.
  intros n t Pn Pt Dt. unfold extractInfo. cbv zeta.
  assert (S1 : last_of slash (n ++ 46%N :: t) 0 None = None).
  { rewrite <- (app_nil_l (n ++ 46%N :: t)). rewrite last_of_app; [reflexivity|]. intros x H. apply in_app_iff in H. destruct H as [H|[<-|H]]; [exact (slash_no n Pn x H)|reflexivity|exact (slash_no t Pt x H)]. }
  rewrite S1. cbn [before after]. rewrite (last_of_mid dot n 46%N t eq_refl (dot_no t Dt)). destruct (cut_mid n 46%N t) as (-> & ->). reflexivity.
Qed.
Print Assumptions C150_bare_refuted.

(** A target of two cells, mapped with a geometry near to the first one: the cell, and the other one with
    the dual. *)
Example C150_nonvacuous : exists s g, ms_geo s = Some g /\ in_order g /\ ms_maps s = [(3, Gm 1 (Node (cube 2 3) [7] []) [7])] /\ bounding (Node (cube 2 3) [7] []) /\ ms_tol s = 1%R /\
  ms_extract (fun _ _ _ => None) s = Some [1] /\ ms_extract (fun _ _ _ => None) (ms_setDual true s) = Some [2] /\
  extractInfo [100; 47; 119; 46; 97; 46; 115]%N = ([100], [119; 46; 97], [115])%N.
Proof.
  exists (Ms 1 (Some (Gm 1 two_leaves [1; 2])) 1 [] [(3, Gm 1 (Node (cube 2 3) [7] []) [7])] false), (Gm 1 two_leaves [1; 2]).
  destruct C97_nonvacuous as (B1 & B2 & S1 & _). split; [reflexivity|]. split.
  { split; [exact B1|]. split; [repeat constructor; cbn [In gm_cells]; intuition discriminate|]. intros i (b & cs & L & H). cbn [gm_tree gm_cells] in *. apply leaf_inv in L.
    destruct L as [(E & _)|(k & K & L)]; [discriminate E|]. destruct K as [<- | [<- | []]]; apply leaf_inv in L; (destruct L as [(_ & _ & ->)|(k & [] & _)]); destruct H as [<- | []]; cbn [In]; tauto. }
  split; [reflexivity|]. split; [exact B2|]. split; [reflexivity|]. unfold ms_extract, ms_setDual. cbn [ms_geo ms_tol ms_files ms_maps ms_dual flat_map app snd gm_tree gm_cells].
  rewrite S1. split; [reflexivity|]. split; reflexivity.
Qed.
