(** The displacements of the vertices of a geometry. *)
From Coq Require Import Reals List Arith ZArith Bool Lia Lra.
From Verif Require Import Vec SharedPtr SharedPtrProofs Field FieldProofs Shape ShapeSpec ShapeSel ShapeSelSpec ShapeSelProofs Mesh MeshSpec MeshProofs MeshBuild Lattice LatticeSpec LatticeProofs LatticeBuild Manip ManipSpec ManipProofs Ffd FfdSpec FfdBasis FfdKnots FfdCurve FfdSums FfdEval FfdReady.
Import ListNotations.
Open Scope R_scope.

Lemma nested_like f f' t q : like f f' -> nested f' (f_order f') t q = nested f (f_order f) t q.
Proof. destruct f, f'. unfold like. cbn. intros (-> & -> & -> & -> & -> & -> & ->). reflexivity. Qed.
Lemma recover_like {A} f f' (v : list A) i : like f f' -> recover f' v i = recover f v i.
Proof. unfold like, recover. intros (-> & _). reflexivity. Qed.
Lemma nested_ext f o t t' q : (forall i x, t i x = t' i x) -> nested f o t q = nested f o t' q.
Proof.
  intros H. assert (Acc : forall n g h, (forall i, g i = h i) -> accumulate n g = accumulate n h).
  { intros n g h E. unfold accumulate. generalize (seq 0 n) hzero. induction l as [|a l IH]; intros z; [reflexivity|]. cbn [loop]. rewrite E.
    destruct (h a); cbn [bind]; [apply IH|reflexivity]. }
  unfold nested. destruct (f_order f) as [[i0 i1] i2], o as [[s0 s1] s2].
  destruct (getKnotInterval (curve_of f i0) _) as [k0|]; [|reflexivity]. cbn [bind]. destruct (getKnotInterval (curve_of f i1) _) as [k1|]; [|reflexivity]. cbn [bind].
  destruct (getKnotInterval (curve_of f i2) _) as [k2|]; [|reflexivity]. cbn [bind].
  destruct (basisITS0 (curve_of f i0) _ _) as [b0|]; [|reflexivity]. cbn [bind]. destruct (basisITS0 (curve_of f i1) _ _) as [b1|]; [|reflexivity]. cbn [bind].
  destruct (basisITS0 (curve_of f i2) _ _) as [b2|]; [|reflexivity]. cbn [bind].
  apply Acc. intros i. destruct (get b0 i); [|reflexivity]. cbn [bind]. erewrite Acc; [reflexivity|]. intros j. cbv beta. destruct (get b1 j); [|reflexivity]. cbn [bind].
  erewrite Acc; [reflexivity|]. intros k. cbv beta. destruct (get b2 k); [|reflexivity]. cbn [bind]. destruct (accessMapNodes f _); [|reflexivity]. cbn [bind]. apply H.
Qed.

Section One.
Variables (f : ffd) (s : shape) (q : vec).
Hypothesis C : core f s.
Hypothesis So : ShapeSpec.solid s.
Hypothesis Sp : spaced f s.
Hypothesis In : in_box s q.
Let p := toLocalCoord s q.
(** the three directions at the local coordinates of the point *)
Lemma dirs : exists N0 N1 N2, one_dir (f_c0 f) (dimn f 0) (vx p) N0 /\ one_dir (f_c1 f) (dimn f 1) (vy p) N1 /\ one_dir (f_c2 f) (dimn f 2) (vz p) N2.
Proof.
  destruct (curve_fits f s 0 C So Sp ltac:(lia)) as (u0 & F0 & _). destruct (curve_fits f s 1 C So Sp ltac:(lia)) as (u1 & F1 & _). destruct (curve_fits f s 2 C So Sp ltac:(lia)) as (u2 & F2 & _).
  pose proof (In 0%nat ltac:(lia)) as I0. pose proof (In 1%nat ltac:(lia)) as I1. pose proof (In 2%nat ltac:(lia)) as I2. fold p in I0, I1, I2. cbn [vent] in I0, I1, I2.
  destruct (direction _ _ _ _ _ _ F0 I0) as (k0 & _ & _ & O0). destruct (direction _ _ _ _ _ _ F1 I1) as (k1 & _ & _ & O1). destruct (direction _ _ _ _ _ _ F2 I2) as (k2 & _ & _ & O2).
  do 3 eexists. split; [exact O0|]. split; [exact O1|exact O2].
Qed.
Variables N0 N1 N2 : nat -> R.
Hypothesis E0 : one_dir (f_c0 f) (dimn f 0) (vx p) N0.
Hypothesis E1 : one_dir (f_c1 f) (dimn f 1) (vy p) N1.
Hypothesis E2 : one_dir (f_c2 f) (dimn f 2) (vz p) N2.
Hypothesis Wp : positive_weights f.
Lemma finish_is f' h (m : vec) : f_global f' = f_global f' -> snd h <> 0 -> (forall i, (i < 3)%nat -> vent m i = vent (fst h) i / snd h) ->
  finish f' s q p h = Some (displaced s (f_global f') q m).
Proof.
  intros _ W M. pose proof (M 0%nat ltac:(lia)) as M0. pose proof (M 1%nat ltac:(lia)) as M1. pose proof (M 2%nat ltac:(lia)) as M2. cbn [vent] in M0, M1, M2.
  destruct (gl_reach _ _ (co_good _ _ C)) as (k & Re).
  destruct (span_pos k s 0 Re So ltac:(lia)) as [_ S0]. destruct (span_pos k s 1 Re So ltac:(lia)) as [_ S1]. destruct (span_pos k s 2 Re So ltac:(lia)) as [_ S2]. cbn [vent] in S0, S1, S2.
  unfold finish. destruct (Req_EM_T (snd h) 0); [contradiction|]. unfold displaced. destruct (f_global f').
  - f_equal. destruct m as [m0 m1 m2]. cbn [vx vy vz] in *. f_equal; symmetry; assumption.
  - assert (Z : forall y z, 0 < z -> rdiv y (snd h * z) = Some (y / snd h / z)).
    { intros y z Hz. unfold rdiv. destruct (Req_EM_T _ 0) as [Q|_]; [apply Rmult_integral in Q; lra|]. f_equal. field. split; lra. }
    rewrite !Z by assumption. cbn [bind]. rewrite <- M0, <- M1, <- M2. reflexivity.
Qed.
Lemma evaluate_sum f' : like f f' -> length (f_displ f') = nodes f ->
  exists m, evaluate f' q = Some (displaced s (f_global f') q m) /\
    forall i, (i < 3)%nat -> vent m i = sum_nodes f (fun a b c => share f N0 N1 N2 (f_weights f) a b c * vent (nth (numb f a b c) (f_displ f') vzero) i) / sum_nodes f (share f N0 N1 N2 (f_weights f)).
Proof.
  intros L LD. pose proof (co_good _ _ C) as G.
  destruct (nested_is f s p N0 N1 N2 G E0 E1 E2 (co_order _ _ C) (f_weights f) (f_displ f') (co_weights _ _ C) LD) as (h & Ne & Hw & Hv).
  pose proof (all_pos f s p N0 N1 N2 G E0 E1 E2 (f_weights f) (co_weights _ _ C) Wp) as P.
  exists (V3 (vx (fst h) / snd h) (vy (fst h) / snd h) (vz (fst h) / snd h)). split.
  - unfold evaluate. assert (Sh : m_shape (f_mesh f') = Some s). { destruct L as (Ll & _). unfold f_mesh. rewrite Ll. apply (gl_shape _ _ G). }
    rewrite Sh. cbn [bind]. cbv zeta. fold p. rewrite (nested_like f f') by exact L.
    rewrite (nested_ext _ _ _ (fun index x => do g <- recover f (f_weights f) index; do d <- recover f (f_displ f') index; Some (vscale (x * g) d, x * g))).
    2:{ intros i x. rewrite !(recover_like f f') by exact L. destruct L as (_ & _ & -> & _). reflexivity. }
    rewrite Ne. cbn [bind]. apply finish_is; [reflexivity|rewrite Hw; lra|]. intros [|[|[|i]]] Hi; try reflexivity; lia.
  - intros i Hi. rewrite <- Hw, <- Hv by exact Hi. destruct i as [|[|[|i]]]; try reflexivity; lia.
Qed.
Lemma mix_vent n lam D i : (i < 3)%nat -> vent (mix n lam D) i = rsum n (fun k => lam k * vent (nth k D vzero) i).
Proof. intros Hi. unfold mix, vtotal. destruct i as [|[|[|i]]]; try lia; cbn [vent vx vy vz]; apply rsum_ext; intros k _; reflexivity. Qed.
Lemma vent_ext a b : (forall i, (i < 3)%nat -> vent a i = vent b i) -> a = b.
Proof.
  intros H. pose proof (H 0%nat ltac:(lia)) as H0. pose proof (H 1%nat ltac:(lia)) as H1. pose proof (H 2%nat ltac:(lia)) as H2. destruct a, b. cbn in *. congruence.
Qed.
Lemma evaluate_mix f' : like f f' -> length (f_displ f') = nodes f ->
  evaluate f' q = Some (displaced s (f_global f') q (mix (nodes f) (lambda f N0 N1 N2 (f_weights f)) (f_displ f'))).
Proof.
  intros L LD. destruct (evaluate_sum f' L LD) as (m & E & M). rewrite E. f_equal. f_equal. apply vent_ext. intros i Hi. rewrite M, mix_vent by exact Hi.
  symmetry. apply (lambda_sum f s p N0 N1 N2 (co_good _ _ C) E0 E1 E2 (f_weights f) (fun k => vent (nth k (f_displ f') vzero) i)).
Qed.
End One.
Lemma evaluate_shares f s q : core f s -> ShapeSpec.solid s -> spaced f s -> positive_weights f -> in_box s q ->
  exists lam, shares (nodes f) lam /\ forall f', like f f' -> length (f_displ f') = nodes f ->
    evaluate f' q = Some (displaced s (f_global f') q (mix (nodes f) lam (f_displ f'))).
Proof.
  intros C So Sp Wp In. destruct (dirs f s q C So Sp In) as (N0 & N1 & N2 & E0 & E1 & E2). exists (lambda f N0 N1 N2 (f_weights f)).
  pose proof (co_good _ _ C) as G. split; [split|].
  - intros i. apply (lambda_pos f s (toLocalCoord s q) N0 N1 N2 G E0 E1 E2 _ (co_weights _ _ C) Wp).
  - apply (lambda_one f s (toLocalCoord s q) N0 N1 N2 G E0 E1 E2 _ (co_weights _ _ C) Wp).
  - intros f' L LD. apply evaluate_mix; assumption.
Qed.

(** ** The list of vertices *)
Lemma loop_map {A B} (F : A -> option B) l : forall r r', loop (fun a r => do d <- F a; Some (r ++ [d])) l r = Some r' ->
  exists ds, r' = r ++ ds /\ Forall2 (fun a d => F a = Some d) l ds.
Proof.
  induction l as [|a l IH]; cbn [loop]; intros r r' H.
  - injection H as <-. exists []. split; [now rewrite app_nil_r|constructor].
  - destruct (F a) as [d|] eqn:E; [|discriminate]. cbn [bind] in H. destruct (IH _ _ H) as (ds & -> & Fa). exists (d :: ds). rewrite <- app_assoc. split; [reflexivity|]. constructor; assumption.
Qed.
Lemma loop_map_ok {A B} (F : A -> option B) l : (forall a, In a l -> exists d, F a = Some d) -> forall r, exists r', loop (fun a r => do d <- F a; Some (r ++ [d])) l r = Some r'.
Proof.
  induction l as [|a l IH]; intros H r; cbn [loop]; [eauto|]. destruct (H a (or_introl eq_refl)) as [d ->]. cbn [bind]. apply IH. intros b Hb. apply H. right. exact Hb.
Qed.
Lemma filtered_is fd ids : forall ds ds', length ids = length ds -> filtered fd ids ds = Some ds' ->
  Forall2 (fun '(id, d) d' => exists k, find id fd = Some k /\ d' = vscale k d) (combine ids ds) ds'.
Proof.
  induction ids as [|id ids IH]; intros [|d ds] ds' L H; try discriminate L; cbn [filtered combine] in *.
  - injection H as <-. constructor.
  - destruct (find id fd) as [k|] eqn:E; [|discriminate]. cbn [bind] in H. destruct (filtered fd ids ds) as [r|] eqn:Er; [|discriminate]. cbn [bind] in H. injection H as <-.
    constructor; [exists k; split; [exact E|reflexivity]|]. apply IH; [cbn in L; lia|exact Er].
Qed.
Lemma filtered_ok fd ids : (forall id, In id ids -> exists k, find id fd = Some k) -> forall ds, exists ds', filtered fd ids ds = Some ds'.
Proof.
  induction ids as [|id ids IH]; intros H [|d ds]; cbn [filtered]; eauto. destruct (H id (or_introl eq_refl)) as [k ->]. cbn [bind].
  destruct (IH (fun i Hi => H i (or_intror Hi)) ds) as [r ->]. cbn [bind]. eauto.
Qed.
Lemma fold_set_in (P : nat -> vec -> Prop) ids : forall ds z id, Forall2 P ids ds -> In id ids ->
  exists v, find id (fold_left (fun l '(id, d) => set id d l) (combine ids ds) z) = Some v /\ P id v.
Proof.
  assert (K : forall ids ds z id v, Forall2 P ids ds -> find id z = Some v -> P id v ->
    exists v, find id (fold_left (fun l '(id, d) => set id d l) (combine ids ds) z) = Some v /\ P id v).
  { clear ids. intros ids ds z id v F. revert z v. induction F as [|i d ids ds Pd F IH]; intros z v Z Pv; cbn [combine fold_left].
    - exists v. split; assumption.
    - destruct (Nat.eqb_spec i id) as [<-|Ne].
      + apply (IH _ d); [rewrite find_set, Nat.eqb_refl; reflexivity|exact Pd].
      + apply (IH _ v); [rewrite find_set; destruct (Nat.eqb_spec i id); [contradiction|exact Z]|exact Pv]. }
  intros ds z id F I. revert z. induction F as [|i d ids ds Pd F IH]; intros z; [destruct I|]. cbn [combine fold_left]. destruct (Nat.eq_dec i id) as [<-|Ne].
  - apply (K _ _ _ _ d F); [rewrite find_set, Nat.eqb_refl; reflexivity|exact Pd].
  - apply IH. destruct I as [->|I]; [contradiction|exact I].
Qed.
Lemma fold_set_out ids : forall (ds : list vec) z id, ~ In id ids -> find id (fold_left (fun l '(id, d) => set id d l) (combine ids ds) z) = find id z.
Proof.
  induction ids as [|i ids IH]; intros [|d ds] z id N; cbn [combine fold_left]; try reflexivity. rewrite IH by (intros X; apply N; right; exact X).
  rewrite find_set. destruct (Nat.eqb_spec i id) as [->|_]; [destruct N; left; reflexivity|reflexivity].
Qed.
Lemma set_keys {A} id (v : A) l : In id (map fst l) -> map fst (set id v l) = map fst l.
Proof.
  induction l as [|[k w] l IH]; cbn [map fst In]; [tauto|]. intros H. cbn [set]. destruct (Nat.eqb_spec k id) as [->|Ne]; cbn [map fst]; [reflexivity|].
  f_equal. apply IH. destruct H as [->|H]; [contradiction|exact H].
Qed.
Lemma fold_set_keys ids : forall (ds : list vec) z, incl ids (map fst z) -> map fst (fold_left (fun l '(id, d) => set id d l) (combine ids ds) z) = map fst z.
Proof.
  induction ids as [|i ids IH]; intros [|d ds] z I; cbn [combine fold_left]; try reflexivity.
  assert (J : In i (map fst z)) by (apply I; left; reflexivity). rewrite IH; [apply set_keys, J|]. rewrite set_keys by exact J. intros x X. apply I. right. exact X.
Qed.

(** ** Executions *)
Lemma listed_affected s g id : good_geo g -> In id (listed s g) <-> affected s g id.
Proof.
  intros Gg. unfold listed, affected. destruct (ge_skd_ok g); [|reflexivity]. unfold getVertexFromCellList. rewrite nodup_In, in_flat_map.
  destruct Gg as ((_ & Nc & _) & _). split.
  - intros (c & Ic & V). exists c, (vertices_of (p_cells (ge_patch g)) c). split; [exact Ic|]. split; [|exact V].
    clear - V. induction (p_cells (ge_patch g)) as [|[d vs] r IH]; cbn [vertices_of] in *; [destruct V|]. destruct (Nat.eqb_spec c d) as [->|Ne]; [left; reflexivity|right; apply IH, V].
  - intros (c & vs & Ic & Iv & I). exists c. split; [exact Ic|]. rewrite (vertices_at _ c vs Nc Iv). exact I.
Qed.
Lemma affected_vertex s g id : good_geo g -> affected s g id -> In id (map fst (p_verts (ge_patch g))).
Proof.
  intros Gg A. unfold affected in A. destruct (ge_skd_ok g).
  - destruct A as (c & vs & _ & Iv & I). destruct Gg as ((_ & _ & V) & _). apply (proj2 (V c vs Iv)), I.
  - destruct (cloud_sound s g id Gg A) as (p & P & _). apply in_map_iff. exists (id, p). split; [reflexivity|exact P].
Qed.
Lemma Forall2_in {A B} (P : A -> B -> Prop) l l' : Forall2 P l l' -> forall b, In b l' -> exists a, In a l /\ P a b.
Proof. induction 1 as [|a b l l' H F IH]; intros x [].
  - subst x. exists a. split; [left; reflexivity|exact H].
  - destruct (IH x H0) as (y & Y & Py). exists y. split; [right; exact Y|exact Py].
Qed.
Lemma find_const_all (l : list nat) (v : vec) id : In id l -> find id (map (fun id => (id, v)) l) = Some v.
Proof. induction l as [|i l IH]; [intros []|]. cbn [map find]. intros H. destruct (Nat.eqb_spec i id); [reflexivity|]. apply IH. destruct H; [contradiction|assumption]. Qed.

Section Exec.
Variables (G : geometries) (g : nat).
Hypothesis Wf : forall k, good_geo (G k).
Let vs := p_verts (ge_patch (G g)).
Fact Ndv k : NoDup (map fst (p_verts (ge_patch (G k)))).
Proof. destruct (Wf k) as ((N & _) & _). exact N. Qed.
Fact Wfs : wf_store (solids G).
Proof. intros k. exact (Ndv k). Qed.
Lemma bind_some {A B} (o : option A) (k : A -> option B) r : (do x <- o; k x) = Some r -> exists x, o = Some x /\ k x = Some r.
Proof. destruct o as [x|]; [|discriminate]. cbn [bind]. eauto. Qed.

Variables (f : ffd) (s : shape) (fl : fld R).
Hypothesis C : core f s.
Hypothesis Fg : f_geo f = Some g.
Hypothesis Ff : f_filter f = fl.
Hypothesis Fb : f_bfilter f = size fl.
Hypothesis Nfl : distinct_ids (fd_data fl).
Lemma listed_incl : incl (listed s (G g)) (map fst vs).
Proof. intros id I. apply (affected_vertex s (G g) id (Wf g)). apply listed_affected; [apply Wf|exact I]. Qed.

Definition outcome (id : nat) (v : vec) : Prop :=
  exists d k, evaluate f (coords vs id) = Some d /\ factor g vs fl id k /\ v = vscale k d.
Lemma vscale_one v : vscale 1 v = v.
Proof. destruct v. unfold vscale. cbn. f_equal; ring. Qed.
Lemma apply_list_is ids ds fl' : apply_list G f = Some (ids, ds, fl') -> ids = listed s (G g) /\ Forall2 outcome ids ds.
Proof.
  unfold apply_list. rewrite Fg, (co_built _ _ C). cbn [negb]. rewrite (gl_shape _ _ (co_good _ _ C) : m_shape (f_mesh f) = Some s). cbn [bind]. intros H.
  apply bind_some in H. destruct H as (r & Er & H). unfold evaluate_list in Er. apply bind_some in Er. destruct Er as (_ & _ & Er). apply bind_some in Er. destruct Er as (_ & _ & Er).
  destruct (loop_map _ _ _ _ Er) as (r' & Rr & F). cbn [List.app] in Rr. subst r'. clear Er. fold vs in F.
  rewrite Fb, Ff in H. pose proof (checkFilter_ok (solids G) g fl Wfs Nfl) as CF. unfold size in H. destruct (fd_data fl) as [|e l0] eqn:Ed.
  - injection H as <- <- <-. split; [reflexivity|]. clear - F Ed. induction F as [|id d ids ds E F IH]; constructor; [|exact IH].
    exists d, 1. split; [exact E|]. split; [left; split; [exact Ed|reflexivity]|symmetry; apply vscale_one].
  - apply bind_some in H. destruct H as (fl1 & Ef & H). apply bind_some in H. destruct H as (r1 & E1 & H). injection H as <- <- <-. split; [reflexivity|].
    destruct CF as (fl2 & Ef2 & _ & _ & _ & _ & K). rewrite Ef in Ef2. injection Ef2 as <-.
    assert (Len : length (listed s (G g)) = length r) by (clear - F; induction F; cbn [length]; congruence).
    pose proof (filtered_is _ _ _ _ Len E1) as Fi. clear E1 Len.
    assert (Inc := listed_incl). revert Inc Fi. revert F. generalize (listed s (G g)). intros ids. clear - Ed K. intros F. revert r1.
    induction F as [|id d ids ds E F IH]; intros r1 Inc Fi; cbn [combine] in Fi; inversion Fi as [|x1 x2 x3 x4 Hk Fi' X1 X2]; [constructor|]. destruct Hk as (k & Ek & Ev).
    constructor; [|apply IH; [intros i I; apply Inc; right; exact I|exact Fi']].
    destruct (K id (Inc id (or_introl eq_refl))) as (k' & Ek' & W). rewrite Ek in Ek'. injection Ek' as <-.
    exists d, k. split; [exact E|]. split; [right; split; [rewrite Ed; discriminate|exact W]|exact Ev].
Qed.
Lemma execute_is f' : ffd_execute G f = Some f' ->
  exists data, f_gdispl f' = Fd (Some g) LPoint data /\ map fst data = map fst vs /\
    (forall id, affected s (G g) id -> exists v, In (id, v) data /\ outcome id v) /\
    (forall id, In id (map fst vs) -> ~ affected s (G g) id -> In (id, vzero) data).
Proof.
  unfold ffd_execute. rewrite Fg. cbn [bind]. rewrite (co_built _ _ C). cbn [bind]. intros H. apply bind_some in H. destruct H as ([[ids ds] fl'] & Ea & H).
  fold vs in H. apply bind_some in H. destruct H as (z & Ez & H).
  rewrite insert_all_ok in Ez by (cbn [map List.app]; apply Ndv). cbn [List.app] in Ez. injection Ez as <-.
  apply (f_equal (fun o => match o with Some p => p | None => f end)) in H. subst f'. cbn [with_result f_gdispl].
  destruct (apply_list_is ids ds fl' Ea) as [-> F]. eexists. split; [reflexivity|].
  assert (Kz : map fst (map (fun id : nat => (id, vzero)) (map fst vs)) = map fst vs) by (rewrite map_map; apply map_id).
  assert (Kd : map fst (fold_left (fun l '(id, d) => set id d l) (combine (listed s (G g)) ds) (map (fun id : nat => (id, vzero)) (map fst vs))) = map fst vs).
  { rewrite fold_set_keys; [exact Kz|]. rewrite Kz. exact listed_incl. }
  split; [exact Kd|]. split.
  - intros id A. apply listed_affected in A; [|apply Wf]. destruct (fold_set_in outcome _ ds (map (fun id : nat => (id, vzero)) (map fst vs)) id F A) as (v & Fv & O).
    exists v. split; [apply (ManipProofs.find_in _ _ _ _ Fv)|exact O].
  - intros id I A. apply (ManipProofs.find_in _ id). rewrite fold_set_out; [apply find_const_all, I|]. intros X. apply A. apply listed_affected; [apply Wf|exact X].
Qed.
Lemma recover_all_ok {A} (v : list A) : length v = nodes f -> recover_all f v = Some tt.
Proof.
  intros L. unfold recover_all. destruct (getDimension (f_mesh f)) as [[a b] c] eqn:D.
  assert (Np : num_points (f_mesh f) = (a * b * c)%Z) by (unfold num_points, MeshSpec.dim; rewrite D; reflexivity).
  destruct (numbers (f_lat f) s (co_good _ _ C)) as (_ & Nu & _).
  assert (K : forall n l, (forall i, In i l -> (Z.of_nat i < n)%Z) -> (n <= num_points (f_mesh f))%Z -> loop (fun i _ => do _ <- recover f v (Z.of_nat i); Some tt) l tt = Some tt).
  { intros n l. induction l as [|i l IH]; intros Hl Hn; cbn [loop]; [reflexivity|]. pose proof (Hl i (or_introl eq_refl)).
    destruct (Nu (Z.of_nat i)) as (d & Ed & Rd); [unfold f_mesh in *; lia|]. unfold recover. unfold accessDOFFromGrid in Ed. rewrite Ed. cbn [bind].
    unfold nodes in L. destruct v as [|x v'].
    - cbn [length] in L. lia.
    - rewrite (zget_nth _ _ x) by lia. cbn [bind]. apply IH; [intros j J; apply Hl; right; exact J|exact Hn]. }
  apply (K (num_points (f_mesh f))); [|lia]. intros i I. apply in_seq in I. lia.
Qed.
Lemma execute_total : length (f_displ f) = nodes f ->
  (forall id, affected s (G g) id -> exists d, evaluate f (coords vs id) = Some d) -> exists f', ffd_execute G f = Some f'.
Proof.
  intros LD Ev. unfold ffd_execute. rewrite Fg. cbn [bind]. rewrite (co_built _ _ C). cbn [bind]. unfold apply_list. rewrite Fg, (co_built _ _ C). cbn [negb].
  rewrite (gl_shape _ _ (co_good _ _ C) : m_shape (f_mesh f) = Some s). cbn [bind]. unfold evaluate_list.
  rewrite (recover_all_ok (f_displ f)), (recover_all_ok (f_weights f)) by (exact LD || apply (co_weights _ _ C)). cbn [bind].
  destruct (loop_map_ok (fun id => evaluate f (coords (p_verts (ge_patch (G g))) id)) (listed s (G g))) with (r := @nil vec) as (r & Er).
  { intros id I. apply Ev. apply listed_affected; [apply Wf|exact I]. }
  rewrite Er. cbn [bind]. rewrite (insert_all_ok (map fst (p_verts (ge_patch (G g)))) vzero []) by (cbn [map List.app]; apply Ndv).
  rewrite Fb, Ff. destruct (size fl).
  - destruct (checkFilter_ok (solids G) g fl Wfs Nfl) as (fl2 & Ef2 & _ & _ & _ & _ & K). rewrite Ef2. cbn [bind].
    destruct (filtered_ok (fd_data fl2) (listed s (G g))) with (ds := r) as (r' & Er').
    { intros id I. destruct (K id (listed_incl id I)) as (k & Ek & _). eauto. }
    rewrite Er'. cbn [bind]. eauto.
  - cbn [bind]. eauto.
Qed.
End Exec.
