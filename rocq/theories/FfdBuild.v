(** Building lattices: it succeeds, and what it does to weights and displacements. *)
From Coq Require Import Reals List Arith ZArith Bool Lia Lra.
From Verif Require Import Vec SharedPtr Field Shape ShapeSpec ShapeSel ShapeSelSpec ShapeSelProofs Mesh MeshSpec MeshProofs MeshBuild Lattice LatticeSpec LatticeProofs LatticeNumber LatticeBuild Manip ManipSpec Ffd FfdSpec FfdBasis FfdKnots FfdCurve FfdSums FfdEval FfdReady FfdProofs.
Import ListNotations.
Open Scope R_scope.

Lemma structure_total t dim deg w o : (1 <= deg < dim)%nat -> 0 < w -> o = 0 \/ o <= - / 2 -> (t = PERIODIC \/ t = SYMMETRIC -> 2 * tol <= w / INR (dim - 1)) ->
  exists c, setKnotsStructure t dim deg w o = Some c.
Proof.
  intros D W O Wd. destruct t.
  - destruct (unclamped_fits dim deg o w D W) as (c & E & _). eauto.
  - destruct (clamped_knots dim deg o w D) as (k & E & _). unfold setKnotsStructure. rewrite E. cbn [bind]. eauto.
  - destruct (uniform_fits dim deg o w D W O (Wd (or_introl eq_refl)) PERIODIC (or_introl eq_refl)) as (c & E & _). eauto.
  - destruct (uniform_fits dim deg o w D W O (Wd (or_intror eq_refl)) SYMMETRIC (or_intror eq_refl)) as (c & E & _). eauto.
Qed.
Lemma loop_ok {A B} (g : B -> list A -> option (list A)) n ls :
  (forall b l, In b ls -> length l = n -> exists l', g b l = Some l' /\ length l' = n) -> forall l, length l = n -> exists l', loop g ls l = Some l'.
Proof.
  induction ls as [|b ls IH]; intros K l L; cbn [loop]; [eauto|]. destruct (K b l (or_introl eq_refl) L) as (l' & -> & L'). cbn [bind].
  apply IH; [|exact L']. intros b' l0 I. apply K. right. exact I.
Qed.
Lemma build_total f0 s : mreach any (f_mesh f0) -> m_shape (f_mesh f0) = Some s -> ShapeSpec.solid s ->
  (forall d, (d < 3)%nat -> coord_type s d = PERIODIC \/ coord_type s d = SYMMETRIC ->
     2 / 10 ^ 12 <= vent (s_span s) d / IZR (Z.max (MeshSpec.dim (f_mesh f0) d) (min_points (s_kind s) d) - 1)) ->
  (forall l, lat_build (f_lat f0) = Some (true, l) -> Forall (fun '(i, _) => (0 <= i < getNNodes l)%Z) (f_collect f0)) ->
  exists f1, build f0 = Some (true, f1) /\ m_shape (f_mesh f1) = Some s /\
    (forall d, (d < 3)%nat -> MeshSpec.dim (f_mesh f1) d = Z.max (MeshSpec.dim (f_mesh f0) d) (min_points (s_kind s) d)) /\
    (forall d, (d < 3)%nat -> MeshSpec.comp (f_deg f1) d = Z.min (MeshSpec.dim (f_mesh f1) d - 1) (Z.max 1 (MeshSpec.comp (f_deg f0) d))).
Proof.
  intros R Sh So Wd Co. unfold f_mesh in Sh. pose proof (lat_build_is (f_lat f0) s Sh) as LB. cbn zeta in LB.
  destruct (build_facts (l_mesh (f_lat f0)) s Sh) as (_ & Bu & Sh' & Dm & _). cbn zeta in Bu, Sh', Dm.
  set (m := snd (mesh_build (l_mesh (f_lat f0)))) in *. set (l := La m (reduceDimToDOF (Some s) (dim m 0) (dim m 1) (dim m 2)) (labels (LatticeProofs.size m) (repn m))) in *.
  specialize (Co l LB). unfold build. rewrite LB. cbn [bind]. destruct (f_deg f0) as [[d0 d1] d2] eqn:Dg. cbv zeta.
  change (l_mesh l) with m. rewrite Sh'.
  assert (Gd : good_lat l s). { apply built_good. split; [exists (f_lat f0); split; [exact R|exact LB]|exact Sh']. }
  assert (Nn : (0 <= l_np l)%Z) by (rewrite (gl_np _ _ Gd); lia).
  destruct (loop_ok (fun '(i, x) w => zset w i x) (Z.to_nat (l_np l)) (f_collect f0)) with (l := repeat 1 (Z.to_nat (l_np l))) as (w & Ew).
  { intros [i x] l0 I L. rewrite Forall_forall in Co. assert (Ri : (0 <= i < l_np l)%Z) by exact (Co _ I). clearbody l. unfold zset.
    rewrite (proj2 (Z.leb_le _ _)), (proj2 (Z.ltb_lt _ _)) by lia. cbn [andb]. eexists. split; [reflexivity|]. rewrite upd_len. exact L. }
  { apply repeat_length. }
  rewrite Ew. cbn [bind].
  destruct (dim_eqs m) as (E0 & E1 & E2). destruct (gl_reach _ _ Gd) as (k & Re).
  assert (Ok : forall d e, (d < 3)%nat -> exists c, setKnotsStructure (coord_type s d) (Z.to_nat (dim m d)) (Z.to_nat (Z.min (dim m d - 1) (Z.max 1 e))) (vent (s_span s) d) (vent (getLocalOrigin s) d) = Some c).
  { intros d e Hd. pose proof (Dm d Hd) as De. assert (2 <= min_points (s_kind s) d)%Z by (destruct (s_kind s); destruct d as [|[|[|d]]]; cbn; lia).
    destruct (span_pos k s d Re So Hd) as [W _]. apply structure_total; [lia|exact W|apply origin_cases, Hd|]. intros T. pose proof (Wd d Hd T) as X. unfold f_mesh in X. rewrite <- De in X.
    unfold tol. rewrite INR_IZR_INZ. replace (Z.of_nat (Z.to_nat (dim m d) - 1)) with (dim m d - 1)%Z by lia. lra. }
  destruct (Ok 0%nat d0 ltac:(lia)) as (c0 & C0). destruct (Ok 1%nat d1 ltac:(lia)) as (c1 & C1). destruct (Ok 2%nat d2 ltac:(lia)) as (c2 & C2).
  cbn [coord_type vent] in C0, C1, C2. rewrite E0 in C0. rewrite E1 in C1. rewrite E2 in C2.
  replace (a_n (m_x m) + 1 - 1)%Z with (a_n (m_x m)) in C0 by lia. replace (a_n (m_y m) + 1 - 1)%Z with (a_n (m_y m)) in C1 by lia. replace (a_n (m_z m) + 1 - 1)%Z with (a_n (m_z m)) in C2 by lia.
  rewrite C0. cbn [bind]. rewrite C1. cbn [bind]. rewrite C2. cbn [bind]. eexists. split; [reflexivity|]. unfold f_mesh. cbn [f_lat f_deg]. split; [exact Sh'|]. split; [exact Dm|].
  intros d Hd. change (l_mesh l) with m. destruct d as [|[|[|d]]]; [| | |lia]; cbn [MeshSpec.comp]; rewrite ?E0, ?E1, ?E2; f_equal; lia.
Qed.

(** ** Displacements and weights *)
Ltac opened B :=
  unfold build in B;
  match type of B with (do (_, _) <- ?e; _) = _ => destruct e as [[check l]|] eqn:Lb; [|discriminate] end; cbn [bind] in B;
  match type of B with context [f_deg ?f] => destruct (f_deg f) as [[d0 d1] d2] end; cbv zeta in B;
  match type of B with (do _ <- ?e; _) = _ => destruct e as [w|] eqn:W; [|discriminate] end; cbn [bind] in B;
  match type of B with (do _ <- ?e; _) = _ => destruct e as [s|] eqn:Sh; [|discriminate] end; cbn [bind] in B;
  match type of B with (do _ <- ?e; _) = _ => destruct e as [c0|] eqn:C0; [|discriminate] end; cbn [bind] in B;
  match type of B with (do _ <- ?e; _) = _ => destruct e as [c1|] eqn:C1; [|discriminate] end; cbn [bind] in B;
  match type of B with (do _ <- ?e; _) = _ => destruct e as [c2|] eqn:C2; [|discriminate] end; cbn [bind] in B.
Lemma build_displ f0 b f1 : build f0 = Some (b, f1) ->
  length (f_displ f1) = nodes f1 /\ forall i, (i < nodes f1)%nat -> nth i (f_displ f1) vzero = nth i (f_displ f0) vzero.
Proof.
  intros B. opened B. apply (f_equal (fun o => match o with Some p => snd p | None => f0 end)) in B. cbn [snd] in B. subst f1. cbn [f_displ]. unfold nodes, getNNodes. cbn [f_lat].
  generalize (Z.to_nat (l_np l)). intros n. unfold resize_to. split; [rewrite app_length, firstn_length, repeat_length; lia|]. intros i Hi.
  destruct (le_lt_dec (length (f_displ f0)) i) as [L|L].
  - rewrite (nth_overflow (f_displ f0)) by exact L. rewrite app_nth2 by (rewrite firstn_length; lia). apply nth_repeat.
  - rewrite app_nth1 by (rewrite firstn_length; lia). rewrite <- (firstn_skipn n (f_displ f0)) at 2. rewrite app_nth1 by (rewrite firstn_length; lia). reflexivity.
Qed.
Lemma build_weights f0 b f1 : build f0 = Some (b, f1) -> f_collect f1 = [] /\ loop (fun '(i, x) w => zset w i x) (f_collect f0) (repeat 1 (nodes f1)) = Some (f_weights f1) /\
  lat_build (f_lat f0) = Some (b, f_lat f1).
Proof.
  intros B. opened B. pose proof (f_equal (fun o => match o with Some p => fst p | None => false end) B) as Bb. apply (f_equal (fun o => match o with Some p => snd p | None => f0 end)) in B. cbn [fst snd] in B, Bb. subst f1. cbn [f_collect f_weights f_lat]. unfold nodes, getNNodes. cbn [f_lat]. subst b.
  split; [reflexivity|]. split; [exact W|reflexivity].
Qed.
(** the value a list of pairs gives to a key *)
Fixpoint latest (l : list (Z * R)) (d : Z) (x : R) : R := match l with [] => x | (i, w) :: r => latest r d (if Z.eqb i d then w else x) end.
Lemma zset_get {A} (l : list A) i x l' d y : zset l i x = Some l' -> zget l d = Some y -> zget l' d = Some (if Z.eqb i d then x else y).
Proof.
  unfold zset. destruct (Z.leb 0 i && Z.ltb i (Z.of_nat (length l)))%bool eqn:B; [|discriminate]. apply andb_prop in B. destruct B as [B1 B2]. apply Z.leb_le in B1. apply Z.ltb_lt in B2.
  intros E. injection E as <-. unfold zget. destruct (Z.ltb_spec d 0) as [N|N]; [discriminate|]. intros Q. pose proof Q as Q'.
  assert (L : (Z.to_nat d < length l)%nat) by (apply nth_error_Some; rewrite Q; discriminate).
  apply (nth_error_nth _ _ y) in Q'. rewrite (nth_error_nth' _ y) by (rewrite upd_len; exact L). rewrite nth_upd by lia. rewrite Q'. f_equal.
  destruct (Nat.eqb_spec (Z.to_nat d) (Z.to_nat i)) as [E|E], (Z.eqb_spec i d) as [E'|E']; try reflexivity; lia.
Qed.
Lemma loop_get ls : forall l l' d x, loop (fun '(i, x) w => zset w i x) ls l = Some l' -> zget l d = Some x -> zget l' d = Some (latest ls d x).
Proof.
  induction ls as [|[i w] ls IH]; intros l l' d x H G; cbn [loop latest] in *; [injection H as <-; exact G|].
  destruct (zset l i w) as [l1|] eqn:E; [|discriminate]. cbn [bind] in H. apply (IH l1); [exact H|]. apply (zset_get l i w l1 d x E G).
Qed.
Lemma latest_collect l i w d x : NoDup (map fst l) -> latest (collect l i w) d x = if Z.eqb i d then w else latest l d x.
Proof.
  revert x. induction l as [|[j v] l IH]; intros x N; cbn [collect latest]; [reflexivity|]. apply NoDup_cons_iff in N. destruct N as [Nj N].
  destruct (Z.eqb_spec i j) as [->|Ne]; cbn [latest].
  - destruct (Z.eqb_spec j d) as [->|Nd]; [|reflexivity]. assert (K : forall x, latest l d x = x); [|apply K].
    clear - Nj. induction l as [|[i w] l IH]; intros x; cbn [latest]; [reflexivity|]. destruct (Z.eqb_spec i d) as [->|_]; [destruct Nj; left; reflexivity|]. apply IH. intros I. apply Nj. right. exact I.
  - rewrite IH by exact N. reflexivity.
Qed.
Lemma collect_in l i w k : In k (map fst (collect l i w)) -> k = i \/ In k (map fst l).
Proof.
  induction l as [|[j v] l IH]; cbn [collect map fst]; [intros [<-|[]]; left; reflexivity|].
  destruct (Z.eqb_spec i j); cbn [map fst In]; [subst; tauto|]. intros [<-|I]; [tauto|]. destruct (IH I); tauto.
Qed.
Lemma collect_keys l i w : NoDup (map fst l) -> NoDup (map fst (collect l i w)).
Proof.
  induction l as [|[j v] l IH]; cbn [collect map fst]; intros N; [constructor; [intros []|constructor]|]. apply NoDup_cons_iff in N. destruct N as [Nj N].
  destruct (Z.eqb_spec i j) as [->|Ne]; cbn [map fst]; [constructor; assumption|]. constructor; [|apply IH; exact N].
  intros I. apply collect_in in I. destruct I; [congruence|contradiction].
Qed.

(** ** Building again *)
Lemma axis_again n lim sp o : build_axis (a_n (build_axis n lim sp o)) lim sp o = build_axis n lim sp o.
Proof. unfold build_axis. cbn [a_n]. replace (Z.max (Z.max n (lim - 1)) (lim - 1)) with (Z.max n (lim - 1)) by lia. reflexivity. Qed.
Lemma mesh_again m0 m s : m_shape m0 = Some s -> m = snd (mesh_build m0) -> forall b, mesh_build (Me (m_shape m) (m_x m) (m_y m) (m_z m) (m_t m) b) = (true, m).
Proof.
  intros Sh -> b. rewrite (build_is m0 s Sh). cbn [snd m_shape m_x m_y m_z m_t]. rewrite (build_is _ s) by reflexivity. cbn [m_shape m_x m_y m_z m_t]. rewrite !axis_again. reflexivity.
Qed.
(** the same mesh, up to the flag *)
Definition same_mesh (m m' : mesh) : Prop := exists b, m' = Me (m_shape m) (m_x m) (m_y m) (m_z m) (m_t m) b.
Lemma same_refl m : same_mesh m m.
Proof. exists (m_built m). destruct m. reflexivity. Qed.
Lemma same_unbuilt m m' : same_mesh m m' -> same_mesh m (unbuilt m').
Proof. intros (b & ->). exists false. reflexivity. Qed.
Lemma build_again f0 f1 f' : build f0 = Some (true, f1) -> same_mesh (f_mesh f1) (f_mesh f') -> f_deg f' = f_deg f1 ->
  Forall (fun '(i, _) => (0 <= i < getNNodes (f_lat f1))%Z) (f_collect f') ->
  exists f2, build f' = Some (true, f2) /\ f_lat f2 = f_lat f1 /\ f_deg f2 = f_deg f1 /\ f_c0 f2 = f_c0 f1 /\ f_c1 f2 = f_c1 f1 /\ f_c2 f2 = f_c2 f1 /\ f_order f2 = f_order f1.
Proof.
  intros B (b & Sm) Dg Co. opened B. pose proof (f_equal (fun o => match o with Some p => fst p | None => false end) B) as Bb. apply (f_equal (fun o => match o with Some p => snd p | None => f0 end)) in B. cbn [fst snd] in B, Bb. subst check.
  destruct (m_shape (l_mesh (f_lat f0))) as [s'|] eqn:S0.
  2:{ unfold lat_build, mesh_build in Lb. rewrite S0 in Lb. destruct (resizeMapDof _) as [[? ?]|]; discriminate. }
  assert (Lm : l_mesh l = snd (mesh_build (l_mesh (f_lat f0)))) by (rewrite (lat_build_is _ s' S0) in Lb; injection Lb as <-; reflexivity).
  assert (Rl : lat_build (f_lat f') = Some (true, l)).
  { unfold lat_build in *. assert (M : l_mesh (f_lat f') = Me (m_shape (l_mesh l)) (m_x (l_mesh l)) (m_y (l_mesh l)) (m_z (l_mesh l)) (m_t (l_mesh l)) b) by (unfold f_mesh in Sm; subst f1; exact Sm).
    rewrite M, (mesh_again _ _ s' S0 Lm b). rewrite <- (surjective_pairing (mesh_build (l_mesh (f_lat f0)))) in Lb || idtac.
    destruct (mesh_build (l_mesh (f_lat f0))) as [c m1]. cbn [snd] in Lm. subst m1. destruct (resizeMapDof (l_mesh l)) as [[np mp]|]; [|discriminate].
    injection Lb as -> El. f_equal. f_equal. exact El. }
  assert (Nn : (0 <= l_np l)%Z).
  { rewrite (lat_build_is _ s' S0) in Lb. apply (f_equal (fun o => match o with Some p => snd p | None => l end)) in Lb. cbn [snd] in Lb. rewrite <- Lb. cbn [l_np].
    pose proof (build_sized (l_mesh (f_lat f0)) s' S0) as Sz. destruct (build_facts _ _ S0) as (_ & _ & Sh2 & _). cbn zeta in Sh2. rewrite <- Sh2, <- (count_total _ Sz). lia. }
  assert (Co' : Forall (fun '(i, _) => (0 <= i < l_np l)%Z) (f_collect f')) by (subst f1; exact Co).
  destruct (loop_ok (fun '(i, x) w => zset w i x) (Z.to_nat (l_np l)) (f_collect f')) with (l := repeat 1 (Z.to_nat (l_np l))) as (w' & Ew).
  { intros [i x] l0 I L. rewrite Forall_forall in Co'. assert (Ri : (0 <= i < l_np l)%Z) by exact (Co' _ I). unfold zset.
    rewrite (proj2 (Z.leb_le _ _)), (proj2 (Z.ltb_lt _ _)) by lia. cbn [andb]. eexists. split; [reflexivity|]. rewrite upd_len. exact L. }
  { apply repeat_length. }
  unfold build. rewrite Rl. cbn [bind]. rewrite Dg. rewrite <- B. cbn [f_deg]. cbv zeta. rewrite Ew. cbn [bind]. rewrite Sh. cbn [bind].
  assert (Mm : forall n d, Z.min n (Z.max 1 (Z.min n (Z.max 1 d))) = Z.min n (Z.max 1 d)) by lia. rewrite !Mm. rewrite C0. cbn [bind]. rewrite C1. cbn [bind]. rewrite C2. cbn [bind].
  eexists. split; [reflexivity|]. cbn [f_lat f_deg f_c0 f_c1 f_c2 f_order]. repeat split.
Qed.

(** ** A sequence of weights *)
Lemma weigh_is f1 calls : forall f f', same_mesh (f_mesh f1) (f_mesh f) -> l_map (f_lat f) = l_map (f_lat f1) -> NoDup (map fst (f_collect f)) ->
  Forall (fun '(i, _) => exists n, accessDOFFromGrid (f_lat f1) n = Some i) (f_collect f) -> weigh f calls = Some f' ->
  same_mesh (f_mesh f1) (f_mesh f') /\ f_deg f' = f_deg f /\ f_displ f' = f_displ f /\ Forall (fun '(i, _) => exists n, accessDOFFromGrid (f_lat f1) n = Some i) (f_collect f') /\
  forall d x, latest (f_collect f') d x = last_weight (f_lat f1) calls d (latest (f_collect f) d x).
Proof.
  induction calls as [|[i w] calls IH]; intros f f' Sm Lm Nd Fa H; cbn [weigh last_weight] in *.
  - apply (f_equal (fun o => match o with Some p => p | None => f end)) in H. subst f'. repeat split; try assumption; reflexivity.
  - unfold setNodalWeight in H. unfold accessDOFFromGrid in H at 1. rewrite Lm in H. change (zget (l_map (f_lat f1)) i) with (accessDOFFromGrid (f_lat f1) i) in H.
    destruct (accessDOFFromGrid (f_lat f1) i) as [e|] eqn:E; [|discriminate]. cbn [bind] in H.
    apply IH in H; cbn [f_lat l_map f_collect f_deg f_displ] in *.
    + destruct H as (A & B & Dd & Ff & La). split; [exact A|]. split; [exact B|]. split; [exact Dd|]. split; [exact Ff|]. intros d x. rewrite La, latest_collect by exact Nd. reflexivity.
    + unfold f_mesh. cbn [f_lat l_mesh]. apply same_unbuilt, Sm.
    + reflexivity.
    + apply collect_keys, Nd.
    + clear - E Fa. induction (f_collect f) as [|[j v] l IH]; cbn [collect]; [constructor; [eauto|constructor]|]. apply Forall_cons_iff in Fa. destruct Fa as [Fj Fl].
      destruct (Z.eqb_spec e j) as [->|_]; constructor; try assumption. apply IH, Fl.
Qed.
Lemma weigh_total f1 calls : (forall i w, In (i, w) calls -> exists d, accessDOFFromGrid (f_lat f1) i = Some d) -> forall f, l_map (f_lat f) = l_map (f_lat f1) -> exists f', weigh f calls = Some f'.
Proof.
  induction calls as [|[i w] calls IH]; intros H f Lm; cbn [weigh]; [eauto|]. destruct (H i w (or_introl eq_refl)) as (d & E).
  unfold setNodalWeight. unfold accessDOFFromGrid at 1. rewrite Lm. change (zget (l_map (f_lat f1)) i) with (accessDOFFromGrid (f_lat f1) i). rewrite E. cbn [bind].
  apply IH; [intros j v I; apply (H j v); right; exact I|reflexivity].
Qed.
Lemma tuned_collect f1 f : f_built f1 = true -> f_collect f1 = [] -> tuned f1 f -> f_collect f = [] /\ f_built f = true.
Proof.
  intros Bu C T. induction T as [|f D T IH|f b T IH|f fl T IH|f g T IH|f G f' T IH E]; try (split; [|exact Bu]; exact C); try exact IH.
  - destruct fl; exact IH.
  - destruct IH as [IC IB]. pose proof (execute_like _ _ _ IB E) as (L & _). unfold ffd_execute in E. destruct (f_geo f) as [g|]; [|discriminate]. cbn [bind] in E. rewrite IB in E. cbn [bind] in E.
    destruct (apply_list G f) as [[[ids ds] fl]|]; [|discriminate]. cbn [bind] in E. destruct (insert_all _ _ _) as [z|]; [|discriminate]. cbn [bind] in E.
    apply (f_equal (fun o => match o with Some p => p | None => f end)) in E. subst f'. split; [exact IC|exact IB].
Qed.
Lemma ready_weights f s calls : ready f s -> (forall i w, In (i, w) calls -> (0 <= i < num_points (f_mesh f))%Z) ->
  exists f1 f2, weigh f calls = Some f1 /\ build f1 = Some (true, f2) /\ ready f2 s /\ f_lat f2 = f_lat f /\ f_deg f2 = f_deg f /\
    (length (f_displ f) = nodes f -> f_displ f2 = f_displ f) /\
    forall d, (0 <= d < getNNodes (f_lat f))%Z -> zget (f_weights f2) d = Some (last_weight (f_lat f) calls d 1).
Proof.
  intros ((f0 & fb & R & B & T) & Sh) Hc. destruct (build_core f0 fb R B) as (s1 & S1 & C & LD).
  destruct (build_weights f0 true fb B) as (Cb & Wb & Lb). pose proof (tuned_like fb f (co_built _ _ C) T) as L.
  assert (s1 = s) by (destruct L as (L & _); unfold f_mesh in *; rewrite L in Sh; congruence). subst s1.
  destruct (tuned_collect fb f (co_built _ _ C) Cb T) as [Cf _]. pose proof (like_core fb f s L C) as Cf'. destruct L as (L & Dg & _ & L0 & L1 & L2 & Lo).
  destruct (numbers (f_lat f) s (co_good _ _ Cf')) as (Ln & Nu & _).
  destruct (weigh_total f calls) with (f := f) as (f1 & Ef1); [|reflexivity|].
  { intros i w I. destruct (Nu i (Hc i w I)) as (d & E & _). eauto. }
  destruct (weigh_is f calls f f1 (same_refl _) eq_refl) as (Sm & Dg1 & Di & Fa & La); [rewrite Cf; constructor|rewrite Cf; constructor|exact Ef1|].
  destruct (build_again f0 fb f1 B) as (f2 & B2 & L2' & Dg2 & Rest).
  { unfold f_mesh in *. rewrite <- L. exact Sm. }
  { congruence. }
  { rewrite <- L. revert Fa. apply Forall_impl. intros [i w] (n & E). unfold accessDOFFromGrid in E. unfold zget in E. destruct (Z.ltb_spec n 0); [discriminate|].
    assert (Hn : (Z.to_nat n < length (l_map (f_lat f)))%nat) by (apply nth_error_Some; rewrite E; discriminate).
    destruct (Nu n) as (d & E' & Rd); [lia|]. unfold accessDOFFromGrid, zget in E'. rewrite (proj2 (Z.ltb_ge n 0)) in E' by lia. rewrite E in E'. injection E' as <-. exact Rd. }
  exists f1, f2. split; [exact Ef1|]. split; [exact B2|].
  assert (Lf : f_lat f2 = f_lat f) by congruence.
  destruct (build_weights f1 true f2 B2) as (_ & W2 & _). split; [split; [exists f1, f2; split; [|split; [exact B2|apply tuned_built]]|unfold f_mesh in *; rewrite Lf; exact Sh]|].
  { assert (Rb : mreach any (f_mesh fb)).
    { apply (mreach_call any (f_mesh f0) MBuild); [exact R|exact I|exact I|]. cbn [mcall]. f_equal. unfold lat_build in Lb. fold (f_mesh f0) in Lb. destruct (mesh_build (f_mesh f0)) as [bb mm]. destruct (resizeMapDof mm) as [[np mp]|]; [|discriminate].
      apply (f_equal (fun o => match o with Some p => l_mesh (snd p) | None => mm end)) in Lb. cbn [snd l_mesh] in Lb. symmetry. unfold f_mesh. rewrite <- Lb. reflexivity. }
    assert (Sm' : same_mesh (f_mesh fb) (f_mesh f1)) by (unfold f_mesh in *; rewrite <- L; exact Sm). destruct Sm' as (b & Eb). destruct b.
    - pose proof (co_built _ _ C) as Bu. unfold f_built in Bu. rewrite <- Bu in Eb. replace (f_mesh f1) with (f_mesh fb); [exact Rb|]. rewrite Eb. destruct (f_mesh fb). reflexivity.
    - apply (mreach_call any (f_mesh fb) (MDim (a_n (m_x (f_mesh fb)) + 1) (a_n (m_y (f_mesh fb)) + 1) (a_n (m_z (f_mesh fb)) + 1))); [exact Rb|exact I|exact I|].
      cbn [mcall]. rewrite Eb. unfold setDimension. rewrite !Z.add_simpl_r. f_equal. destruct (f_mesh fb) as [? [] [] [] ? ?]. reflexivity. }
  split; [exact Lf|]. split; [congruence|]. split.
  - intros LDf. destruct (build_displ f1 true f2 B2) as [Ld Nd]. rewrite Di in Nd. assert (Nn : nodes f2 = nodes f) by (unfold nodes; rewrite Lf; reflexivity). rewrite Nn in *.
    apply (nth_ext _ _ vzero vzero); [congruence|]. intros n Hn. apply Nd. congruence.
  - intros d Hd. rewrite (loop_get _ _ _ d 1 W2), La.
    + rewrite Cf. reflexivity.
    + unfold nodes. rewrite Lf. rewrite (zget_nth _ _ 1) by (rewrite repeat_length; lia). f_equal. apply nth_repeat.
Qed.
