(** What a built lattice satisfies. *)
From Coq Require Import Reals List Arith ZArith Bool Lia Lra.
From Verif Require Import Vec SharedPtr Field Shape ShapeSpec ShapeSel ShapeSelSpec ShapeSelProofs Mesh MeshSpec MeshProofs MeshBuild Lattice LatticeSpec LatticeProofs LatticeBuild Manip ManipSpec Ffd FfdSpec FfdBasis FfdKnots FfdCurve FfdSums FfdEval.
Import ListNotations.
Open Scope R_scope.

Lemma zset_len {A} (l : list A) i x l' : zset l i x = Some l' -> length l' = length l.
Proof.
  unfold zset. destruct (Z.leb 0 i && Z.ltb i (Z.of_nat (length l)))%bool; [|discriminate]. intros [= <-].
  apply upd_len.
Qed.
Lemma loop_len {A B} (g : B -> list A -> option (list A)) (K : forall b l l', g b l = Some l' -> length l' = length l) ls : forall l l', loop g ls l = Some l' -> length l' = length l.
Proof.
  induction ls as [|b ls IH]; cbn [loop]; intros l l' H; [injection H as <-; reflexivity|].
  destruct (g b l) as [l1|] eqn:E; [|discriminate]. cbn [bind] in H. rewrite (IH _ _ H). apply (K _ _ _ E).
Qed.
Lemma order_is f : forall a b c, orderDimension a b c = f -> exists a b c, f = orderDimension a b c.
Proof. intros. eauto. Qed.

Definition dimn (f : ffd) (d : nat) : nat := Z.to_nat (dim (f_mesh f) d).
Record core (f : ffd) (s : shape) : Prop := {
  co_good : good_lat (f_lat f) s;
  co_built : f_built f = true;
  co_curve : forall d, (d < 3)%nat -> exists e, (1 <= e < dimn f d)%nat /\ MeshSpec.comp (f_deg f) d = Z.of_nat e /\
     setKnotsStructure (coord_type s d) (dimn f d) e (vent (s_span s) d) (vent (getLocalOrigin s) d) = Some (curve_of f d);
  co_order : exists a b c, f_order f = orderDimension a b c;
  co_weights : length (f_weights f) = nodes f }.
Lemma build_core f0 f1 : mreach any (f_mesh f0) -> build f0 = Some (true, f1) -> exists s, m_shape (f_mesh f1) = Some s /\ core f1 s /\ length (f_displ f1) = nodes f1.
Proof.
  intros R B. unfold build in B. destruct (lat_build (f_lat f0)) as [[check l]|] eqn:Lb; [|discriminate]. cbn [bind] in B.
  destruct (f_deg f0) as [[d0 d1] d2]. cbv zeta in B.
  destruct (loop _ (f_collect f0) _) as [w|] eqn:W; [|discriminate]. cbn [bind] in B.
  destruct (m_shape (l_mesh l)) as [s|] eqn:Sh; [|discriminate]. cbn [bind] in B.
  destruct (setKnotsStructure (s_ct0 s) _ _ _ _) as [c0|] eqn:C0; [|discriminate]. cbn [bind] in B.
  destruct (setKnotsStructure (s_ct1 s) _ _ _ _) as [c1|] eqn:C1; [|discriminate]. cbn [bind] in B.
  destruct (setKnotsStructure (s_ct2 s) _ _ _ _) as [c2|] eqn:C2; [|discriminate]. cbn [bind] in B.
  apply (f_equal (fun o => match o with Some p => p | None => (false, f0) end)) in B. pose proof (f_equal fst B) as Bc. pose proof (f_equal snd B) as Bf. cbn [fst snd] in Bc, Bf. clear B. subst check f1.
  exists s. unfold f_mesh at 1. cbn [f_lat]. split; [exact Sh|].
  assert (Gd : good_lat l s). { apply built_good. split; [exists (f_lat f0); split; [exact R|exact Lb]|exact Sh]. }
  destruct (sized_pos _ (gl_sized _ _ Gd)) as (s' & Sh' & N0 & N1 & N2). rewrite Sh in Sh'. injection Sh' as <-.
  assert (M1 : (2 <= min_points (s_kind s) 1)%Z) by (destruct (s_kind s); cbn; lia).
  assert (M2 : (2 <= min_points (s_kind s) 2)%Z) by (destruct (s_kind s); cbn; lia).
  assert (Bu : m_built (l_mesh l) = true).
  { destruct (m_shape (l_mesh (f_lat f0))) as [s0|] eqn:S0.
    - rewrite (lat_build_is _ s0 S0) in Lb. injection Lb as <-. cbn [l_mesh]. apply (build_facts _ _ S0).
    - unfold lat_build, mesh_build in Lb. rewrite S0 in Lb. destruct (resizeMapDof _) as [[? ?]|]; discriminate. }
  destruct (dim_eqs (l_mesh l)) as (D0 & D1 & D2).
  split.
  - constructor; cbn [f_lat].
    + exact Gd.
    + exact Bu.
    + intros d Hd. unfold dimn, f_mesh. cbn [f_lat f_deg]. destruct d as [|[|[|d]]]; [| | |lia]; cbn [MeshSpec.comp coord_type vent curve_of f_c0 f_c1 f_c2].
      * exists (Z.to_nat (Z.min (a_n (m_x (l_mesh l))) (Z.max 1 d0))). rewrite D0. split; [lia|]. split; [lia|]. exact C0.
      * exists (Z.to_nat (Z.min (a_n (m_y (l_mesh l))) (Z.max 1 d1))). rewrite D1. split; [lia|]. split; [lia|]. exact C1.
      * exists (Z.to_nat (Z.min (a_n (m_z (l_mesh l))) (Z.max 1 d2))). rewrite D2. split; [lia|]. split; [lia|]. exact C2.
    + cbn [f_order]. eauto.
    + cbn [f_weights]. unfold nodes. cbn [f_lat]. unfold getNNodes.
      erewrite (loop_len (fun '(i, x) w => zset w i x)); [|intros [i x] l1 l2 H; exact (zset_len _ _ _ _ H)|exact W]. apply repeat_length.
  - cbn [f_displ]. unfold nodes, getNNodes. cbn [f_lat]. unfold resize_to. rewrite app_length, firstn_length, repeat_length. lia.
Qed.
Definition like (f f' : ffd) : Prop :=
  f_lat f' = f_lat f /\ f_deg f' = f_deg f /\ f_weights f' = f_weights f /\ f_c0 f' = f_c0 f /\ f_c1 f' = f_c1 f /\ f_c2 f' = f_c2 f /\ f_order f' = f_order f.
Lemma like_core f f' s : like f f' -> core f s -> core f' s.
Proof.
  intros (L & D & W & A & B & C & O) [G Bu Cu Or We].
  assert (Dm : forall d, dimn f' d = dimn f d) by (intros d; unfold dimn, f_mesh; rewrite L; reflexivity).
  assert (Cv : forall d, curve_of f' d = curve_of f d) by (intros [|[|d]]; cbn [curve_of]; assumption).
  constructor.
  - rewrite L. exact G.
  - unfold f_built, f_mesh. rewrite L. exact Bu.
  - intros d Hd. destruct (Cu d Hd) as (e & E). exists e. rewrite Dm, Cv, D. exact E.
  - rewrite O. exact Or.
  - unfold nodes. rewrite L, W. exact We.
Qed.
Lemma like_trans a b c : like a b -> like b c -> like a c.
Proof. unfold like. intuition congruence. Qed.
Lemma execute_like G f f' : f_built f = true -> ffd_execute G f = Some f' -> like f f'.
Proof.
  intros Bu. unfold ffd_execute. destruct (f_geo f) as [g|]; [|discriminate]. cbn [bind]. rewrite Bu. cbn [bind].
  destruct (apply_list G f) as [[[ids ds] fl]|]; [|discriminate]. cbn [bind]. destruct (insert_all _ _ _) as [z|]; [|discriminate]. cbn [bind].
  intros E. apply (f_equal (fun o => match o with Some p => p | None => f end)) in E. subst f'. unfold like, with_result. cbn. repeat split.
Qed.
Lemma tuned_like f1 f : f_built f1 = true -> tuned f1 f -> like f1 f.
Proof.
  intros Bu T. induction T as [|f D T IH|f b T IH|f fl T IH|f g T IH|f G f' T IH E].
  - unfold like. repeat split.
  - exact IH.
  - exact IH.
  - destruct fl as [fl|]; exact IH.
  - exact IH.
  - eapply like_trans; [exact IH|]. eapply execute_like; [|exact E]. destruct IH as (L & _). unfold f_built, f_mesh. rewrite L. exact Bu.
Qed.
Lemma ready_core f s : ready f s -> core f s.
Proof.
  intros ((f0 & f1 & R & B & T) & Sh). destruct (build_core f0 f1 R B) as (s1 & S1 & C & _).
  assert (L := tuned_like f1 f (co_built _ _ C) T). assert (s1 = s).
  { destruct L as (L & _). unfold f_mesh in *. rewrite L in Sh. congruence. }
  subst s1. exact (like_core f1 f s L C).
Qed.

(** ** The curves *)
Lemma origin_cases s d : (d < 3)%nat -> vent (getLocalOrigin s) d = 0 \/ vent (getLocalOrigin s) d <= - / 2.
Proof. intros Hd. unfold getLocalOrigin. destruct d as [|[|[|d]]]; [| | |lia]; destruct (s_kind s); cbn [vent vx vy vz]; lra. Qed.
Lemma curve_fits f s d : core f s -> ShapeSpec.solid s -> spaced f s -> (d < 3)%nat ->
  exists u, fits (curve_of f d) (dimn f d) u (vent (getLocalOrigin s) d) (vent (getLocalOrigin s) d + vent (s_span s) d) /\
    (coord_type s d = CLAMPED -> u = clamped_knot (dimn f d) (c_deg (curve_of f d)) (vent (getLocalOrigin s) d) (vent (s_span s) d)).
Proof.
  intros C So Sp Hd. destruct (co_curve _ _ C d Hd) as (e & D & _ & E). destruct (gl_reach _ _ (co_good _ _ C)) as (k & Re).
  destruct (span_pos k s d Re So Hd) as [W _]. destruct (coord_type s d) eqn:T.
  - destruct (unclamped_fits (dimn f d) e (vent (getLocalOrigin s) d) (vent (s_span s) d) D W) as (c & E' & _ & u & F). rewrite E in E'. injection E' as E'. rewrite <- E' in F.
    exists u. split; [exact F|discriminate].
  - destruct (clamped_fits _ _ _ _ D W _ E) as (Dg & _ & _ & _ & F). exists (clamped_knot (dimn f d) e (vent (getLocalOrigin s) d) (vent (s_span s) d)). rewrite Dg. split; [exact F|reflexivity].
  - assert (Wd : 2 * tol <= vent (s_span s) d / INR (dimn f d - 1)).
    { pose proof (Sp d Hd (or_introl T)) as X. unfold tol. rewrite INR_IZR_INZ. replace (Z.of_nat (dimn f d - 1)) with (dim (f_mesh f) d - 1)%Z by (unfold dimn in *; lia). lra. }
    destruct (uniform_fits (dimn f d) e (vent (getLocalOrigin s) d) (vent (s_span s) d) D W (origin_cases s d Hd) Wd PERIODIC (or_introl eq_refl)) as (c & E' & _ & _ & _ & F).
    rewrite E in E'. injection E' as E'. rewrite <- E' in F. eexists. split; [exact F|discriminate].
  - assert (Wd : 2 * tol <= vent (s_span s) d / INR (dimn f d - 1)).
    { pose proof (Sp d Hd (or_intror T)) as X. unfold tol. rewrite INR_IZR_INZ. replace (Z.of_nat (dimn f d - 1)) with (dim (f_mesh f) d - 1)%Z by (unfold dimn in *; lia). lra. }
    destruct (uniform_fits (dimn f d) e (vent (getLocalOrigin s) d) (vent (s_span s) d) D W (origin_cases s d Hd) Wd SYMMETRIC (or_intror eq_refl)) as (c & E' & _ & _ & _ & F).
    rewrite E in E'. injection E' as E'. rewrite <- E' in F. eexists. split; [exact F|discriminate].
Qed.
