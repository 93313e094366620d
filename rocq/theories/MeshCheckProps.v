(** C118-C120: the quality of a mesh. *)
From Coq Require Import Reals List Arith Bool Lia Lra.
From Verif Require Import Vec MeshCheck MeshCheckSpec SkdDistProofs MeshCheckProofs.
Import ListNotations.
Open Scope R_scope.

(** C118: the mesh is reported good exactly when all its cells and faces are within the tolerances. *)
Theorem C118_good : forall t g, well_formed g -> regular g -> sensible t -> (fst (execute t g fresh) = Good <-> acceptable t g).
Proof.
  intros t g W R0 T. unfold execute. cbn [fst]. rewrite (measure_good t g fresh W R0) by (apply T). pose proof (fresh_good t T). tauto.
Qed.
Print Assumptions C118_good.
(** C118: otherwise the status names a check that failed, the one of least number. *)
Theorem C118_status : forall t g, well_formed g -> regular g -> sensible t -> let v := fst (execute t g fresh) in
  (v <> Good -> ~ passes t g v) /\ forall w, ~ passes t g w -> v <> Good /\ (number v <= number w)%nat.
Proof.
  intros t g W R0 T v. pose proof (proj1 (verdict_good t fresh) (fresh_good t T)) as (F1 & F2 & F3 & F4 & F5 & F6).
  assert (T1 : t_change t <= 1) by apply T.
  assert (E : forall w, w <> Good -> (passes t g w <-> match w with
    | Good => True | FaceValidity => below (s_validity (measure g fresh)) (t_validity t) = false | VolumeChangeRatio => below (s_change (measure g fresh)) (t_change t) = false
    | BoundarySkewness => below (t_boundary t) (s_boundary (measure g fresh)) = false | Skewness => below (t_skewness t) (s_skewness (measure g fresh)) = false
    | MinimumVolume => below (s_minVolume (measure g fresh)) (t_minVolume t) = false | MaximumVolume => below (t_maxVolume t) (s_maxVolume (measure g fresh)) = false end)).
  { intros w NW. destruct w; [contradiction|..]; rewrite below_false; cbn [passes].
    - rewrite (measure_validity g W R0 t fresh). tauto.
    - rewrite (measure_change g W R0 t fresh T1). tauto.
    - rewrite (measure_boundary g W R0 t fresh). tauto.
    - rewrite (measure_skewness g W R0 t fresh). tauto.
    - rewrite measure_minVolume. tauto.
    - rewrite measure_maxVolume. tauto. }
  assert (V : v = verdict t (measure g fresh)) by reflexivity. clearbody v. subst v. split.
  - intro N. rewrite (E _ N). revert N. unfold verdict. cbn zeta.
    destruct (below (s_validity _) _), (below (s_change _) _), (below (t_boundary t) _), (below (t_skewness t) _), (below (s_minVolume _) _), (below (t_maxVolume t) _); intros N; congruence.
  - intros w N. assert (NW : w <> Good) by (intros ->; apply N; exact I). rewrite (E _ NW) in N. revert N. unfold verdict. cbn zeta. clear E.
    destruct (below (s_validity _) _) eqn:?, (below (s_change _) _) eqn:?, (below (t_boundary t) _) eqn:?, (below (t_skewness t) _) eqn:?, (below (s_minVolume _) _) eqn:?, (below (t_maxVolume t) _) eqn:?;
      destruct w; intro N; try congruence; split; try discriminate; cbn; lia.
Qed.
Print Assumptions C118_status.
(** C118: the cells singled out are exactly those that fail, or that an inner face which fails is of. *)
Theorem C118_cells : forall t g, well_formed g -> regular g -> t_change t <= 1 -> forall x,
  (In x (volume_cells t g) <-> exists c, has_cell g c /\ c_interior c = true /\ c_id c = x /\ ~ good_volume t g c) /\
  (In x (change_cells t g) <-> exists c, has_cell g c /\ c_interior c = true /\ c_id c = x /\ ~ good_change t g c) /\
  (In x (validity_cells t g) <-> m_solid g = true /\ exists c, has_cell g c /\ c_interior c = true /\ c_id c = x /\ ~ good_faces t g c) /\
  (In x (skewness_cells t g) <-> m_solid g = true /\ exists c i n, has_cell g c /\ c_interior c = true /\ c_id c = x /\ In i (m_interfaces g) /\ i_neigh i = Some n /\ (i_owner i = x \/ n = x) /\ ~ good_angle (t_skewness t) g i) /\
  NoDup (skewness_cells t g).
Proof.
  intros t g W R0 T x. repeat split.
  - intro H. apply in_flat_map in H. destruct H as (c & C & H). apply interior_iff in C. destruct C as (C & CI). exists c. split; [exact C|]. split; [exact CI|].
    unfold good_volume. apply in_app_iff in H. destruct H as [H|H]; destruct (below _ _) eqn:B in H; try destruct H as [<- |[]]; try destruct H; apply below_true in B; (split; [reflexivity|lra]).
  - intros (c & C & CI & <- & B). apply in_flat_map. exists c. split; [apply interior_iff; auto|]. apply in_app_iff. unfold good_volume in B.
    destruct (below (c_volume c) (t_minVolume t)) eqn:B1; [left; left; reflexivity|]. destruct (below (t_maxVolume t) (c_volume c)) eqn:B2; [right; left; reflexivity|]. exfalso. apply B. split; apply below_false; assumption.
  - intro H. unfold change_cells in H. apply in_map_iff in H. destruct H as (c & <- & H). apply filter_In in H. destruct H as (C & B). apply interior_iff in C. destruct C as (C & CI). exists c. repeat split; auto.
    intro Q. apply (proj2 (ratio_iff g W c _ C (proj1 R0) T)) in Q. apply below_true in B. lra.
  - intros (c & C & CI & <- & B). apply in_map_iff. exists c. split; [reflexivity|]. apply filter_In. split; [apply interior_iff; auto|]. destruct (below _ _) eqn:Q; [reflexivity|]. exfalso. apply B. apply below_false in Q. exact (proj1 (ratio_iff g W c _ C (proj1 R0) T) Q).
  - unfold validity_cells in H. destruct (m_solid g); [reflexivity|destruct H].
  - unfold validity_cells in H. destruct (m_solid g) eqn:M; [|destruct H]. apply in_map_iff in H. destruct H as (c & <- & H). apply filter_In in H. destruct H as (C & B). apply interior_iff in C. destruct C as (C & CI). exists c. repeat split; auto.
    intro Q. pose proof (proj2 (validity_iff g W c (t_validity t) C (proj2 (proj2 R0 M) c C)) Q) as V. unfold under in B. destruct (validity g c) as [v|]; [|discriminate]. specialize (V v eq_refl). apply below_true in B. lra.
  - intros (M & c & C & CI & <- & B). unfold validity_cells. rewrite M. apply in_map_iff. exists c. split; [reflexivity|]. apply filter_In. split; [apply interior_iff; auto|]. destruct (under _ _) eqn:Q; [reflexivity|]. exfalso. apply B.
    refine (proj1 (validity_iff g W c (t_validity t) C (proj2 (proj2 R0 M) c C)) _). intros v V. unfold under in Q. rewrite V in Q. apply below_false. exact Q.
  - unfold skewness_cells in H. destruct (m_solid g); [reflexivity|destruct H].
  - unfold skewness_cells in H. destruct (m_solid g) eqn:M; [|destruct H]. apply skew_fold in H.
    + destruct H as [[]|(i & H & S1 & S2)]. apply filter_In in H. destruct H as (H & B). unfold inner in H. apply filter_In in H. destruct H as (I & N). unfold is_border in N. destruct (i_neigh i) as [n|] eqn:NE; [|discriminate].
      assert (CX : exists c, has_cell g c /\ c_id c = x). { destruct (proj2 (proj2 W) i I) as (A1 & A2). destruct S1 as [-> |S1]; [exact A1|apply A2; congruence]. }
      destruct CX as (c & C & CE). subst x. rewrite (cell_of_id g c (proj1 W) C) in S2. exists c, i, n. repeat split; auto; [destruct S1 as [-> |S1]; [auto|right; congruence]|].
      intro Q. destruct (joining_pos g W R0 i M I) as (P1 & P2). pose proof (proj2 (good_angle_iff g W i _ I P1 P2) Q) as V. unfold over in B. destruct (angle g i) as [v|]; [|discriminate]. specialize (V v eq_refl). apply below_true in B. lra.
    + intros i I. apply filter_In in I. destruct I as (I & _). unfold inner in I. apply filter_In in I. destruct I as (_ & N). unfold is_border in N. destruct (i_neigh i) as [n|]; [eauto|discriminate].
  - intros (M & c & i & n & C & CI & <- & I & NE & S1 & B). unfold skewness_cells. rewrite M. apply skew_fold.
    + intros j J. apply filter_In in J. destruct J as (J & _). unfold inner in J. apply filter_In in J. destruct J as (_ & N). unfold is_border in N. destruct (i_neigh j) as [k|]; [eauto|discriminate].
    + right. exists i. rewrite (cell_of_id g c (proj1 W) C). split; [|split; [destruct S1 as [-> |S1]; [auto|right; congruence]|exact CI]]. apply filter_In. split; [unfold inner; apply filter_In; split; [exact I|unfold is_border; rewrite NE; reflexivity]|].
      destruct (over _ _) eqn:Q; [reflexivity|]. exfalso. apply B. destruct (joining_pos g W R0 i M I) as (P1 & P2). apply (good_angle_iff g W i _ I P1 P2). intros v V. unfold over in Q. rewrite V in Q. apply below_false. exact Q.
  - unfold skewness_cells. destruct (m_solid g); [|constructor]. apply skew_nodup. constructor.
Qed.
Print Assumptions C118_cells.
(** C118: with a mesh in parts all the processes get the same status, good exactly when all the parts are acceptable. *)
Theorem C118_processes : forall t solid gs, gs <> [] -> (forall g, In g gs -> well_formed g /\ regular g /\ m_solid g = solid) -> sensible t ->
  let r := execute_ranks t solid (map (fun g => (g, fresh)) gs) in
  length r = length gs /\ (forall a b, In a r -> In b r -> a = b) /\ (forall a, In a r -> (fst a = Good <-> forall g, In g gs -> acceptable t g)).
Proof.
  intros t solid gs N H T r. unfold r, execute_ranks. cbn zeta. rewrite !map_map. cbn [fst snd]. split; [rewrite map_length; reflexivity|].
  assert (FS : forall s, solid = false -> In s (map (fun g => measure g fresh) gs) -> s_skewness s = 0 /\ s_boundary s = 0 /\ s_validity s = 1).
  { intros s S0 I. apply in_map_iff in I. destruct I as (g & <- & G). destruct (H g G) as (_ & _ & M). rewrite S0 in M. unfold measure, checkFaceValidity, checkSkewness. rewrite M. cbn. auto. }
  split.
  - intros a b A B. apply in_map_iff in A. destruct A as (g & <- & A). apply in_map_iff in B. destruct B as (h & <- & B).
    assert (EQ : reduce_state solid (map (fun g => measure g fresh) gs) (measure g fresh) = reduce_state solid (map (fun g => measure g fresh) gs) (measure h fresh)); [|rewrite EQ; reflexivity].
    unfold reduce_state. destruct solid; [reflexivity|]. destruct (FS (measure g fresh) eq_refl) as (-> & -> & ->); [apply in_map_iff; exists g; auto|]. destruct (FS (measure h fresh) eq_refl) as (-> & -> & ->); [apply in_map_iff; exists h; auto|]. reflexivity.
  - intros a A. apply in_map_iff in A. destruct A as (g & <- & A). cbn [fst]. rewrite reduce_good.
    + split.
      * intros K h Hh. destruct (H h Hh) as (W & R0 & _). apply (measure_good t h fresh W R0); [apply T|]. apply K. apply in_map_iff. exists h. auto.
      * intros K q Q. apply in_map_iff in Q. destruct Q as (h & <- & Hh). destruct (H h Hh) as (W & R0 & _). apply (measure_good t h fresh W R0); [apply T|]. split; [apply fresh_good; exact T|auto].
    + apply in_map_iff. exists g. auto.
    + destruct solid; [right; reflexivity|left]. intros q Q. destruct (FS q eq_refl Q) as (-> & -> & ->). unfold sensible in T. tauto.
Qed.
Print Assumptions C118_processes.

(** A cell with faces on the border: one before it, and one seen from it with a slope. *)
Definition front (n : vec) : mesh := Mesh true [Cell 3 true 1 (V3 0 0 0) []] [Interface 0 3 None (V3 1 0 0) (V3 1 0 0) 2; Interface 1 3 None (V3 1 0 0) n 1].
Definition strict : tolerances := Tol (/ 10) 10 (PI / 3) (PI / 3) (/ 2) (/ 10).
Lemma strict_sensible : sensible strict.
Proof. pose proof PI_RGT_0. unfold sensible, strict. cbn [t_minVolume t_maxVolume t_skewness t_boundary t_validity t_change]. pose proof (pow_R1_Rle 10 18 ltac:(lra)). repeat split; lra. Qed.
Lemma norm_x : norm (V3 1 0 0) = 1.
Proof. unfold norm, dot. cbn. replace (1 * 1 + 0 * 0 + 0 * 0) with 1 by ring. apply sqrt_1. Qed.
Lemma front_formed : forall n, well_formed (front n).
Proof.
  intro n. unfold well_formed, has_cell, front. cbn. split; [repeat constructor; intros []|]. split; [intros c k [<- |[]] []|].
  intros i [<- |[<- |[]]]; (split; [eexists; split; [left; reflexivity|reflexivity]|cbn; discriminate]).
Qed.
Lemma front_crossing : forall n i u, In i (m_interfaces (front n)) -> crossing (front n) i u -> u = V3 1 0 0.
Proof.
  intros n i u I (o & O & _ & U). cbn in O. destruct O as [<- |[]]. cbn in I. destruct I as [<- |[<- |[]]]; cbn in U; subst u; unfold vsub; cbn; f_equal; ring.
Qed.
Lemma front_regular : forall n, 0 < norm n -> regular (front n).
Proof.
  intros n P. split; [intros c [<- |[]]; cbn; lra|]. intros _. split.
  - intros i u I C. rewrite (front_crossing n i u I C), norm_x. split; [lra|]. cbn in I. destruct I as [<- |[<- |[]]]; cbn [i_normal]; [rewrite norm_x; lra|exact P].
  - intros c [<- |[]]. cbn. lra.
Qed.
Lemma front_cell : forall n c, has_cell (front n) c -> c = Cell 3 true 1 (V3 0 0 0) [].
Proof. intros n c [<- |[]]. reflexivity. Qed.
Lemma small_angle : forall a, 0 <= a <= PI -> cos a < / 2 -> PI / 3 < a.
Proof.
  intros a A C. destruct (Rlt_dec (PI / 3) a) as [|L]; [assumption|]. exfalso. pose proof PI_RGT_0. assert (cos (PI / 3) <= cos a) by (apply cos_decr_1; lra). rewrite cos_PI3 in *. lra.
Qed.
Lemma front_valid : forall n, 0 < vx n -> validity_cells strict (front n) = [] /\ passes strict (front n) FaceValidity.
Proof.
  intros n V. assert (GF : good_faces strict (front n) (Cell 3 true 1 (V3 0 0 0) [])).
  { intros x X. apply good_area_valid in X. subst x. cbn - [below dot vsub]. assert (B1 : below 0 (dot (vsub (V3 1 0 0) (V3 0 0 0)) (V3 1 0 0)) = true) by (apply below_true; unfold dot, vsub; cbn; lra).
    assert (B2 : below 0 (dot (vsub (V3 1 0 0) (V3 0 0 0)) n) = true) by (apply below_true; unfold dot, vsub; destruct n; cbn in *; lra). rewrite B1, B2. lra. }
  split; [|intros _ c C _; apply front_cell in C; subst c; exact GF].
  assert (P : 0 < norm n). { pose proof (coord_le n) as (X & _). rewrite Rabs_right in X by lra. lra. }
  destruct (validity_cells strict (front n)) as [|x l] eqn:E; [reflexivity|]. exfalso.
  destruct (C118_cells strict (front n) (front_formed n) (front_regular n P) ltac:(cbn; lra) x) as (_ & _ & (H & _) & _). rewrite E in H. destruct (H (or_introl eq_refl)) as (_ & c & C & _ & _ & B). apply front_cell in C. subst c. contradiction.
Qed.
Lemma front_good_x : forall t n, 0 <= t -> good_angle t (front n) (Interface 0 3 None (V3 1 0 0) (V3 1 0 0) 2).
Proof.
  intros t n T u a C (A & E). apply front_crossing in C; [|left; reflexivity]. subst u. cbn [i_normal] in E. rewrite norm_x in E. unfold dot in E. cbn in E.
  assert (C1 : cos a = 1) by lra. rewrite <- (acos_cos a A), C1, acos_1. exact T.
Qed.
(** C118 refuted: a mesh is rejected for its borders, and no cell is singled out. *)
Theorem C118_border_cells_refuted : exists t g, well_formed g /\ regular g /\ sensible t /\ fst (execute t g fresh) = BoundarySkewness /\
  volume_cells t g = [] /\ change_cells t g = [] /\ validity_cells t g = [] /\ skewness_cells t g = [].
Proof.
  set (n := V3 (/ 100) 1 0). assert (P : 1 <= norm n). { pose proof (coord_le n) as (_ & Y & _). cbn in Y. rewrite Rabs_R1 in Y. exact Y. }
  exists strict, (front n). split; [apply front_formed|]. split; [apply front_regular; lra|]. split; [apply strict_sensible|]. split.
  - destruct (C118_status strict (front n) (front_formed n) (front_regular n ltac:(lra)) strict_sensible) as (A & B). cbn zeta in A, B.
    assert (NB : ~ passes strict (front n) BoundarySkewness).
    { intro Q. set (i := Interface 1 3 None (V3 1 0 0) n 1). assert (I : In i (m_interfaces (front n))) by (right; left; reflexivity). specialize (Q eq_refl i I eq_refl).
      destruct (crossing_joining (front n) (front_formed n) i I) as (C & _). pose proof (front_crossing n i _ I C) as J.
      destruct (angle_spec (front n) i I) as (a & _ & IA); [rewrite J, norm_x; lra|change (i_normal i) with n; lra|]. specialize (Q _ _ C IA). destruct IA as (AB & AE). rewrite J in AE. change (i_normal i) with n in AE. rewrite norm_x in AE. unfold dot, n in AE. cbn [vx vy vz] in AE. fold n in AE.
      assert (cos a < / 2). { apply Rmult_lt_reg_l with (norm n); [lra|]. lra. }
      pose proof (small_angle a AB H). cbn [t_boundary strict] in Q. lra. }
    destruct (B _ NB) as (NG & NUM). specialize (A NG). destruct (fst (execute strict (front n) fresh)) eqn:E; try reflexivity; cbn [number] in NUM; try lia; exfalso; [congruence| |].
    + apply A. apply front_valid. cbn. lra.
    + apply A. intros c C _ d D K. apply front_cell in C. subst c. destruct K.
  - split; [cbn; unfold below; destruct (Rlt_dec 1 (/ 10)); [lra|]; destruct (Rlt_dec 10 1); [lra|]; reflexivity|].
    split; [unfold change_cells, ratio; cbn; unfold below; destruct (Rlt_dec 1 (/ 10)); [lra|reflexivity]|]. split; [apply front_valid; cbn; lra|reflexivity].
Qed.
Print Assumptions C118_border_cells_refuted.
(** C118 refuted: two cells with the same centre pass the check on the direction between them, whatever it is. *)
Theorem C118_same_centre_refuted : exists t g, well_formed g /\ sensible t /\ fst (execute t g fresh) = Good /\ ~ acceptable t g.
Proof.
  set (g := Mesh true [Cell 1 true 1 (V3 0 0 0) [2%nat]; Cell 2 true 1 (V3 0 0 0) [1%nat]] [Interface 0 1 (Some 2%nat) (V3 1 0 0) (V3 1 0 0) 1; Interface 1 1 None (V3 1 0 0) (V3 1 0 0) 1; Interface 2 2 None (V3 1 0 0) (V3 1 0 0) 1]).
  exists strict, g. split.
  { assert (H1 : exists d, has_cell g d /\ c_id d = 1%nat) by (eexists; split; [left; reflexivity|reflexivity]).
    assert (H2 : exists d, has_cell g d /\ c_id d = 2%nat) by (eexists; split; [right; left; reflexivity|reflexivity]).
    split; [unfold g; cbn; repeat constructor; cbn; intuition lia|]. split.
    - intros c k [<- |[<- |[]]] [<- |[]]; assumption.
    - intros i [<- |[<- |[<- |[]]]]; cbn [i_owner i_neigh]; (split; [assumption|]); intros k K; try discriminate. injection K as <-. assumption. }
  split; [apply strict_sensible|]. pose proof PI_RGT_0 as PP. split.
  - unfold execute. cbn [fst]. apply verdict_good. unfold measure, checkFaceValidity, checkSkewness, checkVolume. cbn [m_solid g s_maxVolume s_minVolume s_skewness s_boundary s_change s_validity strict t_maxVolume t_minVolume t_skewness t_boundary t_change t_validity fresh].
    repeat split.
    + apply fold_max. split; [lra|]. intros c C. apply interior_iff in C. destruct C as ([<- |[<- |[]]] & _); cbn; lra.
    + apply fold_min. split; [pose proof (pow_R1_Rle 10 18 ltac:(lra)); lra|]. intros c C. apply interior_iff in C. destruct C as ([<- |[<- |[]]] & _); cbn; lra.
    + apply fold_greatest. split; [lra|]. intros i v I E. unfold inner in I. apply filter_In in I. destruct I as (I & N). cbn in I. destruct I as [<- |[<- |[<- |[]]]]; try discriminate. exfalso. revert E. unfold angle, joining, quotient. cbn [i_neigh i_owner i_normal cell_of find g m_cells c_id Nat.eqb c_centre].
      replace (norm (vsub (V3 0 0 0) (V3 0 0 0))) with 0; [destruct (Req_EM_T (0 * norm (V3 1 0 0)) 0) as [_|X]; [discriminate|exfalso; apply X; ring]|]. unfold norm, dot, vsub. cbn. replace ((0 - 0) * (0 - 0) + (0 - 0) * (0 - 0) + (0 - 0) * (0 - 0)) with 0 by ring. symmetry. apply sqrt_0.
    + apply fold_greatest. split; [lra|]. intros i v I E. unfold border in I. apply filter_In in I. destruct I as (I & N). cbn in I.
      assert (J : joining g i = V3 1 0 0 /\ i_normal i = V3 1 0 0). { destruct I as [<- |[<- |[<- |[]]]]; [discriminate| |]; (split; [unfold joining, vsub; cbn; f_equal; ring|reflexivity]). }
      destruct J as (J1 & J2). unfold angle in E. rewrite J1, J2, norm_x in E. unfold quotient in E. destruct (Req_EM_T (1 * 1) 0); [lra|]. cbn [option_map] in E. injection E as <-. replace (dot (V3 1 0 0) (V3 1 0 0) / (1 * 1)) with 1 by (unfold dot; cbn; field). rewrite acos_1. lra.
    + apply fold_min. split; [lra|]. intros c C. apply interior_iff in C. destruct C as ([<- |[<- |[]]] & _); unfold ratio, quotient; cbn; (destruct (Req_EM_T 1 0); [lra|]); cbn; apply Rmin_glb; lra.
    + apply fold_least. split; [lra|]. intros c v C E. apply interior_iff in C. revert E. unfold validity, areas, quotient, add_side, add_to. 
      assert (B1 : below 0 (dot (vsub (V3 1 0 0) (V3 0 0 0)) (V3 1 0 0)) = true) by (apply below_true; unfold dot, vsub; cbn; lra).
      assert (B2 : below 0 (dot (vsub (V3 1 0 0) (V3 0 0 0)) (vscale (-1) (V3 1 0 0))) = false) by (apply below_false; unfold dot, vsub, vscale; cbn; lra).
      destruct C as ([<- |[<- |[]]] & _); cbn - [below dot vsub vscale]; rewrite ?B1, ?B2; cbn; (destruct (Req_EM_T _ 0); [lra|]); intro E; injection E as <-; lra.
  - intros (_ & A). specialize (A eq_refl _ (or_introl eq_refl)). cbn [i_neigh strict t_skewness] in A.
    assert (C : crossing g (Interface 0 1 (Some 2%nat) (V3 1 0 0) (V3 1 0 0) 1) (vsub (V3 0 0 0) (V3 0 0 0))).
    { eexists. split; [left; reflexivity|]. split; [reflexivity|]. eexists. split; [right; left; reflexivity|]. split; reflexivity. }
    specialize (A _ PI C). cut (PI <= PI / 3); [lra|]. apply A. split; [lra|]. replace (norm (vsub (V3 0 0 0) (V3 0 0 0))) with 0; [unfold dot, vsub; cbn; ring|]. unfold norm, dot, vsub. cbn. replace ((0 - 0) * (0 - 0) + (0 - 0) * (0 - 0) + (0 - 0) * (0 - 0)) with 0 by ring. symmetry. apply sqrt_0.
Qed.
Print Assumptions C118_same_centre_refuted.
(** a mesh that meets the hypotheses and is acceptable *)
Lemma front_acceptable : acceptable strict (front (V3 1 0 0)).
Proof.
  pose proof PI_RGT_0 as PP. split.
  - intros c C _. pose proof (front_cell _ _ C). subst c. split; [unfold good_volume; cbn; lra|]. split; [intros d _ []|]. intro M. apply (proj2 (front_valid (V3 1 0 0) ltac:(cbn; lra)) M _ C). reflexivity.
  - intros _ i I. cbn in I. destruct I as [<- |[<- |[]]]; cbn [i_neigh strict t_boundary]; [apply front_good_x; lra|].
    intros u a C (A & E). apply front_crossing in C; [|right; left; reflexivity]. subst u. cbn [i_normal] in E. rewrite norm_x in E. unfold dot in E. cbn in E. assert (C1 : cos a = 1) by lra. rewrite <- (acos_cos a A), C1, acos_1. lra.
Qed.
Example C118_nonvacuous : well_formed (front (V3 1 0 0)) /\ regular (front (V3 1 0 0)) /\ sensible strict /\ acceptable strict (front (V3 1 0 0)).
Proof. split; [apply front_formed|]. split; [apply front_regular; rewrite norm_x; lra|]. split; [apply strict_sensible|apply front_acceptable]. Qed.

(** C119: executing again on the same mesh gives the same status and indicators, whatever happened before. *)
Theorem C119_again : forall t g s, execute t g (snd (execute t g s)) = execute t g s.
Proof. intros t g s. unfold execute. cbn [snd]. rewrite measure_again. reflexivity. Qed.
Print Assumptions C119_again.
(** C119: after several meshes the last status is good exactly when all of them are acceptable, not just the last. *)
Theorem C119_history_partial : forall t gs g, (forall h, In h (g :: gs) -> well_formed h /\ regular h) -> sensible t ->
  (fst (execute t g (executions t gs fresh)) = Good <-> acceptable t g /\ forall h, In h gs -> acceptable t h).
Proof.
  intros t gs g W T. assert (T1 : t_change t <= 1) by apply T. unfold execute. cbn [fst]. destruct (W g (or_introl eq_refl)) as (W1 & W2). rewrite (measure_good t g _ W1 W2 T1).
  rewrite executions_good by (auto; intros; apply W; right; assumption). pose proof (fresh_good t T). tauto.
Qed.
Print Assumptions C119_history_partial.
(** C119 refuted: once a mesh has been rejected no mesh is reported good any more, with the same tolerances. *)
Theorem C119_history_refuted : forall t before g after, well_formed g -> regular g -> sensible t -> ~ acceptable t g ->
  forall h, fst (execute t h (executions t (before ++ g :: after) fresh)) <> Good.
Proof.
  intros t before g after W R0 T N h E. unfold execute in E. cbn [fst] in E. apply measure_keeps in E. unfold executions in E. rewrite fold_left_app in E. cbn [fold_left] in E.
  assert (K : forall l s, verdict t (fold_left (fun s g => snd (execute t g s)) l s) = Good -> verdict t s = Good).
  { induction l as [|x l IH]; intros s Q; cbn [fold_left] in Q; [exact Q|]. apply IH in Q. unfold execute in Q. cbn [snd] in Q. exact (measure_keeps _ _ _ Q). }
  apply K in E. unfold execute in E. cbn [snd] in E. apply (measure_good t g _ W R0) in E; [tauto|apply T].
Qed.
Print Assumptions C119_history_refuted.
(** a mesh rejected, and one that by itself is acceptable *)
Example C119_nonvacuous : let bad := Mesh false [Cell 7 true (/ 1000) (V3 0 0 0) []] [] in
  well_formed bad /\ regular bad /\ ~ acceptable strict bad /\ fst (execute strict (front (V3 1 0 0)) fresh) = Good /\ fst (execute strict (front (V3 1 0 0)) (executions strict [bad] fresh)) <> Good.
Proof.
  intro bad. assert (W : well_formed bad) by (unfold well_formed, has_cell, bad; cbn; split; [repeat constructor; intros []|split; [intros c n [<- |[]] []|intros i []]]).
  assert (R0 : regular bad) by (split; [intros c [<- |[]]; cbn; lra|discriminate]).
  assert (N : ~ acceptable strict bad). { intros (A & _). destruct (A _ (or_introl eq_refl) eq_refl) as (V & _). unfold good_volume in V. cbn in V. lra. }
  split; [exact W|]. split; [exact R0|]. split; [exact N|]. split; [apply C118_good; [apply front_formed|apply front_regular; rewrite norm_x; lra|apply strict_sensible|apply front_acceptable]|].
  apply (C119_history_refuted strict [] bad [] W R0 strict_sensible N).
Qed.

(** C120: written to XML and read back, the tolerances that are not angles are kept. *)
Theorem C120_xml : forall t t0, let r := absorb (flush t) t0 in
  t_minVolume r = t_minVolume t /\ t_maxVolume r = t_maxVolume t /\ t_validity r = t_validity t /\ t_change r = t_change t.
Proof. intros t t0. cbn. auto. Qed.
Print Assumptions C120_xml.
(** C120 refuted: those that are angles are written in radians and read as degrees: they come back more than 57 times less. *)
Theorem C120_angles_refuted : forall t t0, 0 < t_skewness t -> 0 < t_boundary t -> let r := absorb (flush t) t0 in
  t_skewness r = t_skewness t * (PI / 180) /\ t_boundary r = t_boundary t * (PI / 180) /\ 45 * t_skewness r <= t_skewness t /\ 45 * t_boundary r <= t_boundary t.
Proof. intros t t0 A B. cbn. pose proof PI_4. pose proof PI_RGT_0. repeat split; try (field; fail); try nra. Qed.
Print Assumptions C120_angles_refuted.
(** C120 refuted: so does the default, when the option is there without a value. *)
Theorem C120_default_refuted : forall t, t_skewness (absorb_empty_skewness t) < t_skewness default_tolerances.
Proof. intro t. cbn. pose proof PI_4. pose proof PI_RGT_0. nra. Qed.
Print Assumptions C120_default_refuted.
