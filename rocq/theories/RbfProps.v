(** Radial basis functions: C41, C76, C77, C78. *)
From Coq Require Import List Arith Bool Reals Lra Lia Sorted Permutation.
From Verif Require Import Vec SharedPtr Field FieldProofs Manip ManipSpec ManipProofs ShapeProofs.
From Verif Require Import Rbf RbfSpec RbfProofs RbfKernel RbfWitness.
Import ListNotations.
Open Scope R_scope.

(** C41: the basis functions of the class stay between 0 and 1 and decrease with the distance; the
    smooth steps are one half at the support radius and, like dsigmoid, never vanish; the default
    function vanishes at the support radius and beyond. *)
Theorem C41_kernels :
  (forall K d, 0 < K -> 0 < heaviside K d < 1 /\ (forall d', d < d' -> heaviside K d' < heaviside K d)) /\
  (forall K, heaviside K 1 = / 2) /\
  (forall K d, 0 < K -> 1 < d -> heaviside K d < / (1 + K * (d - 1))) /\
  dsigmoid 0 = 1 /\ (forall d, 0 <= d -> 0 < dsigmoid d <= 1 /\ (forall d', d < d' -> dsigmoid d' < dsigmoid d)) /\
  wendland 0 = 1 /\ (forall d, 1 <= d -> wendland d = 0) /\
  (forall d, 0 <= d -> 0 <= wendland d <= 1 /\ (forall d', d < d' -> d' <= 1 -> wendland d' < wendland d)).
Proof.
  split; [intros K d HK; split; [apply heaviside_range|intros d' H; apply heaviside_decreasing; assumption]|].
  split; [exact heaviside_half|]. split; [exact heaviside_small|]. split; [exact dsigmoid_0|].
  split; [intros d H; split; [split; [apply dsigmoid_pos|apply dsigmoid_le, H]|intros d' Hd; apply dsigmoid_decreasing; assumption]|].
  split; [exact wendland_0|]. split; [exact wendland_out|].
  intros d H. split; [apply wendland_range, H|intros d' H1 H2; apply wendland_decreasing; assumption].
Qed.
Print Assumptions C41_kernels.

(** C41: in parametrisation mode the displacement of a vertex is the sum over the active nodes of
    the displacements given by the user (null beyond their list), each times the basis function of
    the distance over the support radius of the node, times the filter; on a restricted execution
    the vertices out of every support are not moved. *)
Theorem C41_parametrization : forall O h r0 D g r', wf_store h -> distinct_ids (fd_data (b_filter r0)) -> 0 <= p_diag (b_par r0) ->
  p_mode (b_par r0) = MNone -> b_geo r0 = Some g -> i_geo (b_in r0) = None ->
  rbf_execute O h (setDisplacements D r0) = Some r' ->
  exists d, getDisplacements r' = Some d /\ fd_geo d = Some g /\ fd_loc d = LPoint /\ distinct_ids (fd_data d) /\
  forall id p, In (id, p) (so_verts (h g)) -> exists c, factor (so_verts (h g)) g r0 id c /\
    (supported (i_nodes (b_in r0)) (getRadii r') p \/ ~ restricted (map snd (so_verts (h g))) (b_par r0) (getRadii r') ->
     In (id, vscale c (vec_combination (p_kernel (b_par r0)) (i_nodes (b_in r0)) (getRadii r') D p)) (fd_data d)) /\
    (~ supported (i_nodes (b_in r0)) (getRadii r') p -> restricted (map snd (so_verts (h g))) (b_par r0) (getRadii r') ->
     In (id, vzero) (fd_data d)).
Proof.
  intros O h r0 D g r' W N Dg M G I H. destruct (parametrization O h r0 D g r' W N Dg M G I H) as [d [A1 [A2 [A3 [A4 [_ [_ [_ A5]]]]]]]].
  exists d. auto.
Qed.
Print Assumptions C41_parametrization.

(** C41: with apply, every vertex moves by its displacement and nothing else moves. *)
Theorem C41_moved : forall O h r0 D g h' r', wf_store h -> distinct_ids (fd_data (b_filter r0)) -> 0 <= p_diag (b_par r0) ->
  p_mode (b_par r0) = MNone -> b_geo r0 = Some g -> i_geo (b_in r0) = None ->
  rbf_exec O h (setDisplacements D r0) = Some (h', r') ->
  moved (fun id p q => exists c, factor (so_verts (h g)) g r0 id c /\
           (supported (i_nodes (b_in r0)) (getRadii r') p \/ ~ restricted (map snd (so_verts (h g))) (b_par r0) (getRadii r') ->
            q = vadd p (vscale c (vec_combination (p_kernel (b_par r0)) (i_nodes (b_in r0)) (getRadii r') D p))) /\
           (~ supported (i_nodes (b_in r0)) (getRadii r') p -> restricted (map snd (so_verts (h g))) (b_par r0) (getRadii r') -> q = p))
        (so_verts (h g)) (so_verts (h' g)) /\
  forall k, k <> g -> h' k = h k.
Proof.
  intros O h r0 D g h' r' W N Dg M G I H. unfold rbf_exec in H.
  destruct (rbf_execute O h (setDisplacements D r0)) as [r1|] eqn:E; [|discriminate].
  destruct (parametrization O h r0 D g r1 W N Dg M G I E) as [d [_ [_ [_ [Nd [Ed [Es [Eg A]]]]]]]].
  unfold rbf_apply in H. rewrite Eg, Es, Ed in H. injection H as <- <-. split.
  - rewrite put_verts_same. apply moved_map. intros id p Hp. destruct (A id p Hp) as [c [Fc [A1 A2]]].
    destruct (supported_dec (i_nodes (b_in r0)) (getRadii r1) p) as [Su|Su].
    + exists (vscale c (vec_combination (p_kernel (b_par r0)) (i_nodes (b_in r0)) (getRadii r1) D p)).
      split; [apply in_find; [exact Nd|apply A1; left; exact Su]|]. exists c. split; [exact Fc|]. split; [reflexivity|contradiction].
    + assert (K : exists v, find id (fd_data d) = Some v).
      { destruct (find id (fd_data d)) as [v|] eqn:F; [exists v; reflexivity|].
        assert (Hr : ~ restricted (map snd (so_verts (h g))) (b_par r0) (getRadii r1)).
        { intros Hr. pose proof (in_find _ _ _ _ Nd (A2 Su Hr)). congruence. }
        pose proof (in_find _ _ _ _ Nd (A1 (or_intror Hr))). congruence. }
      destruct K as [v Fv]. exists v. split; [exact Fv|]. exists c. split; [exact Fc|]. split.
      * intros [Hs|Hr]; [contradiction|]. pose proof (in_find _ _ _ _ Nd (A1 (or_intror Hr))) as X. f_equal. congruence.
      * intros _ Hr. pose proof (in_find _ _ _ _ Nd (A2 Su Hr)) as X. replace v with vzero by congruence. apply vadd_zero.
  - intros k Hk. apply put_verts_other. exact Hk.
Qed.
Print Assumptions C41_moved.

(** C41: a vertex out of every support does not move if the basis function vanishes beyond 1 (and the
    radii are not negative), or if the execution is restricted to the supports. *)
Theorem C41_outside : forall O h r0 D g h' r' id p, wf_store h -> distinct_ids (fd_data (b_filter r0)) -> 0 <= p_diag (b_par r0) ->
  p_mode (b_par r0) = MNone -> b_geo r0 = Some g -> i_geo (b_in r0) = None ->
  rbf_exec O h (setDisplacements D r0) = Some (h', r') ->
  In (id, p) (so_verts (h g)) -> (forall i e r, nth_error (i_nodes (b_in r0)) i = Some e -> nth_error (getRadii r') i = Some r -> r < dist p (fst e)) ->
  ((forall x, 1 < x -> k_fun (p_kernel (b_par r0)) x = 0) /\ k_inf (p_kernel (b_par r0)) = 0 /\ (forall r, In r (getRadii r') -> 0 <= r)) \/
  restricted (map snd (so_verts (h g))) (b_par r0) (getRadii r') ->
  In (id, p) (so_verts (h' g)).
Proof.
  intros O h r0 D g h' r' id p W N Dg M G I H Hp Out K.
  pose proof (C41_moved O h r0 D g h' r' W N Dg M G I H) as [Mv _].
  assert (Su : ~ supported (i_nodes (b_in r0)) (getRadii r') p).
  { intros [i [e [r [A [B C]]]]]. specialize (Out i e r A B). lra. }
  assert (L : length (getRadii r') = length (i_nodes (b_in r0))).
  { rewrite (exec_radii O h (setDisplacements D r0) g h' r' G I H). unfold run_radii. rewrite effective_length. reflexivity. }
  destruct (moved_in _ _ _ _ _ Mv Hp) as [q [Hq [c [_ [A1 A2]]]]].
  assert (E : q = p).
  { destruct (restricted_dec _ (b_par r0) (getRadii r') _ _ Hp Dg) as [Re|Re]; [exact (A2 Su Re)|].
    destruct K as [[Z [Zi P]]|Re']; [|contradiction]. rewrite (A1 (or_intror Re)). unfold vec_combination.
    rewrite !combination_outside by assumption. change (V3 0 0 0) with vzero. rewrite vscale_zero. apply vadd_zero. }
  rewrite <- E. exact Hq.
Qed.
Print Assumptions C41_outside.

(** C41: the execution in parametrisation mode is defined when the radius is: radii given by the
    user and not null, or a homogeneous radius, or at least a displacement that is not null. *)
Theorem C41_defined : forall O h r0 D g, wf_store h -> distinct_ids (fd_data (b_filter r0)) ->
  p_mode (b_par r0) = MNone -> b_geo r0 = Some g -> i_geo (b_in r0) = None ->
  (p_radii (b_par r0) <> [] /\ forall r, In r (p_radii (b_par r0)) -> r <> 0) \/
  (p_radii (b_par r0) = [] /\ dbl_min <= p_value (b_par r0) /\
     (p_real (b_par r0) = true \/ exists a b p q, In (a, p) (so_verts (h g)) /\ In (b, q) (so_verts (h g)) /\ p <> q)) \/
  (p_radii (b_par r0) = [] /\ p_value (b_par r0) < dbl_min /\
     exists i, (i < length (i_nodes (b_in r0)))%nat /\ nth i D vzero <> vzero) ->
  exists r', rbf_execute O h (setDisplacements D r0) = Some r'.
Proof.
  intros O h r0 D g W N M G I K. rewrite (execute_list _ _ _ g) by assumption. apply run_defined; [exact W|exact N|exact M|cbn; lia|].
  intros id p i x _ Hi Z _. revert Z. unfold run_radii. set (r := setDisplacements D r0) in *.
  change (i_nodes (b_in r)) with (i_nodes (b_in r0)) in *. change (b_par r) with (b_par r0). pose proof dbl_min_pos as Dp.
  assert (L : (i < length (i_nodes (b_in r0)))%nat) by (apply nth_error_Some; congruence).
  assert (Rep : forall c n, (i < n)%nat -> nth i (repeat c n) 0 = c).
  { intros c n Hn. assert (X : In (nth i (repeat c n) 0) (repeat c n)) by (apply nth_In; rewrite repeat_length; exact Hn).
    apply repeat_spec in X. exact X. }
  unfold effective_radii. destruct K as [[P1 P2]|[[P1 [P2 P3]]|[P1 [P2 P3]]]].
  - destruct (p_radii (b_par r0)) as [|a l]; [destruct (P1 eq_refl)|]. cbn [fst].
    intros Z. pose proof (fit_nth_error _ dbl_min (length (i_nodes (b_in r0))) (a :: l) i L) as F.
    rewrite (nth_error_nth _ _ 0 F) in Z. destruct (Nat.lt_ge_cases i (length (a :: l))) as [Hl|Hl].
    + apply (P2 (nth i (a :: l) dbl_min)); [apply nth_In; exact Hl|exact Z].
    + rewrite nth_overflow in Z by exact Hl. lra.
  - rewrite P1. cbn [fst]. rewrite Rep by exact L. unfold candidate. destruct (Rlt_dec (p_value (b_par r0)) dbl_min); [lra|].
    destruct P3 as [->|[a [b [q [q' [Ha [Hb Ne]]]]]]]; [lra|]. destruct (p_real (b_par r0)); [lra|]. intros Z.
    apply Rmult_integral in Z. destruct Z as [Z|Z]; [lra|]. apply Ne. exact (box_diag_zero _ _ _ _ _ Ha Hb Z).
  - rewrite P1. cbn [fst]. rewrite Rep by exact L. unfold candidate. destruct (Rlt_dec (p_value (b_par r0)) dbl_min); [|lra].
    destruct P3 as [j [Hj Nz]]. intros Z. unfold run_data, r in Z. cbn [setDisplacements put_in b_in i_data i_nodes] in Z.
    destruct (max_norm_ok (map (fit 0 (length (i_nodes (b_in r0)))) [map vx D; map vy D; map vz D]) (length (i_nodes (b_in r0)))) as [_ [B _]].
    specialize (B j Hj). rewrite data_norm_vec in B by exact Hj. apply norm_pos_iff in Nz. lra.
Qed.
Print Assumptions C41_defined.

(** … but not otherwise: null displacements and the automatic radius divide 0 by 0 at a vertex on a
    node, instead of leaving the geometry as it is. *)
Theorem C41_null_refuted : exists h g x, (exists id, In (id, x) (so_verts (h g))) /\ wf_store h /\
  forall O, rbf_execute O h (setDisplacements [vzero] (setNode [x] (new_rbf MNone (Some g)))) = None.
Proof.
  exists wst, 0%nat, (V3 0 0 0). split; [exists 0%nat; exact wv_in0|]. split; [exact wst_wf|]. intros O.
  destruct (rbf_execute _ _ _) as [r'|] eqn:E; [exfalso|reflexivity]. rewrite (execute_list _ _ _ 0%nat) in E by reflexivity.
  set (r := setDisplacements _ _) in *. destruct (run_vector O wst 0 r r' wst_wf) as [filt [d [_ [_ [_ [_ A]]]]]]; [constructor|cbn; lra|exact E|reflexivity|].
  destruct (A 0%nat (V3 0 0 0) wv_in0) as [B _].
  destruct B as [_ [So _]]; [left; intros [K _]; discriminate K|].
  assert (Z : fst (run_radii wst 0 r) = [0]).
  { unfold run_radii, effective_radii. cbn [r setDisplacements put_in setNode b_in b_par w0 new_rbf i_nodes map length p_radii fst repeat].
    unfold candidate. cbn [p_value]. pose proof dbl_min_pos. destruct (Rlt_dec (-1) dbl_min); [|lra]. f_equal.
    unfold run_data, max_norm, data_norm. cbn [r setDisplacements put_in setNode b_in b_par new_rbf i_nodes i_data map length fit vzero vx vy vz seq fold_left nth].
    replace (0 + 0 * 0 + 0 * 0 + 0 * 0) with 0 by ring. rewrite sqrt_0, Rmax_left by lra. ring. }
  destruct (So [0] (or_introl eq_refl) 0%nat (V3 0 0 0) eq_refl) as [x [c [X1 [_ X3]]]]. rewrite Z in X1. cbn in X1. injection X1 as <-.
  apply X3; [reflexivity|]. rewrite vsub_axis. rewrite norm_axis; lra.
Qed.
Print Assumptions C41_null_refuted.

(** C41, violated: with the compact support asked for and the execution done, a vertex out of every
    support moves, because a radius exceeds the diagonal of the geometry. *)
Theorem C41_compact_refuted : exists O h r0 D g h' r' id p q,
  wf_store h /\ b_geo r0 = Some g /\ p_compact (b_par r0) = true /\ p_mode (b_par r0) = MNone /\ i_geo (b_in r0) = None /\
  rbf_exec O h (setDisplacements D r0) = Some (h', r') /\ In (id, p) (so_verts (h g)) /\
  (forall i e r, nth_error (i_nodes (b_in r0)) i = Some e -> nth_error (getRadii r') i = Some r -> r < dist p (fst e)) /\
  In (id, q) (so_verts (h' g)) /\ q <> p.
Proof.
  destruct (real_defined worac (setFunction (k_heaviside 10) true (setNode [V3 (-10) 0 0] (w0 MNone))) 0 6 [V3 1 0 0]) as [r' E];
    [reflexivity|reflexivity|reflexivity|constructor|lra|]. fold wfar in E.
  assert (Ex : exists h', rbf_exec worac wst (setDisplacements [V3 1 0 0] wfar) = Some (h', r')).
  { unfold rbf_exec. rewrite E. destruct (parametrization worac wst wfar [V3 1 0 0] 0 r' wst_wf) as [d [_ [_ [_ [_ [_ [Es [Eg _]]]]]]]];
      [constructor|cbn; lra|reflexivity|reflexivity|reflexivity|exact E|].
    unfold rbf_apply. rewrite Eg, Es. eexists. reflexivity. }
  destruct Ex as [h' Ex].
  assert (Er : getRadii r' = [6]).
  { rewrite (execute_radii _ _ (setDisplacements [V3 1 0 0] wfar) 0 r' eq_refl eq_refl E). unfold run_radii.
    change (b_par (setDisplacements [V3 1 0 0] wfar)) with (b_par wfar). unfold wfar at 3. rewrite real_radii by lra. reflexivity. }
  destruct (C41_moved worac wst wfar [V3 1 0 0] 0 h' r' wst_wf) as [Mv _]; [constructor|cbn; lra|reflexivity|reflexivity|reflexivity|exact Ex|].
  destruct (moved_in _ _ _ _ _ Mv wv_in0) as [q [Hq [c [Fc [A1 _]]]]].
  exists worac, wst, wfar, [V3 1 0 0], 0%nat, h', r', 0%nat, (V3 0 0 0), q.
  split; [exact wst_wf|]. split; [reflexivity|]. split; [reflexivity|]. split; [reflexivity|]. split; [reflexivity|]. split; [exact Ex|].
  split; [exact wv_in0|]. split; [|split; [exact Hq|]].
  - rewrite Er. intros [|[|i]] e r X Y; cbn in X, Y; try discriminate. injection X as <-. injection Y as <-. cbn [fst].
    rewrite dist_axis by lra. lra.
  - assert (c = 1) as -> by (destruct Fc as [[X _]|[_ X]]; [discriminate X|exact X]).
    rewrite A1.
    + intros X. apply (f_equal vx) in X. unfold vec_combination, combination, node_term, influence in X. rewrite Er in X.
      cbn [wfar setSupportRadiusReal setSupportRadius setFunction setNode put_par put_in b_par b_in i_nodes p_kernel w0 new_rbf map length total nth_error nth vadd vscale vx k_heaviside k_fun] in X.
      destruct (Req_EM_T 6 0); [lra|]. pose proof (heaviside_range 10 (dist (V3 0 0 0) (V3 (-10) 0 0) / 6)). lra.
    + right. intros [_ [d [Hd K]]]. rewrite (diagonal_fun _ _ _ Hd wv_diag) in K. rewrite Er in K.
      specialize (K 6 (or_introl eq_refl)). cbn in K. lra.
Qed.
Print Assumptions C41_compact_refuted.

(** C41: when the weights computed by bitpit solve the interpolation system, a vertex on an active
    node moves by the displacement of this node (times the filter). *)
Theorem C41_interpolation : forall O h r0 D g r' i x id, wf_store h -> distinct_ids (fd_data (b_filter r0)) -> 0 <= p_diag (b_par r0) ->
  p_mode (b_par r0) = MWhole -> b_geo r0 = Some g -> i_geo (b_in r0) = None ->
  rbf_execute O h (setDisplacements D r0) = Some r' ->
  interpolates (p_kernel (b_par r0)) (i_nodes (b_in r0)) (getRadii r') (e_weights (b_res r')) [map vx D; map vy D; map vz D] ->
  nth_error (i_nodes (b_in r0)) i = Some (x, true) -> 0 <= nth i (getRadii r') 0 -> In (id, x) (so_verts (h g)) ->
  exists d c, getDisplacements r' = Some d /\ factor (so_verts (h g)) g r0 id c /\ In (id, vscale c (nth i D vzero)) (fd_data d).
Proof.
  intros O h r0 D g r' i x id W N Dg M G I H Sol Hi Hr Hx.
  destruct (interpolation O h r0 D g r' W N Dg G I H) as [_ [En [d [Ed A]]]]. rewrite En in A by congruence.
  destruct (A id i (x, true) Hx Hi Hr) as [c [Fc V]]. exists d, c. split; [exact Ed|]. split; [exact Fc|].
  cbn [fst] in V. rewrite (Sol 0%nat i x ltac:(cbn; lia) Hi), (Sol 1%nat i x ltac:(cbn; lia) Hi), (Sol 2%nat i x ltac:(cbn; lia) Hi) in V.
  cbn [nth] in V. rewrite !map_nth0 in V by reflexivity. destruct (nth i D vzero) as [a b e] eqn:E. exact V.
Qed.
Print Assumptions C41_interpolation.

(** C41: … and up to the residual of the greedy solver in greedy mode, on every node. *)
Theorem C41_greedy : forall O h r0 D g r' eps i e id, wf_store h -> distinct_ids (fd_data (b_filter r0)) -> 0 <= p_diag (b_par r0) ->
  b_geo r0 = Some g -> i_geo (b_in r0) = None ->
  rbf_execute O h (setDisplacements D r0) = Some r' ->
  interpolates_within eps (p_kernel (b_par r0)) (i_nodes (b_in r')) (getRadii r') (e_weights (b_res r')) [map vx D; map vy D; map vz D] ->
  nth_error (i_nodes (b_in r0)) i = Some e -> 0 <= nth i (getRadii r') 0 -> In (id, fst e) (so_verts (h g)) ->
  exists d c v, getDisplacements r' = Some d /\ factor (so_verts (h g)) g r0 id c /\ In (id, vscale c v) (fd_data d) /\
    Rabs (vx v - vx (nth i D vzero)) <= eps /\ Rabs (vy v - vy (nth i D vzero)) <= eps /\ Rabs (vz v - vz (nth i D vzero)) <= eps.
Proof.
  intros O h r0 D g r' eps i e id W N Dg G I H Sol Hi Hr Hx.
  destruct (interpolation O h r0 D g r' W N Dg G I H) as [Em [_ [d [Ed A]]]].
  assert (Hn : exists a, nth_error (i_nodes (b_in r')) i = Some (fst e, a)).
  { apply (map_nth_error fst) in Hi. rewrite <- Em in Hi. destruct (nth_error (i_nodes (b_in r')) i) as [[y a]|] eqn:X.
    - rewrite (map_nth_error fst _ _ X) in Hi. cbn [fst] in Hi. exists a. injection Hi as ->. reflexivity.
    - apply nth_error_None in X. assert (Y : nth_error (map fst (i_nodes (b_in r'))) i <> None) by congruence.
      apply nth_error_Some in Y. rewrite map_length in Y. lia. }
  destruct Hn as [a Hn]. destruct (A id i (fst e, a) Hx Hn Hr) as [c [Fc V]]. eexists d, c, _. split; [exact Ed|]. split; [exact Fc|].
  split; [exact V|]. cbn [vx vy vz fst].
  pose proof (Sol 0%nat i _ ltac:(cbn; lia) Hn) as S0. pose proof (Sol 1%nat i _ ltac:(cbn; lia) Hn) as S1.
  pose proof (Sol 2%nat i _ ltac:(cbn; lia) Hn) as S2. cbn [nth fst] in S0, S1, S2. rewrite !map_nth0 in S0, S1, S2 by reflexivity. auto.
Qed.
Print Assumptions C41_greedy.

(** A case: two nodes on vertices 3 apart, radius 2, the default function, interpolation: the
    system is diagonal and the weights are the displacements. *)
Example C41_nonvacuous : exists r', let r0 := setSupportRadiusReal 2 (setNode [V3 0 0 0; V3 3 0 0] (w0 MWhole)) in
  let D := [V3 1 2 3; V3 4 5 6] in
  rbf_execute worac wst (setDisplacements D r0) = Some r' /\
  interpolates (p_kernel (b_par r0)) (i_nodes (b_in r0)) (getRadii r') (e_weights (b_res r')) [map vx D; map vy D; map vz D] /\
  (forall r, In r (getRadii r') -> r = 2).
Proof.
  cbv zeta. set (r0 := setSupportRadiusReal 2 (setNode [V3 0 0 0; V3 3 0 0] (w0 MWhole))). set (D := [V3 1 2 3; V3 4 5 6]).
  set (rn := setSupportRadiusReal 2 (setNode [V3 0 0 0; V3 3 0 0] (w0 MNone))).
  assert (Er : fst (run_radii wst 0 (setDisplacements D r0)) = [2; 2]).
  { unfold run_radii. change (b_par (setDisplacements D r0)) with (b_par r0). unfold r0 at 3. rewrite real_radii by lra. reflexivity. }
  assert (Es : run_solve worac wst 0 (setDisplacements D r0) = (i_nodes (b_in r0), [[1; 4]; [2; 5]; [3; 6]])) by reflexivity.
  assert (X : exists r', rbf_run worac wst 0 (setDisplacements D r0) = Some r').
  { rewrite rbf_run_eq. change (filter_of wst 0 (setDisplacements D r0)) with (Some (@None (fld R))). cbv zeta.
    change (i_scalar (b_in (setDisplacements D r0))) with false. cbv iota.
    destruct (field_of _ _ _ _ _ _ _ _) as [f|] eqn:F; [eexists; reflexivity|]. exfalso. revert F.
    apply (field_of_ok vzero vscale) with (r := setDisplacements D r0); [exact wst_wf|constructor|reflexivity|].
    intros id p _ _. unfold run_ev. rewrite Es, Er. cbn [fst snd]. eexists. eexists. split.
    - apply evalRBF_ok. intros w Hw i x Hi. exists 2. destruct i as [|[|i]]; [| |destruct i; discriminate Hi].
      + exists (nth 0 w 0). split; [reflexivity|]. split; [|intros; lra]. destruct Hw as [<-|[<-|[<-|[]]]]; reflexivity.
      + exists (nth 1 w 0). split; [reflexivity|]. split; [|intros; lra]. destruct Hw as [<-|[<-|[<-|[]]]]; reflexivity.
    - reflexivity. }
  destruct X as [r' E]. exists r'. rewrite (execute_list _ _ _ 0%nat) by reflexivity. split; [exact E|].
  assert (Eg : getRadii r' = [2; 2]) by (rewrite (run_radii_of _ _ _ _ _ E); exact Er).
  assert (Ew : e_weights (b_res r') = [[1; 4]; [2; 5]; [3; 6]]).
  { rewrite rbf_run_eq in E. change (filter_of wst 0 (setDisplacements D r0)) with (Some (@None (fld R))) in E. cbv zeta in E.
    change (i_scalar (b_in (setDisplacements D r0))) with false in E. cbv iota in E.
    destruct (field_of _ _ _ _ _ _ _ _) as [f|]; [|discriminate]. injection E as <-. cbn [run_done b_res e_weights]. rewrite Es. reflexivity. }
  rewrite Eg, Ew. split; [|intros r [<-|[<-|[]]]; reflexivity].
  assert (P00 : influence k_wendland (V3 0 0 0) (V3 0 0 0) 2 = 1).
  { unfold influence. destruct (Req_EM_T 2 0); [lra|]. rewrite dist_axis by lra. cbn [k_wendland k_fun]. replace ((0 - 0) / 2) with 0 by field. exact wendland_0. }
  assert (P33 : influence k_wendland (V3 3 0 0) (V3 3 0 0) 2 = 1).
  { unfold influence. destruct (Req_EM_T 2 0); [lra|]. rewrite dist_axis by lra. cbn [k_wendland k_fun]. replace ((3 - 3) / 2) with 0 by field. exact wendland_0. }
  assert (P30 : influence k_wendland (V3 3 0 0) (V3 0 0 0) 2 = 0).
  { unfold influence. destruct (Req_EM_T 2 0); [lra|]. rewrite dist_axis by lra. cbn [k_wendland k_fun]. apply wendland_out. lra. }
  assert (P03 : influence k_wendland (V3 0 0 0) (V3 3 0 0) 2 = 0).
  { unfold influence. destruct (Req_EM_T 2 0); [lra|]. replace (dist (V3 0 0 0) (V3 3 0 0)) with (dist (V3 3 0 0) (V3 0 0 0)).
    - rewrite dist_axis by lra. cbn [k_wendland k_fun]. apply wendland_out. lra.
    - unfold dist, dot, vsub. cbn [vx vy vz]. f_equal. ring. }
  intros j i x Hj Hi. change (i_nodes (b_in r0)) with [(V3 0 0 0, true); (V3 3 0 0, true)] in *. change (p_kernel (b_par r0)) with k_wendland.
  destruct i as [|[|i]]; [| |destruct i; discriminate Hi]; cbn in Hi; injection Hi as <-;
    (destruct j as [|[|[|j]]]; [| | |cbn in Hj; lia]);
    unfold combination, node_term; cbn [length total nth_error nth D map vx vy vz]; rewrite ?P00, ?P33, ?P30, ?P03; ring.
Qed.
