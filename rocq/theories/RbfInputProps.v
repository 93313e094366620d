(** Radial basis functions, the inputs: C76 (support radii), C77 (scalar displacements and nodes from a
    geometry), C78 (duplicated nodes). *)
From Coq Require Import List Arith Bool Reals Lra Lia Sorted Permutation.
From Verif Require Import Vec SharedPtr Field FieldProofs Manip ManipSpec ManipProofs ShapeProofs.
From Verif Require Import Rbf RbfSpec RbfProofs RbfKernel RbfWitness.
Import ListNotations.
Open Scope R_scope.

(** C76: after a call of setVariableSupportRadii with a list (parametrisation mode, nodes given as a
    list), node i has the radius i of the list, the smallest double beyond the list, whatever was set
    before. *)
Theorem C76_variable : forall O h r0 l g r', p_mode (b_par r0) = MNone -> b_geo r0 = Some g -> i_geo (b_in r0) = None -> l <> [] ->
  rbf_execute O h (setVariableSupportRadii l r0) = Some r' ->
  length (getRadii r') = length (i_nodes (b_in r0)) /\
  forall i, (i < length (i_nodes (b_in r0)))%nat -> nth_error (getRadii r') i = Some (nth i l dbl_min).
Proof.
  intros O h r0 l g r' M G I Nl H. destruct l as [|a l]; [destruct (Nl eq_refl)|].
  assert (E : setVariableSupportRadii (a :: l) r0 =
    put_par r0 (Rp (p_mode (b_par r0)) (p_kernel (b_par r0)) (p_compact (b_par r0)) (p_diag (b_par r0)) (p_tol (b_par r0)) (-1) false (a :: l) (p_base (b_par r0)))).
  { cbn [setVariableSupportRadii]. rewrite M. reflexivity. }
  rewrite E in H. rewrite (execute_radii O h (put_par r0 _) g r' G I H).
  unfold run_radii. rewrite effective_length. split; [reflexivity|]. intros i Hi.
  unfold effective_radii. cbn [put_par b_par b_in p_radii fst]. apply fit_nth_error. exact Hi.
Qed.
Print Assumptions C76_variable.

(** C76: after setSupportRadiusReal x, x at least the smallest double, every node has the radius x;
    after setSupportRadiusLocal x it is x times the diagonal of the box of the target geometry. *)
Theorem C76_homogeneous : forall O h r0 x g r' (real : bool), b_geo r0 = Some g -> i_geo (b_in r0) = None -> dbl_min <= x -> so_verts (h g) <> [] ->
  rbf_execute O h ((if real then setSupportRadiusReal x else setSupportRadiusLocal x) r0) = Some r' ->
  length (getRadii r') = length (i_nodes (b_in r0)) /\
  exists d, diagonal (map snd (so_verts (h g))) d /\ forall r, In r (getRadii r') -> r = if real then x else x * d.
Proof.
  intros O h r0 x g r' real G I Hx Ne H. set (r := (if real then setSupportRadiusReal x else setSupportRadiusLocal x) r0) in *.
  assert (Gr : b_geo r = Some g) by (unfold r; destruct real; exact G). assert (Ir : i_geo (b_in r) = None) by (unfold r; destruct real; exact I).
  assert (Er : b_in r = b_in r0) by (unfold r; destruct real; reflexivity).
  rewrite (execute_radii O h r g r' Gr Ir H). unfold run_radii. rewrite effective_length, Er. split; [reflexivity|].
  exists (box_diag (map snd (so_verts (h g)))). split; [apply box_diagonal; intros K; apply map_eq_nil in K; exact (Ne K)|].
  unfold effective_radii. replace (p_radii (b_par r)) with (@nil R) by (unfold r; destruct real; reflexivity). cbn [fst].
  intros c Hc. apply repeat_spec in Hc. subst c. unfold candidate.
  assert (Ev : p_value (b_par r) = x).
  { pose proof dbl_min_pos. unfold r; destruct real; cbn; apply Rmax_right; lra. }
  rewrite Ev. destruct (Rlt_dec x dbl_min); [lra|]. replace (p_real (b_par r)) with real by (unfold r; destruct real; reflexivity).
  destruct real; reflexivity.
Qed.
Print Assumptions C76_homogeneous.

(** C76: after either call with a value that is negative or null, every radius is three times the
    greatest norm of the displacements of the nodes. *)
Theorem C76_automatic : forall O h r0 x g r' (real : bool) D, b_geo r0 = Some g -> i_geo (b_in r0) = None -> x <= 0 ->
  rbf_execute O h (setDisplacements D ((if real then setSupportRadiusReal x else setSupportRadiusLocal x) r0)) = Some r' ->
  length (getRadii r') = length (i_nodes (b_in r0)) /\
  forall r, In r (getRadii r') ->
    (forall i, (i < length (i_nodes (b_in r0)))%nat -> 3 * norm (nth i D vzero) <= r) /\
    exists i, (i < length (i_nodes (b_in r0)))%nat /\ r = 3 * norm (nth i D vzero).
Proof.
  intros O h r0 x g r' real D G I Hx H. set (r1 := (if real then setSupportRadiusReal x else setSupportRadiusLocal x) r0) in *.
  set (r := setDisplacements D r1) in *.
  assert (Gr : b_geo r = Some g) by (unfold r, r1; destruct real; exact G). assert (Ir : i_geo (b_in r) = None) by (unfold r, r1; destruct real; exact I).
  assert (Er : i_nodes (b_in r) = i_nodes (b_in r0)) by (unfold r, r1; destruct real; reflexivity).
  rewrite (execute_radii O h r g r' Gr Ir H). unfold run_radii. rewrite effective_length, Er. split; [reflexivity|].
  unfold effective_radii. replace (p_radii (b_par r)) with (@nil R) by (unfold r, r1; destruct real; reflexivity). cbn [fst].
  intros c Hc. assert (Hn : (0 < length (i_nodes (b_in r0)))%nat) by (destruct (length (i_nodes (b_in r0))); [destruct Hc|lia]).
  apply repeat_spec in Hc. subst c. unfold candidate.
  assert (Ev : p_value (b_par r) <= 0).
  { unfold r, r1; destruct real; cbn; apply Rmax_lub; lra. }
  pose proof dbl_min_pos. destruct (Rlt_dec (p_value (b_par r)) dbl_min); [|lra].
  assert (Ed : run_data r = map (fit 0 (length (i_nodes (b_in r0)))) [map vx D; map vy D; map vz D]).
  { unfold run_data. rewrite Er. reflexivity. }
  rewrite Ed. set (n := length (i_nodes (b_in r0))) in *. set (data := map (fit 0 n) _).
  destruct (max_norm_ok data n) as [B0 [B1 B2]].
  assert (En : forall i, (i < n)%nat -> data_norm data i = norm (nth i D vzero)) by (intros i Hi; apply data_norm_vec, Hi).
  split.
  - intros i Hi. specialize (B1 i Hi). rewrite En in B1 by exact Hi. lra.
  - destruct B2 as [B2|[i [Hi B2]]].
    + exists 0%nat. split; [exact Hn|]. rewrite B2. specialize (B1 0%nat Hn). rewrite En, B2 in B1 by exact Hn.
      assert (0 <= norm (nth 0 D vzero)) by apply sqrt_pos. lra.
    + exists i. split; [exact Hi|]. rewrite B2, En by exact Hi. ring.
Qed.
Print Assumptions C76_automatic.

Example C76_nonvacuous : exists r', rbf_execute worac wst (setDisplacements [V3 1 0 0] wone) = Some r' /\ getRadii r' = [2].
Proof.
  destruct (real_defined worac (setNode [V3 0 0 0] (w0 MNone)) 0 2 [V3 1 0 0]) as [r' E]; [reflexivity|reflexivity|reflexivity|constructor|lra|].
  exists r'. split; [exact E|]. rewrite (execute_radii _ _ (setDisplacements [V3 1 0 0] wone) 0 r' eq_refl eq_refl E).
  unfold run_radii. change (b_par (setDisplacements [V3 1 0 0] wone)) with (b_par wone). unfold wone at 3. rewrite real_radii by lra. reflexivity.
Qed.

(** C76, violated: the documentation says negative radii of the list are raised to the smallest
    allowed value; they are used as they are. *)
Theorem C76_negative_refuted : exists O h r0 D r' r, rbf_execute O h (setDisplacements D (setVariableSupportRadii [-1] r0)) = Some r' /\
  In r (getRadii r') /\ r < 0.
Proof.
  set (r := setDisplacements [V3 1 0 0] (setVariableSupportRadii [-1] (setNode [V3 0 0 0] (w0 MNone)))).
  assert (Er : fst (run_radii wst 0 r) = [-1]) by reflexivity.
  destruct (run_defined worac wst 0 r wst_wf) as [r' E]; [constructor|reflexivity|cbn; lia| |].
  - intros id p i x _ Hi Z. exfalso. rewrite Er in Z. destruct i as [|i]; [cbn in Z; lra|destruct i; discriminate Hi].
  - exists worac, wst, (setNode [V3 0 0 0] (w0 MNone)), [V3 1 0 0], r', (-1). fold r.
    rewrite (execute_list _ _ _ 0%nat) by reflexivity. split; [exact E|]. rewrite (run_radii_of _ _ _ _ _ E), Er. split; [left; reflexivity|lra].
Qed.
Print Assumptions C76_negative_refuted.

(** nodes from the geometry 1 with a displacement field; the support radii of the field are listed
    by increasing id *)
Definition wfield : fld vec := Fd (Some 1%nat) LPoint [(9%nat, V3 1 0 0); (5%nat, V3 0 2 0)].
Definition wgeo : rbf := setNode_geo (Some 1%nat) (setDisplacements_field (Some wfield) (w0 MNone)).

(** C76, violated: radii given as a list are dropped when the nodes come from a geometry. *)
Theorem C76_list_geometry_refuted : exists O h r0 l n r', p_mode (b_par r0) = MNone /\ i_geo (b_in r0) = Some n /\
  length l = length (so_verts (h n)) /\ rbf_execute O h (setVariableSupportRadii l r0) = Some r' /\
  length (getRadii r') = length l /\ forall r, In r (getRadii r') -> ~ In r l.
Proof.
  set (r := setVariableSupportRadii [2; 2] wgeo).
  assert (E : exists r1, initRBFwGeometry wst 1 r = Some (Some r1) /\ i_nodes (b_in r1) = [(V3 3 0 0, true); (V3 0 0 0, true)] /\
     i_data (b_in r1) = [[0; 1]; [2; 0]; [0; 0]] /\ p_radii (b_par r1) = [] /\ p_value (b_par r1) = -1 /\ p_mode (b_par r1) = MNone /\
     b_geo r1 = Some 0%nat /\ b_filter r1 = no_field /\ i_scalar (b_in r1) = false /\ p_compact (b_par r1) = false).
  { eexists. split; [reflexivity|]. repeat split. }
  destruct E as [r1 [E [E1 [E2 [E3 [E4 [E5 [E6 [E7 [E8 E9]]]]]]]]]].
  assert (Er : fst (run_radii wst 0 r1) = [6; 6]).
  { unfold run_radii, effective_radii. rewrite E3. cbn [fst]. unfold candidate, run_data. rewrite E4, E1, E2. pose proof dbl_min_pos.
    destruct (Rlt_dec (-1) dbl_min); [|lra]. unfold max_norm, data_norm. cbn [length map fit seq fold_left nth repeat].
    replace (0 + 0 * 0 + 2 * 2 + 0 * 0) with (2 * 2) by ring. replace (0 + 1 * 1 + 0 * 0 + 0 * 0) with (1 * 1) by ring.
    rewrite !sqrt_square by lra. rewrite (Rmax_right 0 2) by lra. rewrite Rmax_left by lra. replace (2 * 3) with 6 by ring. reflexivity. }
  destruct (run_defined worac wst 0 r1 wst_wf) as [r' F].
  - rewrite E7. constructor.
  - exact E5.
  - rewrite E8, E2. cbn. lia.
  - intros id p i x _ Hi Z. exfalso. rewrite Er in Z. rewrite E1 in Hi.
    destruct i as [|[|i]]; [cbn in Z; lra|cbn in Z; lra|destruct i; discriminate Hi].
  - exists worac, wst, wgeo, [2; 2], 1%nat, r'. split; [reflexivity|]. split; [reflexivity|]. split; [reflexivity|]. fold r.
    split; [fold r; unfold rbf_execute; change (b_geo r) with (Some 0%nat); change (i_geo (b_in r)) with (Some 1%nat); cbv beta iota; rewrite E; exact F|].
    rewrite (run_radii_of _ _ _ _ _ F), Er. split; [reflexivity|]. intros x [<-|[<-|[]]] [K|[K|[]]]; lra.
Qed.
Print Assumptions C76_list_geometry_refuted.

(** C76, violated: a field of radii that misses a node with a smaller id writes out of the bounds of
    the vector of radii. *)
Theorem C76_partial_field_refuted : exists h r0 n, i_geo (b_in r0) = Some n /\ wf_store h /\
  (exists f, i_radii (b_in r0) = Some f /\ fd_geo f = Some n /\ incl (map fst (fd_data f)) (map fst (so_verts (h n)))) /\
  forall O, rbf_execute O h r0 = None.
Proof.
  exists wst, (setVariableSupportRadii_field (Some (Fd (Some 1%nat) LPoint [(9%nat, 2)])) wgeo), 1%nat.
  split; [reflexivity|]. split; [exact wst_wf|]. split; [eexists; split; [reflexivity|]; split; [reflexivity|]; intros i [<-|[]]; left; reflexivity|].
  intros O. reflexivity.
Qed.
Print Assumptions C76_partial_field_refuted.

(** C76, violated: a field of radii is ignored when the nodes are given as a list. *)
Theorem C76_field_list_refuted : exists O h r0 D f r', p_mode (b_par r0) = MNone /\
  rbf_execute O h (setDisplacements D (setVariableSupportRadii_field (Some f) r0)) = Some r' /\
  fd_data f <> [] /\ getRadii r' <> [] /\ forall r, In r (getRadii r') -> ~ In r (map snd (fd_data f)).
Proof.
  set (r := setDisplacements [V3 1 0 0] (setVariableSupportRadii_field (Some (Fd (Some 1%nat) LPoint [(9%nat, 2); (5%nat, 2)])) (setNode [V3 0 0 0] (w0 MNone)))).
  assert (Er : fst (run_radii wst 0 r) = [3]).
  { unfold run_radii, effective_radii. cbn [r setDisplacements setVariableSupportRadii_field put_in put_par setNode b_par b_in w0 new_rbf p_mode is_none p_radii i_nodes map length fst repeat].
    unfold candidate. cbn [p_value]. pose proof dbl_min_pos. destruct (Rlt_dec (-1) dbl_min); [|lra]. unfold max_norm, run_data, data_norm.
    cbn [r setDisplacements setVariableSupportRadii_field put_in put_par setNode b_par b_in w0 new_rbf p_mode is_none i_nodes i_data map length fit seq fold_left nth vx vy vz].
    replace (0 + 1 * 1 + 0 * 0 + 0 * 0) with (1 * 1) by ring. rewrite sqrt_square by lra. rewrite Rmax_right by lra. f_equal. ring. }
  destruct (run_defined worac wst 0 r wst_wf) as [r' E]; [constructor|reflexivity|cbn; lia| |].
  - intros id p i x _ Hi Z. exfalso. rewrite Er in Z. destruct i as [|i]; [cbn in Z; lra|destruct i; discriminate Hi].
  - exists worac, wst, (setNode [V3 0 0 0] (w0 MNone)), [V3 1 0 0], (Fd (Some 1%nat) LPoint [(9%nat, 2); (5%nat, 2)]), r'. fold r.
    split; [reflexivity|]. rewrite (execute_list _ _ _ 0%nat) by reflexivity. split; [exact E|]. split; [discriminate|].
    rewrite (run_radii_of _ _ _ _ _ E), Er. split; [discriminate|]. intros x [<-|[]] [K|[K|[]]]; cbn in K; lra.
Qed.
Print Assumptions C76_field_list_refuted.

(** C77: scalar displacements of the nodes, in parametrisation mode: the execution gives every
    vertex the sum of the scalars of the nodes times their basis functions, times the filter; with apply a
    vertex of a surface moves along its normal by this amount (a vertex of no cell does not move), and
    a geometry that is not a surface does not move. *)
Theorem C77_scalar : forall O h r0 S g h' r', wf_store h -> distinct_ids (fd_data (b_filter r0)) -> 0 <= p_diag (b_par r0) ->
  p_mode (b_par r0) = MNone -> b_geo r0 = Some g -> i_geo (b_in r0) = None ->
  rbf_exec O h (setScalarDisplacements S r0) = Some (h', r') ->
  exists d, getScalarDisplacements r' = Some d /\ getDisplacements r' = None /\ distinct_ids (fd_data d) /\
  (forall id p, In (id, p) (so_verts (h g)) -> exists c, factor (so_verts (h g)) g r0 id c /\
    (supported (i_nodes (b_in r0)) (getRadii r') p \/ ~ restricted (map snd (so_verts (h g))) (b_par r0) (getRadii r') ->
     In (id, c * combination (p_kernel (b_par r0)) (i_nodes (b_in r0)) (getRadii r') (fun i => nth i S 0) p) (fd_data d)) /\
    (~ supported (i_nodes (b_in r0)) (getRadii r') p -> restricted (map snd (so_verts (h g))) (b_par r0) (getRadii r') ->
     In (id, 0) (fd_data d))) /\
  (so_type (h g) = 1%nat ->
    moved (fun id p q => match so_normal (h g) (so_verts (h g)) id with
                         | None => q = p
                         | Some v => exists s, In (id, s) (fd_data d) /\ q = vadd p (vscale s v)
                         end) (so_verts (h g)) (so_verts (h' g)) /\ forall k, k <> g -> h' k = h k) /\
  (so_type (h g) <> 1%nat -> h' = h).
Proof.
  intros O h r0 Sd g h' r' W N Dg M G I H. unfold rbf_exec in H. rewrite (execute_list _ _ _ g) in H by assumption.
  set (r := setScalarDisplacements Sd r0) in *. destruct (rbf_run O h g r) as [r1|] eqn:E; [|discriminate].
  destruct (run_scalar O h g r r1 W N Dg E eq_refl) as [filt [d [Er [A1 [A2 [A3 A4]]]]]]. rewrite Er in H.
  assert (Es : run_solve O h g r = (i_nodes (b_in r0), run_data r)).
  { unfold run_solve. change (p_mode (b_par r)) with (p_mode (b_par r0)). rewrite M. reflexivity. }
  rewrite Es in A4. cbn [fst snd] in A4. change (b_par r) with (b_par r0) in A4.
  assert (Val : forall id p, In (id, p) (so_verts (h g)) -> exists c, factor (so_verts (h g)) g r0 id c /\
    (supported (i_nodes (b_in r0)) (fst (run_radii h g r)) p \/ ~ restricted (map snd (so_verts (h g))) (b_par r0) (fst (run_radii h g r)) ->
     In (id, c * combination (p_kernel (b_par r0)) (i_nodes (b_in r0)) (fst (run_radii h g r)) (fun i => nth i Sd 0) p) (fd_data d)) /\
    (~ supported (i_nodes (b_in r0)) (fst (run_radii h g r)) p -> restricted (map snd (so_verts (h g))) (b_par r0) (fst (run_radii h g r)) ->
     In (id, 0) (fd_data d))).
  { intros id p Hp. destruct (A4 id p Hp) as [B1 B2]. destruct (factor_exists h g r0 id W N) as [c Fc]; [apply in_map_iff; exists (id, p); auto|].
    exists c. split; [exact Fc|]. split; [|intros H1 H2; exact (B2 H2 H1)]. intros K.
    destruct (B1 ltac:(tauto)) as [_ [_ [c' [Fc' V]]]]. rewrite (factor_fun _ _ _ _ _ _ N Fc Fc').
    unfold run_data, r in V. cbn [setScalarDisplacements put_in b_in i_nodes i_data map nth] in V.
    rewrite (combination_ext _ _ _ _ (fun i => nth i Sd 0)) in V by (intros i Hi; apply fit_nth, Hi). exact V. }
  unfold rbf_apply in H. change (b_geo (run_done O h g r filt no_field d)) with (b_geo r0) in H. rewrite G in H.
  change (i_scalar (b_in (run_done O h g r filt no_field d))) with true in H. cbv iota in H.
  destruct (Nat.eqb (so_type (h g)) 1) eqn:T.
  - change (fd_data (e_scal (b_res (run_done O h g r filt no_field d)))) with (fd_data d) in H.
    destruct (along_normals _ _ _) as [l|] eqn:L; [|discriminate]. injection H as <- <-. exists d.
    split; [reflexivity|]. split; [reflexivity|]. split; [exact A3|]. split; [exact Val|]. split; [|intros K; apply Nat.eqb_eq in T; contradiction].
    intros _. rewrite put_verts_same. split; [|intros k Hk; apply put_verts_other; exact Hk].
    pose proof (along_normals_inv _ _ _ _ L (W g)) as Al. apply moved_map2. intros i p Hp. specialize (Al i p Hp).
    rewrite find_move. destruct (so_normal (h g) (so_verts (h g)) i) as [v|].
    + destruct Al as [s [F1 ->]]. exists s. split; [apply find_in; exact F1|reflexivity].
    + rewrite Al. reflexivity.
  - injection H as <- <-. exists d. split; [reflexivity|]. split; [reflexivity|]. split; [exact A3|]. split; [exact Val|].
    split; [intros K; rewrite K in T; discriminate|reflexivity].
Qed.
Print Assumptions C77_scalar.

Example C77_nonvacuous : exists h' r', rbf_exec worac wst (setScalarDisplacements [7] wone) = Some (h', r') /\
  In (0%nat, V3 0 0 7) (so_verts (h' 0%nat)).
Proof.
  set (r := setScalarDisplacements [7] wone).
  assert (Er : fst (run_radii wst 0 r) = [2]).
  { unfold run_radii. change (b_par r) with (b_par wone). unfold wone at 1. rewrite real_radii by lra. reflexivity. }
  destruct (run_defined worac wst 0 r wst_wf) as [r1 E]; [constructor|reflexivity|cbn; lia| |].
  - intros id p i x _ Hi Z. exfalso. rewrite Er in Z. destruct i as [|i]; [cbn in Z; lra|destruct i; discriminate Hi].
  - assert (Ex : exists h' r', rbf_exec worac wst r = Some (h', r')).
    { unfold rbf_exec. rewrite (execute_list _ _ _ 0%nat) by reflexivity. rewrite E.
      destruct (run_scalar worac wst 0 r r1 wst_wf) as [filt [d [E1 [_ [_ [Nd A]]]]]]; [constructor|cbn; lra|exact E|reflexivity|].
      assert (K : forall id p, In (id, p) wv -> exists s, find id (fd_data d) = Some s).
      { intros id p Hp. destruct (A id p Hp) as [B _]. destruct B as [_ [_ [c [_ V]]]]; [left; intros [X _]; discriminate X|].
        eexists. apply (in_find _ _ _ _ Nd V). }
      rewrite E1. unfold rbf_apply. change (b_geo (run_done worac wst 0 r filt no_field d)) with (Some 0%nat).
      change (i_scalar (b_in (run_done worac wst 0 r filt no_field d))) with true. cbv beta iota.
      change (Nat.eqb (so_type (wst 0%nat)) 1) with true. cbv iota.
      change (fd_data (e_scal (b_res (run_done worac wst 0 r filt no_field d)))) with (fd_data d).
      assert (L : along_normals (so_normal (wst 0%nat) (so_verts (wst 0%nat))) (fd_data d) (so_verts (wst 0%nat)) <> None).
      { change (so_verts (wst 0%nat)) with wv. cbn [wv along_normals wst so_normal].
        destruct (K _ _ wv_in0) as [s0 ->], (K _ _ wv_in1) as [s1 ->], (K _ _ wv_in2) as [s2 ->]. discriminate. }
      destruct (along_normals _ _ _); [|destruct (L eq_refl)]. eexists. eexists. reflexivity. }
    destruct Ex as [h' [r' Ex]]. exists h', r'. split; [exact Ex|].
    destruct (C77_scalar worac wst wone [7] 0 h' r' wst_wf) as [d [_ [_ [Nd [V [Mv _]]]]]];
      [constructor|cbn; lra|reflexivity|reflexivity|reflexivity|exact Ex|].
    destruct (Mv eq_refl) as [Mv' _]. destruct (moved_in _ _ _ _ _ Mv' wv_in0) as [q [Hq K]]. cbn [wst so_normal] in K. destruct K as [s [Hs ->]].
    assert (s = 7).
    { destruct (V 0%nat (V3 0 0 0) wv_in0) as [c [Fc [V1 _]]].
      assert (c = 1) as -> by (destruct Fc as [[X _]|[_ X]]; [discriminate X|exact X]).
      assert (R2 : getRadii r' = [2]) by (rewrite (exec_radii _ _ r 0 h' r' eq_refl eq_refl Ex); exact Er).
      rewrite R2 in V1. specialize (V1 ltac:(right; intros [X _]; discriminate X)).
      unfold combination, node_term, influence in V1. cbn [wone setSupportRadiusReal setSupportRadius setNode put_par put_in b_in b_par p_kernel i_nodes w0 new_rbf map length total nth_error nth k_wendland k_fun] in V1.
      destruct (Req_EM_T 2 0); [lra|]. rewrite dist_axis in V1 by lra. replace ((0 - 0) / 2) with 0 in V1 by field. rewrite wendland_0 in V1.
      pose proof (in_find _ _ _ _ Nd V1) as X1. pose proof (in_find _ _ _ _ Nd Hs) as X2. rewrite X1 in X2. injection X2 as <-. ring. }
    subst s. unfold vadd, vscale, up in Hq. cbn [vx vy vz] in Hq.
    replace (0 + 7 * 0) with 0 in Hq by ring. replace (0 + 7 * 1) with 7 in Hq by ring. exact Hq.
Qed.

(** C77: nodes and displacements taken from a geometry and a field of its vertices are those of the
    lists by increasing id, null where the field has no value. *)
Theorem C77_geometry : forall O h r n g f l D, wf_store h -> distinct_ids (fd_data f) ->
  b_geo r = Some g -> i_geo (b_in r) = Some n -> i_scalar (b_in r) = false -> i_displ (b_in r) = Some f -> fd_geo f = Some n ->
  i_radii (b_in r) = None -> p_radii (b_par r) = [] ->
  listed (so_verts (h n)) l -> Forall2 (fun e d => value_or vzero f (fst e) d) l D ->
  option_map b_res (rbf_execute O h r) =
  option_map b_res (rbf_execute O h (setNode (map snd l) (setDisplacements D r))).
Proof.
  intros O h r n g f l D W N G I Sc Ef Gf Er Ep Ll HD. rewrite (execute_list O h (setNode (map snd l) (setDisplacements D r)) g G eq_refl).
  unfold rbf_execute. rewrite G, I. unfold initRBFwGeometry. rewrite Sc, Ef, Er. cbn [linked_to]. rewrite Gf. cbn [geo_eqb].
  rewrite Nat.eqb_refl. cbn [andb]. rewrite has_radius_none, put_radii_none. cbn [length repeat].
  rewrite <- (listed_by_id _ _ (W n) Ll). rewrite <- (values_listed _ _ _ _ _ N HD).
  apply run_same; cbn [b_in b_par b_filter b_bfilter i_nodes i_data i_scalar p_mode p_kernel p_compact p_diag p_tol setNode setDisplacements put_in]; try reflexivity.
  - rewrite map_map. reflexivity.
  - unfold run_radii, run_data. cbn [b_in b_par i_nodes i_data setNode setDisplacements put_in]. rewrite map_map.
    unfold effective_radii. cbn [p_radii]. rewrite Ep. reflexivity.
Qed.
Print Assumptions C77_geometry.

(** C77: … and with a field of support radii complete on the vertices, the list of radii. *)
Theorem C77_geometry_radii : forall O h r n g f fr l D rs, wf_store h -> distinct_ids (fd_data f) -> distinct_ids (fd_data fr) ->
  b_geo r = Some g -> i_geo (b_in r) = Some n -> i_scalar (b_in r) = false -> i_displ (b_in r) = Some f -> fd_geo f = Some n ->
  i_radii (b_in r) = Some fr -> fd_geo fr = Some n -> p_mode (b_par r) = MNone -> so_verts (h n) <> [] ->
  listed (so_verts (h n)) l -> Forall2 (fun e d => value_or vzero f (fst e) d) l D ->
  Forall2 (fun e x => In (fst e, x) (fd_data fr)) l rs ->
  option_map b_res (rbf_execute O h r) =
  option_map b_res (rbf_execute O h (setVariableSupportRadii rs (setNode (map snd l) (setDisplacements D r)))).
Proof.
  intros O h r n g f fr l D rs W N Nr G I Sc Ef Gf Er Gr M Ne Ll HD HR.
  assert (Hv : forall i, In i (map fst l) -> field_at (Some fr) i <> None).
  { intros i Hi. clear - HR Hi Nr. induction HR as [|e x l rs He _ IH]; [destruct Hi|]. destruct Hi as [<-|Hi]; [|exact (IH Hi)].
    cbn [field_at]. rewrite (in_find _ _ _ _ Nr He). discriminate. }
  assert (Ers : rs = map (value_at 0 (Some fr)) (map fst l)).
  { clear - HR Nr. induction HR as [|e x l rs He _ IH]; cbn [map]; [reflexivity|]. rewrite <- IH. f_equal.
    unfold value_at. cbn [field_at]. rewrite (in_find _ _ _ _ Nr He). reflexivity. }
  assert (Nl : rs <> []).
  { rewrite Ers. intros K. apply map_eq_nil, map_eq_nil in K. subst l. destruct Ll as [P _]. apply Permutation_sym, Permutation_nil in P. exact (Ne P). }
  destruct rs as [|a rs]; [destruct (Nl eq_refl)|]. set (r2 := setNode (map snd l) (setDisplacements D r)).
  assert (E2 : setVariableSupportRadii (a :: rs) r2 =
    put_par r2 (Rp (p_mode (b_par r)) (p_kernel (b_par r)) (p_compact (b_par r)) (p_diag (b_par r)) (p_tol (b_par r)) (-1) false (a :: rs) (p_base (b_par r)))).
  { cbn [setVariableSupportRadii]. change (p_mode (b_par r2)) with (p_mode (b_par r)). rewrite M. reflexivity. }
  rewrite E2. set (p2 := Rp _ _ _ _ _ _ _ _ _). rewrite (execute_list O h (put_par r2 p2) g G eq_refl). unfold p2. clear p2.
  unfold rbf_execute. rewrite G, I. unfold initRBFwGeometry. rewrite Sc, Ef, Er. cbn [linked_to]. rewrite Gf, Gr. cbn [geo_eqb].
  rewrite Nat.eqb_refl. cbn [andb]. rewrite <- (listed_by_id _ _ (W n) Ll). rewrite (has_radius_all _ _ Hv).
  pose proof (put_radii_all (Some fr) (map fst l) [] 0 eq_refl Hv) as Pr. cbn [List.app] in Pr. rewrite Pr, <- Ers.
  rewrite <- (values_listed _ _ _ _ _ N HD).
  apply run_same; cbn [r2 b_in b_par b_filter b_bfilter i_nodes i_data i_scalar p_mode p_kernel p_compact p_diag p_tol setNode setDisplacements put_in put_par]; try reflexivity.
  - rewrite map_map. reflexivity.
  - unfold run_radii, run_data. cbn [r2 b_in b_par i_nodes i_data setNode setDisplacements put_in put_par]. rewrite map_map. reflexivity.
Qed.
Print Assumptions C77_geometry_radii.

Example C77_geometry_nonvacuous : exists l D rs r', let fr := Fd (Some 1%nat) LPoint [(5%nat, 2); (9%nat, 3)] in
  let r := setVariableSupportRadii_field (Some fr) wgeo in
  listed (so_verts (wst 1%nat)) l /\ Forall2 (fun e d => value_or vzero wfield (fst e) d) l D /\
  Forall2 (fun e x => In (fst e, x) (fd_data fr)) l rs /\ i_displ (b_in r) = Some wfield /\ i_geo (b_in r) = Some 1%nat /\
  rbf_execute worac wst r = Some r' /\ getRadii r' = [2; 3].
Proof.
  set (fr := Fd (Some 1%nat) LPoint [(5%nat, 2); (9%nat, 3)]). set (r := setVariableSupportRadii_field (Some fr) wgeo).
  assert (E : exists r1, initRBFwGeometry wst 1 r = Some (Some r1) /\ i_nodes (b_in r1) = [(V3 3 0 0, true); (V3 0 0 0, true)] /\
     i_data (b_in r1) = [[0; 1]; [2; 0]; [0; 0]] /\ p_radii (b_par r1) = [2; 3] /\ p_mode (b_par r1) = MNone /\
     b_geo r1 = Some 0%nat /\ b_filter r1 = no_field /\ i_scalar (b_in r1) = false) by (eexists; split; [reflexivity|]; repeat split).
  destruct E as [r1 [E [E1 [E2 [E3 [E5 [E6 [E7 E8]]]]]]]].
  assert (Er : fst (run_radii wst 0 r1) = [2; 3]) by (unfold run_radii, effective_radii; rewrite E3, E1; reflexivity).
  destruct (run_defined worac wst 0 r1 wst_wf) as [r' F].
  - rewrite E7. constructor.
  - exact E5.
  - rewrite E8, E2. cbn. lia.
  - intros id p i x _ Hi Z. exfalso. rewrite Er in Z. rewrite E1 in Hi.
    destruct i as [|[|i]]; [cbn in Z; lra|cbn in Z; lra|destruct i; discriminate Hi].
  - exists [(5%nat, V3 3 0 0); (9%nat, V3 0 0 0)], [V3 0 2 0; V3 1 0 0], [2; 3], r'. cbv zeta.
    split; [split; [apply perm_swap|repeat constructor]|].
    split; [constructor; [left; right; left; reflexivity|constructor; [left; left; reflexivity|constructor]]|].
    split; [constructor; [left; reflexivity|constructor; [right; left; reflexivity|constructor]]|].
    split; [reflexivity|]. split; [reflexivity|].
    split; [change (rbf_execute worac wst r = Some r'); unfold rbf_execute; change (b_geo r) with (Some 0%nat); change (i_geo (b_in r)) with (Some 1%nat); cbv beta iota; rewrite E; exact F|].
    rewrite (run_radii_of _ _ _ _ _ F). exact Er.
Qed.

(** C77, violated: setScalarDisplacements with a field leaves the class in vector mode: the scalar
    field is not used and no scalar result is available. *)
Theorem C77_scalar_field_refuted : exists O h f r0 g r' d, b_geo r0 = Some g /\ i_geo (b_in r0) = fd_geo f /\ (exists n, fd_geo f = Some n) /\
  (exists id s, In (id, s) (fd_data f) /\ s <> 0) /\
  rbf_execute O h (setScalarDisplacements_field (Some f) r0) = Some r' /\
  getScalarDisplacements r' = None /\ getDisplacements r' = Some d /\
  forall id p, In (id, p) (so_verts (h g)) -> In (id, vzero) (fd_data d).
Proof.
  set (f := Fd (Some 1%nat) LPoint [(9%nat, 1); (5%nat, 1)]). set (r0 := setSupportRadiusReal 2 (setNode_geo (Some 1%nat) (w0 MNone))).
  set (r := setScalarDisplacements_field (Some f) r0).
  assert (E : exists r1, initRBFwGeometry wst 1 r = Some (Some r1) /\ i_nodes (b_in r1) = [(V3 3 0 0, true); (V3 0 0 0, true)] /\
     i_data (b_in r1) = [[0; 0]; [0; 0]; [0; 0]] /\ b_par r1 = b_par r0 /\ p_mode (b_par r1) = MNone /\
     b_geo r1 = Some 0%nat /\ b_filter r1 = no_field /\ i_scalar (b_in r1) = false) by (eexists; split; [reflexivity|]; repeat split).
  destruct E as [r1 [E [E1 [E2 [E3 [E5 [E6 [E7 E8]]]]]]]].
  assert (Er : fst (run_radii wst 0 r1) = [2; 2]) by (unfold run_radii; rewrite E3; unfold r0; rewrite real_radii by lra; rewrite E1; reflexivity).
  destruct (run_defined worac wst 0 r1 wst_wf) as [r' F].
  - rewrite E7. constructor.
  - exact E5.
  - rewrite E8, E2. cbn. lia.
  - intros id p i x _ Hi Z. exfalso. rewrite Er in Z. rewrite E1 in Hi.
    destruct i as [|[|i]]; [cbn in Z; lra|cbn in Z; lra|destruct i; discriminate Hi].
  - destruct (run_vector worac wst 0 r1 r' wst_wf) as [filt [d [Ed [_ [_ [Nd A]]]]]]; [rewrite E7; constructor|rewrite E3; cbn; lra|exact F|exact E8|].
    exists worac, wst, f, r0, 0%nat, r', d. split; [reflexivity|]. split; [reflexivity|]. split; [eexists; reflexivity|]. split; [exists 9%nat, 1; split; [left; reflexivity|lra]|].
    split; [fold r; unfold rbf_execute; change (b_geo r) with (Some 0%nat); change (i_geo (b_in r)) with (Some 1%nat); cbv beta iota; rewrite E; exact F|].
    rewrite Ed. unfold getScalarDisplacements, getDisplacements. cbn [run_done b_in i_scalar b_res e_displ]. rewrite E8.
    split; [reflexivity|]. split; [reflexivity|].
    assert (Es : run_solve worac wst 0 r1 = (i_nodes (b_in r1), [[0; 0]; [0; 0]; [0; 0]])).
    { unfold run_solve. rewrite E5. unfold run_data. rewrite E1, E2. reflexivity. }
    rewrite Es in A. cbn [fst snd] in A.
    intros id p Hp. destruct (A id p Hp) as [B _].
    destruct B as [_ [_ [c [_ V]]]]; [left; rewrite E3; intros [X _]; discriminate X|]. cbn [nth] in V.
    rewrite (zero_combination _ _ _ (fun i => nth i [0; 0] 0)) in V by (intros [|[|[|i]]]; reflexivity).
    change (V3 0 0 0) with vzero in V. rewrite vscale_zero in V. exact V.
Qed.
Print Assumptions C77_scalar_field_refuted.

(** C77, violated: displacements given as a list are dropped when the nodes come from a geometry. *)
Theorem C77_list_geometry_refuted : exists O h D r0 n g r' d, b_geo r0 = Some g /\ i_geo (b_in r0) = Some n /\
  length D = length (so_verts (h n)) /\ (forall v, In v D -> v <> vzero) /\
  rbf_execute O h (setDisplacements D r0) = Some r' /\ getDisplacements r' = Some d /\
  forall id p, In (id, p) (so_verts (h g)) -> In (id, vzero) (fd_data d).
Proof.
  set (r0 := setSupportRadiusReal 2 (setNode_geo (Some 1%nat) (w0 MNone))).
  set (r := setDisplacements [V3 1 0 0; V3 1 0 0] r0).
  assert (E : exists r1, initRBFwGeometry wst 1 r = Some (Some r1) /\ i_nodes (b_in r1) = [(V3 3 0 0, true); (V3 0 0 0, true)] /\
     i_data (b_in r1) = [[0; 0]; [0; 0]; [0; 0]] /\ b_par r1 = b_par r0 /\ p_mode (b_par r1) = MNone /\
     b_geo r1 = Some 0%nat /\ b_filter r1 = no_field /\ i_scalar (b_in r1) = false) by (eexists; split; [reflexivity|]; repeat split).
  destruct E as [r1 [E [E1 [E2 [E3 [E5 [E6 [E7 E8]]]]]]]].
  assert (Er : fst (run_radii wst 0 r1) = [2; 2]) by (unfold run_radii; rewrite E3; unfold r0; rewrite real_radii by lra; rewrite E1; reflexivity).
  destruct (run_defined worac wst 0 r1 wst_wf) as [r' F].
  - rewrite E7. constructor.
  - exact E5.
  - rewrite E8, E2. cbn. lia.
  - intros id p i x _ Hi Z. exfalso. rewrite Er in Z. rewrite E1 in Hi.
    destruct i as [|[|i]]; [cbn in Z; lra|cbn in Z; lra|destruct i; discriminate Hi].
  - destruct (run_vector worac wst 0 r1 r' wst_wf) as [filt [d [Ed [_ [_ [Nd A]]]]]]; [rewrite E7; constructor|rewrite E3; cbn; lra|exact F|exact E8|].
    exists worac, wst, [V3 1 0 0; V3 1 0 0], r0, 1%nat, 0%nat, r', d. split; [reflexivity|]. split; [reflexivity|]. split; [reflexivity|].
    split; [intros v Hv K; subst v; destruct Hv as [K|[K|[]]]; apply (f_equal vx) in K; cbn in K; lra|].
    split; [fold r; unfold rbf_execute; change (b_geo r) with (Some 0%nat); change (i_geo (b_in r)) with (Some 1%nat); cbv beta iota; rewrite E; exact F|].
    rewrite Ed. unfold getDisplacements. cbn [run_done b_in i_scalar b_res e_displ]. rewrite E8. split; [reflexivity|].
    assert (Es : run_solve worac wst 0 r1 = (i_nodes (b_in r1), [[0; 0]; [0; 0]; [0; 0]])).
    { unfold run_solve. rewrite E5. unfold run_data. rewrite E1, E2. reflexivity. }
    rewrite Es in A. cbn [fst snd] in A. intros id p Hp. destruct (A id p Hp) as [B _].
    destruct B as [_ [_ [c [_ V]]]]; [left; rewrite E3; intros [X _]; discriminate X|]. cbn [nth] in V.
    rewrite (zero_combination _ _ _ (fun i => nth i [0; 0] 0)) in V by (intros [|[|[|i]]]; reflexivity).
    change (V3 0 0 0) with vzero in V. rewrite vscale_zero in V. exact V.
Qed.
Print Assumptions C77_list_geometry_refuted.

(** C77, violated: without any displacement the execution reads three values from an empty vector. *)
Theorem C77_no_data_refuted : exists h r0 g, b_geo r0 = Some g /\ wf_store h /\ p_radii (b_par r0) = [] /\ 1 <= p_value (b_par r0) /\
  forall O, rbf_execute O h r0 = None.
Proof.
  exists wst, wone, 0%nat. split; [reflexivity|]. split; [exact wst_wf|]. split; [reflexivity|].
  split; [unfold wone; rewrite real_value; lra|]. intros O.
  destruct (rbf_execute O wst wone) as [r'|] eqn:E; [exfalso|reflexivity]. rewrite (execute_list _ _ _ 0%nat) in E by reflexivity.
  destruct (run_vector O wst 0 wone r' wst_wf) as [filt [d [_ [_ [_ [_ A]]]]]]; [constructor|cbn; lra|exact E|reflexivity|].
  destruct (A _ _ wv_in0) as [B _]. destruct B as [L _]; [left; intros [K _]; discriminate K|]. cbn in L. lia.
Qed.
Print Assumptions C77_no_data_refuted.

(** C77: an execution whose fields are linked to another geometry than that of the nodes is refused
    and changes nothing in the object. *)
Theorem C77_refused : forall O h r g n, b_geo r = Some g -> i_geo (b_in r) = Some n ->
  (i_scalar (b_in r) = false /\ exists f, i_displ (b_in r) = Some f /\ fd_geo f <> Some n) \/
  (i_scalar (b_in r) = true /\ exists f, i_scal (b_in r) = Some f /\ fd_geo f <> Some n) \/
  (exists f, i_radii (b_in r) = Some f /\ fd_geo f <> Some n) ->
  rbf_execute O h r = Some r.
Proof.
  intros O h r g n G I K. unfold rbf_execute. rewrite G, I. unfold initRBFwGeometry.
  assert (X : forall A (f : fld A), fd_geo f <> Some n -> linked_to n (Some f) = false).
  { intros A f Hf. unfold linked_to. destruct (fd_geo f) as [k|]; [|reflexivity]. cbn [geo_eqb]. apply Nat.eqb_neq. congruence. }
  destruct K as [[E [f [Ef Hf]]]|[[E [f [Ef Hf]]]|[f [Ef Hf]]]].
  - rewrite E, Ef, (X _ f Hf). reflexivity.
  - rewrite E, Ef, (X _ f Hf). reflexivity.
  - rewrite Ef, (X _ f Hf), andb_false_r. reflexivity.
Qed.
Print Assumptions C77_refused.

(** C77, violated: … but exec with apply then moves the geometry by the displacements of the
    previous execution. *)
Theorem C77_stale_refuted : exists O h r0 r1 f n h' r' g id p q, rbf_execute O h r0 = Some r1 /\
  let r := setDisplacements_field (Some f) (setNode_geo (Some n) r1) in
  fd_geo f <> Some n /\ b_geo r = Some g /\ rbf_execute O h r = Some r /\
  rbf_exec O h r = Some (h', r') /\ In (id, p) (so_verts (h g)) /\ In (id, q) (so_verts (h' g)) /\ q <> p.
Proof.
  destruct (real_defined worac (setNode [V3 0 0 0] (w0 MNone)) 0 2 [V3 1 0 0]) as [r1 E]; [reflexivity|reflexivity|reflexivity|constructor|lra|].
  fold wone in E. assert (E' := E). rewrite (execute_list _ _ _ 0%nat) in E' by reflexivity.
  destruct (run_vector worac wst 0 (setDisplacements [V3 1 0 0] wone) r1 wst_wf) as [filt [d [Er [_ [_ [Nd A]]]]]]; [constructor|cbn; lra|exact E'|reflexivity|].
  assert (Hv : exists q, find 0%nat (fd_data d) = Some q /\ vadd (V3 0 0 0) q <> V3 0 0 0).
  { destruct (A _ _ wv_in0) as [B _]. destruct B as [_ [_ [c [Fc V]]]]; [left; intros [K _]; discriminate K|].
    eexists. split; [apply (in_find _ _ _ _ Nd V)|].
    assert (c = 1) as -> by (destruct Fc as [[X _]|[_ X]]; [discriminate X|exact X]).
    assert (R2 : fst (run_radii wst 0 (setDisplacements [V3 1 0 0] wone)) = [2]).
    { unfold run_radii. change (b_par (setDisplacements [V3 1 0 0] wone)) with (b_par wone). unfold wone at 3. rewrite real_radii by lra. reflexivity. }
    rewrite R2. intros K. apply (f_equal vx) in K.
    change (fst (run_solve worac wst 0 (setDisplacements [V3 1 0 0] wone))) with [(V3 0 0 0, true)] in K.
    change (snd (run_solve worac wst 0 (setDisplacements [V3 1 0 0] wone))) with [[1]; [0]; [0]] in K.
    change (p_kernel (b_par (setDisplacements [V3 1 0 0] wone))) with k_wendland in K.
    unfold combination, node_term, influence in K. cbn [length total nth_error nth vadd vscale vx k_wendland k_fun] in K.
    destruct (Req_EM_T 2 0); [lra|]. rewrite dist_axis in K by lra. replace ((0 - 0) / 2) with 0 in K by field. rewrite wendland_0 in K. lra. }
  destruct Hv as [v [Fv Nv]].
  set (f := Fd None LPoint [] : fld vec). set (r := setDisplacements_field (Some f) (setNode_geo (Some 1%nat) r1)).
  assert (Rf : rbf_execute worac wst r = Some r).
  { apply (C77_refused worac wst r 0 1); [unfold r; rewrite Er; reflexivity|reflexivity|]. left. split; [reflexivity|].
    exists f. split; [reflexivity|discriminate]. }
  exists worac, wst, (setDisplacements [V3 1 0 0] wone), r1, f, 1%nat, (put_verts wst 0 (map (move (fd_data d)) wv)), r, 0%nat, 0%nat, (V3 0 0 0), (vadd (V3 0 0 0) v).
  split; [exact E|]. cbv zeta. fold r. split; [discriminate|]. split; [unfold r; rewrite Er; reflexivity|]. split; [exact Rf|].
  split; [unfold rbf_exec; rewrite Rf; unfold rbf_apply, r; rewrite Er; reflexivity|]. split; [exact wv_in0|]. split; [|exact Nv].
  rewrite put_verts_same. cbn [wv map]. left. rewrite find_move, Fv. reflexivity.
Qed.
Print Assumptions C77_stale_refuted.

(** C78: nodes that are all farther apart than the tolerance are not reported as duplicated, and every
    reported node has a later node within the tolerance. *)
Theorem C78_reported : forall tol nodes i, In i (checkDuplicatedNodes tol nodes) ->
  exists j, (i < j)%nat /\ (j < length nodes)%nat /\ dist (nth j nodes vzero) (nth i nodes vzero) <= tol.
Proof.
  intros tol nodes i H. unfold checkDuplicatedNodes in H.
  assert (X : forall l check marked, (forall k, In k marked -> exists j, (k < j)%nat /\ (j < length nodes)%nat /\ dist (nth j nodes vzero) (nth k nodes vzero) <= tol) ->
    (forall k, In k l -> (k < length nodes)%nat) ->
    forall k, In k (dup_loop tol nodes l check marked) -> exists j, (k < j)%nat /\ (j < length nodes)%nat /\ dist (nth j nodes vzero) (nth k nodes vzero) <= tol).
  { induction l as [|a l IH]; intros check marked Hm Hl k Hk; cbn [dup_loop] in Hk; [exact (Hm k Hk)|].
    refine (IH _ _ _ _ k Hk); [|intros b Hb; apply Hl; right; exact Hb].
    intros b Hb. apply in_app_iff in Hb. destruct Hb as [Hb|Hb]; [exact (Hm b Hb)|]. apply in_map_iff in Hb. destruct Hb as [j [<- Hj]].
    unfold dup_row in Hj. apply filter_In in Hj. destruct Hj as [Hs Hj]. apply in_seq in Hs. exists j.
    destruct (existsb (Nat.eqb j) check); [discriminate|]. destruct (Rle_dec _ tol) as [L|]; [|discriminate].
    specialize (Hl a (or_introl eq_refl)). split; [lia|]. split; [lia|]. exact L. }
  apply (X (seq 0 (length nodes)) [] []); [intros k []|intros k Hk; apply in_seq in Hk; lia|exact H].
Qed.
Print Assumptions C78_reported.

(** C78: if every node is within the tolerance of at most one other, the nodes not reported are all
    farther apart than the tolerance. *)
Theorem C78_pairs_partial : forall tol nodes, 0 <= tol ->
  (forall i j k, (i < length nodes)%nat -> (j < length nodes)%nat -> (k < length nodes)%nat -> i <> j -> i <> k -> j <> k ->
     dist (nth i nodes vzero) (nth j nodes vzero) <= tol -> ~ dist (nth i nodes vzero) (nth k nodes vzero) <= tol) ->
  forall i j, (i < j)%nat -> (j < length nodes)%nat -> dist (nth j nodes vzero) (nth i nodes vzero) <= tol ->
  In i (checkDuplicatedNodes tol nodes).
Proof.
  intros tol nodes Ht Hp i j Hij Hj Hd. unfold checkDuplicatedNodes.
  assert (Sym : forall a b, dist a b = dist b a) by (intros a b; unfold dist, dot, vsub; cbn [vx vy vz]; f_equal; ring).
  assert (Mono : forall l check marked k, In k marked -> In k (dup_loop tol nodes l check marked)).
  { induction l as [|a l IH]; intros check marked k Hk; cbn [dup_loop]; [exact Hk|]. apply IH. apply in_app_iff. left. exact Hk. }
  assert (X : forall l check marked, In i l -> (forall k, In k l -> (k < length nodes)%nat) -> ~ In j check ->
    In i (dup_loop tol nodes l check marked)).
  { induction l as [|a l IH]; intros check marked Hi Hl Hc; [destruct Hi|]. cbn [dup_loop].
    destruct (Nat.eq_dec a i) as [->|Ne].
    - apply Mono. apply in_app_iff. right. apply in_map_iff. exists j. split; [reflexivity|]. unfold dup_row. apply filter_In.
      split; [apply in_seq; lia|]. replace (existsb (Nat.eqb j) check) with false.
      + change (dist (nth j nodes vzero) (nth i nodes vzero)) with (norm (vsub (nth j nodes vzero) (nth i nodes vzero))) in Hd.
        destruct (Rle_dec _ tol); [reflexivity|contradiction].
      + symmetry. apply not_true_iff_false. intros K. apply existsb_exists in K. destruct K as [b [Hb E]]. apply Nat.eqb_eq in E. subst b. exact (Hc Hb).
    - destruct Hi as [E|Hi]; [destruct (Ne E)|]. apply IH; [exact Hi|intros k Hk; apply Hl; right; exact Hk|].
      intros K. apply in_app_iff in K. destruct K as [K|K]; [exact (Hc K)|]. unfold dup_row in K. apply filter_In in K.
      destruct K as [Ks K]. apply in_seq in Ks. destruct (existsb (Nat.eqb j) check); [discriminate|].
      destruct (Rle_dec _ tol) as [L|]; [|discriminate].
      refine (Hp j i a Hj ltac:(lia) (Hl a (or_introl eq_refl)) ltac:(lia) ltac:(lia) ltac:(congruence) Hd L). }
  apply X; [apply in_seq; lia|intros k Hk; apply in_seq in Hk; lia|intros []].
Qed.
Print Assumptions C78_pairs_partial.

(** C78, violated: of three nodes at the same place only the first is reported (twice); two of them
    are left. *)
Theorem C78_triple_refuted : exists nodes i j, (i < j)%nat /\ (j < length nodes)%nat /\ nth i nodes vzero = nth j nodes vzero /\
  forall tol, 0 <= tol -> ~ In i (checkDuplicatedNodes tol nodes) /\ ~ In j (checkDuplicatedNodes tol nodes).
Proof.
  exists [vzero; vzero; vzero], 1%nat, 2%nat. split; [lia|]. split; [cbn; lia|]. split; [reflexivity|]. intros tol Ht.
  assert (Z : norm (vsub vzero vzero) = 0).
  { unfold norm, dot, vsub. cbn [vx vy vz vzero]. replace (_ + _ + _) with 0 by ring. apply sqrt_0. }
  assert (E : checkDuplicatedNodes tol [vzero; vzero; vzero] = [0%nat; 0%nat]).
  { unfold checkDuplicatedNodes, dup_loop, dup_row. cbn [length seq Nat.sub]. cbn [filter existsb nth]. rewrite Z.
    destruct (Rle_dec 0 tol); [|contradiction]. cbn [existsb List.app Nat.eqb orb filter map]. reflexivity. }
  rewrite E. split; intros [K|[K|[]]]; discriminate K.
Qed.
Print Assumptions C78_triple_refuted.

Example C78_nonvacuous : In 0%nat (checkDuplicatedNodes 0 [vzero; vzero]).
Proof.
  unfold checkDuplicatedNodes, dup_loop, dup_row. cbn [length seq Nat.sub filter existsb nth].
  assert (Z : norm (vsub vzero vzero) = 0).
  { unfold norm, dot, vsub. cbn [vx vy vz vzero]. replace (_ + _ + _) with 0 by ring. apply sqrt_0. }
  rewrite Z. destruct (Rle_dec 0 0); [|lra]. cbn. left. reflexivity.
Qed.

(** C41: whatever is called on an object, in any order and with any executions in between, its
    factor of the diagonal stays between 0 and 1: it is the one set last, clamped; so the hypothesis
    of the theorems above on the factor holds of every object of a user. *)
Inductive rbf_call : rbf -> rbf -> Prop :=
  | call_add l r : rbf_call r (rbf_addNode l r)
  | call_node l r : rbf_call r (setNode l r)
  | call_node_geo g r : rbf_call r (setNode_geo g r)
  | call_filter f r : rbf_call r (rbf_setFilter f r)
  | call_clear r : rbf_call r (clearFilter r)
  | call_radius (real : bool) x r : rbf_call r (setSupportRadius real x r)
  | call_radii l r : rbf_call r (setVariableSupportRadii l r)
  | call_radii_field f r : rbf_call r (setVariableSupportRadii_field f r)
  | call_diag x r : rbf_call r (setDiagonalFactor x r)
  | call_tol x r : rbf_call r (setTol x r)
  | call_displ l r : rbf_call r (setDisplacements l r)
  | call_displ_field f r : rbf_call r (setDisplacements_field f r)
  | call_scal l r : rbf_call r (setScalarDisplacements l r)
  | call_scal_field f r : rbf_call r (setScalarDisplacements_field f r)
  | call_fun k c r : rbf_call r (setFunction k c r)
  | call_compact c r : rbf_call r (setCompactSupport c r)
  | call_exec O h r h' r' : rbf_exec O h r = Some (h', r') -> rbf_call r r'.
Inductive rbf_reached : rbf -> Prop :=
  | reached_new m g : rbf_reached (new_rbf m g)
  | reached_call r r' : rbf_reached r -> rbf_call r r' -> rbf_reached r'.

Theorem C41_diagonal : forall r, rbf_reached r ->
  0 <= p_diag (b_par r) <= 1 /\
  forall x, let f := p_diag (b_par (setDiagonalFactor x r)) in
  (x <= 0 -> f = 0) /\ (0 <= x <= 1 -> f = x) /\ (1 <= x -> f = 1).
Proof.
  assert (Run : forall O h g r r', rbf_run O h g r = Some r' -> p_diag (b_par r') = p_diag (b_par r)).
  { intros O h g r r' H. rewrite rbf_run_eq in H. destruct (filter_of h g r); [|discriminate]. cbv zeta in H.
    destruct (i_scalar (b_in r)); destruct (field_of _ _ _ _ _ _ _ _) in H; try discriminate; injection H as <-; reflexivity. }
  assert (Clamp : forall x, (x <= 0 -> Rmin (Rmax x 0) 1 = 0) /\ (0 <= x <= 1 -> Rmin (Rmax x 0) 1 = x) /\ (1 <= x -> Rmin (Rmax x 0) 1 = 1)).
  { intros x. unfold Rmax. destruct (Rle_dec x 0); unfold Rmin; destruct (Rle_dec _ 1); repeat split; intros; lra. }
  intros r H. split; [|exact Clamp]. induction H as [m g|r r' Hr IH Hc]; [cbn; lra|].
  destruct Hc; try exact IH; try (destruct g; exact IH); try (destruct f; exact IH); try (destruct real; exact IH).
  - destruct l; [exact IH|]. unfold setVariableSupportRadii. destruct (is_none _); exact IH.
  - destruct f; [|exact IH]. unfold setVariableSupportRadii_field. destruct (is_none _); exact IH.
  - change (0 <= Rmin (Rmax x 0) 1 <= 1). destruct (Clamp x) as [A [B C]].
    destruct (Rle_dec x 0) as [L|L]; [rewrite (A L); lra|]. destruct (Rle_dec 1 x) as [M|M]; [rewrite (C M); lra|]. rewrite B by lra. lra.
  - unfold rbf_exec in H. destruct (rbf_execute O h r) as [r1|] eqn:E; [|discriminate].
    assert (E1 : p_diag (b_par r1) = p_diag (b_par r)).
    { unfold rbf_execute in E. destruct (b_geo r); [|discriminate]. destruct (i_geo (b_in r)) as [n0|]; [|exact (Run _ _ _ _ _ E)].
      unfold initRBFwGeometry in E. destruct (_ && _) in E; [|injection E as <-; reflexivity].
      destruct (put_radii _ _ _ _) in E; [|discriminate]. rewrite (Run _ _ _ _ _ E). reflexivity. }
    assert (E2 : b_par r' = b_par r1).
    { unfold rbf_apply in H. destruct (b_geo r1); [|injection H as _ <-; reflexivity]. destruct (i_scalar (b_in r1)); [|injection H as _ <-; reflexivity].
      destruct (Nat.eqb _ _) in H; [|injection H as _ <-; reflexivity]. destruct (along_normals _ _ _) in H; [|discriminate]. injection H as _ <-. reflexivity. }
    rewrite E2, E1. exact IH.
Qed.
Print Assumptions C41_diagonal.

Example C41_diagonal_nonvacuous : rbf_reached (setDiagonalFactor 7 (new_rbf MNone None)) /\
  p_diag (b_par (setDiagonalFactor 7 (new_rbf MNone None))) = 1.
Proof.
  assert (A : rbf_reached (setDiagonalFactor 7 (new_rbf MNone None))) by (eapply reached_call; [apply reached_new|apply call_diag]).
  split; [exact A|]. destruct (C41_diagonal _ (reached_new MNone None)) as [_ B]. apply (B 7). lra.
Qed.
