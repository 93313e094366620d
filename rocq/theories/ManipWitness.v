(** Concrete geometries: cases that meet the hypotheses of the theorems and the witnesses of the
    refuted ones. *)
From Coq Require Import List Arith Bool Reals Lra Lia.
From Verif Require Import Vec SharedPtr Field Manip ManipSpec ManipProofs ManipMoves ManipApply.
Import ListNotations.
Open Scope R_scope.

(** geometry 0: a surface with the vertices 5 at (0,0,1), 2 at (1,0,1) and 9 at (0,0,0), all normals
    along z; geometry 1: one vertex more; geometry 2: the same vertices as geometry 0, a volume *)
Definition verts3 : list (nat * vec) := [(5%nat, V3 0 0 1); (2%nat, V3 1 0 1); (9%nat, V3 0 0 0)].
Definition normals : list (nat * vec) -> nat -> option vec := fun _ _ => Some (V3 0 0 1).
Definition ex_h : store := fun g =>
  match g with
  | 0%nat => So 1 verts3 normals
  | 1%nat => So 1 (verts3 ++ [(4%nat, V3 1 1 1)]) normals
  | _ => So 2 verts3 normals
  end.
Lemma ex_wf : wf_store ex_h.
Proof.
  intros [|[|g]]; unfold distinct_ids; cbn; repeat constructor; cbn; intuition discriminate.
Qed.
Lemma fresh_distinct : forall g, distinct_ids (fd_data (m_filter (new_man g))).
Proof. intros. constructor. Qed.
Lemma fresh_unusable : forall vs g o, ~ usable vs g (m_filter (new_man o)).
Proof. intros vs g o [H _]. discriminate. Qed.

Definition z_axis : axis := Ax vzero (V3 0 0 1).
Lemma z_unit : unit_vec (x_dir z_axis).
Proof. unfold unit_vec, dot. cbn. ring. Qed.

(** a filter: 1/2 at vertex 5, nothing elsewhere *)
Definition half_filter : fld R := Fd (Some 0%nat) LPoint [(5%nat, 1 / 2)].
Lemma half_usable : usable (so_verts (ex_h 0%nat)) 0 half_filter.
Proof. split; [reflexivity|]. split; [reflexivity|]. intros i [<-|[]]. cbn. auto. Qed.

(** an execution without filter *)
Lemma moved_get : forall F vs ws i p, moved F vs ws -> In (i, p) vs -> exists q, F i p q /\ In (i, q) ws.
Proof.
  intros F vs ws i p M. unfold moved in M. induction M as [|[j a] [k b] r s [E K] M IH]; [intros []|].
  cbn [fst snd] in *. subst k. intros [H|H].
  - injection H as -> ->. exists b. split; [exact K|left; reflexivity].
  - destruct (IH H) as [q [A B]]. exists q. split; [exact A|right; exact B].
Qed.
Lemma fresh_exec : forall value h g, wf_store h -> (forall p k, value p k <> None) ->
  exists h' m', exec value h (new_man (Some g)) = Some (h', m') /\
    forall i p, In (i, p) (so_verts (h g)) -> exists v, value p 1 = Some v /\ In (i, vadd p v) (so_verts (h' g)).
Proof.
  intros value h g Nh V. destruct (exec_ok value h (new_man (Some g)) g Nh (fresh_distinct _) eq_refl V)
    as [h' [m' [E [_ [_ [_ [_ [_ [_ [_ M]]]]]]]]]].
  exists h', m'. split; [exact E|]. intros i p Hi. destruct (moved_get _ _ _ _ _ M Hi) as [q [[k [v [W [Ev Q]]]] Hq]].
  destruct W as [[U _]|[_ ->]]; [destruct (fresh_unusable _ _ _ U)|]. subst q. exists v. split; assumption.
Qed.

(** setAxis with a direction of length 2: points of the axis move and distances change *)
Lemma long_axis : exists h' m', exec (rotation (setAxis vzero (V3 0 0 2)) PI) ex_h (new_man (Some 0%nat)) = Some (h', m') /\
  In (5%nat, V3 0 0 7) (so_verts (h' 0%nat)) /\ In (9%nat, V3 0 0 0) (so_verts (h' 0%nat)).
Proof.
  destruct (fresh_exec (rotation (setAxis vzero (V3 0 0 2)) PI) ex_h 0 ex_wf (rotation_total _ _)) as [h' [m' [E H]]].
  exists h', m'. split; [exact E|].
  destruct (H 5%nat (V3 0 0 1)) as [v [V Iv]]; [cbn; auto|]. destruct (H 9%nat (V3 0 0 0)) as [w [W Iw]]; [cbn; auto|].
  unfold rotation, rodrigues in V, W. rewrite cos_PI, sin_PI in V, W. cbn [setAxis x_dir x_origin] in V, W.
  injection V as <-. injection W as <-. split.
  - match type of Iv with In (_, ?x) _ => replace (V3 0 0 7) with x by vring end. exact Iv.
  - match type of Iw with In (_, ?x) _ => replace (V3 0 0 0) with x at 1 by vring end. exact Iw.
Qed.

(** a negative twist: half way, the vertex 2 is turned by the whole angle *)
Lemma negative_twist : exists h' m', exec (twist z_axis (- PI) 2 true) ex_h (new_man (Some 0%nat)) = Some (h', m') /\
  In (2%nat, V3 (-1) 0 1) (so_verts (h' 0%nat)).
Proof.
  destruct (twist_ok ex_h (new_man (Some 0%nat)) 0 z_axis (- PI) 2 true ex_wf (fresh_distinct _) eq_refl z_unit) as [h' [m' [E [_ M]]]]; [lra|].
  exists h', m'. split; [exact E|]. pose proof (moved_ids _ _ _ M) as Ids.
  assert (Hi : In 2%nat (map fst (so_verts (h' 0%nat)))) by (rewrite Ids; cbn; auto).
  apply in_map_iff in Hi. destruct Hi as [[i q] [Ei Hq]]. cbn in Ei. subst i.
  assert (Hp : In (2%nat, V3 1 0 1) (so_verts (ex_h 0%nat))) by (cbn; auto).
  destruct (moved_in _ _ _ _ _ _ (ex_wf 0%nat) M Hp Hq) as [w [r [W [T P]]]].
  destruct W as [[U _]|[_ ->]]; [destruct (fresh_unusable _ _ _ U)|]. apply full_way in P. subst r.
  replace (twist_angle (- PI) 2 true (height (x_origin z_axis) (x_dir z_axis) (V3 1 0 1))) with (- PI) in T.
  - assert (q = V3 (-1) 0 1) as <-; [|exact Hq].
    apply (turned_fun _ _ z_unit _ _ _ _ T).
    pose proof (rodrigues_turned vzero _ z_unit (- PI) (V3 1 0 1)) as T'.
    replace (vadd (rodrigues (x_dir z_axis) (- PI) (vsub (V3 1 0 1) vzero)) vzero) with (V3 (-1) 0 1) in T'; [exact T'|].
    unfold rodrigues. rewrite cos_neg, sin_neg, cos_PI, sin_PI. cbn [z_axis x_dir]. vring.
  - assert (H : height (x_origin z_axis) (x_dir z_axis) (V3 1 0 1) = 1).
    { unfold height, dot, vsub. cbn [z_axis x_origin x_dir vx vy vz vzero]. ring. }
    rewrite H. destruct (twist_angle_negative (- PI) 2 1) as [-> _]; [pose proof PI_RGT_0; lra|lra|lra|].
    unfold Rmax. destruct (Rle_dec 1 (1 / 2)); lra.
Qed.
Lemma half_turn_is_not : ~ turned vzero (V3 0 0 1) (- (PI / 2)) (V3 1 0 1) (V3 (-1) 0 1).
Proof.
  intros [_ [_ [C _]]]. rewrite cos_neg, cos_PI2 in C. unfold foot, dot in C. cbn [vx vy vz vadd vsub vscale vzero] in C. lra.
Qed.

(** ** A bend with a constant law; a bend frame set through the ports *)
Definition constant_bend : bend := setCoeffs 0 0 [1] (setDegree 0 0 0 new_bend).
Lemma constant_ignored : exists b' h' m', bend_exec constant_bend ex_h (new_man (Some 0%nat)) = Some (b', h', m') /\
  so_verts (h' 0%nat) = verts3.
Proof.
  eexists. eexists. eexists. split; [reflexivity|].
  assert (Z : forall x, vadd x (V3 0 0 0) = x) by (intros; vring).
  cbn. unfold move, bend_comp, verts3, coherent, constant_bend. cbn. rewrite !Z. reflexivity.
Qed.
Definition port_bend : bend := port_origin (V3 1 0 0) (setCoeffs 0 0 [0; 1] (setDegree 0 0 1 new_bend)).
Lemma port_ignored : exists b' h' m', bend_exec port_bend ex_h (new_man (Some 0%nat)) = Some (b', h', m') /\
  In (2%nat, V3 2 0 1) (so_verts (h' 0%nat)).
Proof.
  eexists. eexists. eexists. split; [reflexivity|].
  right. left. cbn. unfold move. cbn. f_equal. vring.
Qed.

(** ** Apply *)
(** displacement (1,0,0) at vertex 5 *)
Definition push : fld vec := Fd (Some 0%nat) LPoint [(5%nat, V3 1 0 0)].
Lemma push_linked : linked verts3 0 push.
Proof. split; [reflexivity|]. split; [reflexivity|]. intros i [<-|[]]. cbn. auto. Qed.
Definition app_push : app := app_setInput (Some push) (new_app (Some 0%nat)).
Definition app_half : app := app_setFilter (Some half_filter) app_push.
Lemma half_fits : filter_fits (ex_h 0%nat) half_filter.
Proof. right. split; [reflexivity|]. split; [reflexivity|]. intros i [<-|[]]. cbn. auto. Qed.
Lemma one_distinct : forall A i (v : A) g l, distinct_ids (fd_data (Fd g l [(i, v)])).
Proof. intros. repeat constructor. intros []. Qed.

Lemma powers_2 : forall k, powers k 2 = k + k * k.
Proof. intros. unfold powers. cbn. ring. Qed.

Lemma half_twice : exists h1 a1 h2 a2, app_execute ex_h app_half = Some (h1, a1) /\ app_execute h1 a1 = Some (h2, a2) /\
  In (5%nat, V3 (1/2) 0 1) (so_verts (h1 0%nat)) /\ In (5%nat, V3 (3/4) 0 1) (so_verts (h2 0%nat)).
Proof.
  assert (Get : forall n, exists h' a', app_execs n ex_h app_half = Some (h', a') /\
    In (5%nat, V3 (powers (1/2) n) 0 1) (so_verts (h' 0%nat))).
  { intros n. destruct (app_filtered_n n ex_h app_half 0 ex_wf (one_distinct _ _ _ _ _) (one_distinct _ _ _ _ _) eq_refl eq_refl
      push_linked ltac:(discriminate) half_fits) as [h' [a' [E [_ M]]]].
    exists h', a'. split; [exact E|]. pose proof (moved_ids _ _ _ M) as Ids.
    assert (Hi : In 5%nat (map fst (so_verts (h' 0%nat)))) by (rewrite Ids; cbn; auto).
    apply in_map_iff in Hi. destruct Hi as [[i q] [Ei Hq]]. cbn in Ei. subst i.
    assert (Hp : In (5%nat, V3 0 0 1) (so_verts (ex_h 0%nat))) by (cbn; auto).
    destruct (moved_in _ _ _ _ _ _ (ex_wf 0%nat) M Hp Hq) as [v [k [V [K Q]]]].
    apply (value_or_look _ _ _ _ _ (one_distinct _ _ _ _ _)) in V.
    destruct K as [[K _]|[_ K]]; [discriminate|]. apply (value_or_look _ _ _ _ _ (one_distinct _ _ _ _ _)) in K.
    unfold look in V, K. cbn in V, K. subst v k q.
    replace (V3 (powers (1 / 2) n) 0 1) with (vadd (V3 0 0 1) (vscale (a_factor app_half * powers (1 / 2) n) (V3 1 0 0))); [exact Hq|].
    change (a_factor app_half) with 1. vring. }
  destruct (Get 1%nat) as [h1 [a1 [E1 P1]]]. destruct (Get 2%nat) as [h2 [a2 [E2 P2]]]. cbn [app_execs] in E1, E2.
  destruct (app_execute ex_h app_half) as [[h1' a1']|] eqn:E; [|discriminate]. injection E1 as -> ->.
  destruct (app_execute h1 a1) as [[h2' a2']|] eqn:E'; [|discriminate]. injection E2 as -> ->.
  exists h1, a1, h2, a2. split; [reflexivity|]. split; [exact E'|]. split.
  - replace (1 / 2) with (powers (1/2) 1) at 1; [exact P1|unfold powers; cbn; lra].
  - replace (3 / 4) with (powers (1/2) 2); [exact P2|rewrite powers_2; lra].
Qed.

(** on a volume a filter, even of all ones, stops the deformation *)
Definition ones_filter (g : nat) : fld R := Fd (Some g) LPoint [(5%nat, 1); (2%nat, 1); (9%nat, 1)].
Definition app_volume : app :=
  app_setFilter (Some (ones_filter 2)) (app_setInput (Some (Fd (Some 2%nat) LPoint [(5%nat, V3 1 0 0)])) (new_app (Some 2%nat))).
Lemma volume_still : exists h' a', app_execute ex_h app_volume = Some (h', a') /\ so_verts (h' 2%nat) = verts3.
Proof.
  eexists. eexists. split; [reflexivity|]. cbn. unfold verts3. repeat (f_equal; try vring).
Qed.
(** displacements of another geometry are applied if a filter is set *)
Definition foreign : fld vec := Fd (Some 1%nat) LPoint [(5%nat, V3 1 0 0); (2%nat, V3 1 0 0); (9%nat, V3 1 0 0)].
Definition app_foreign : app := app_setFilter (Some (ones_filter 0)) (app_setInput (Some foreign) (new_app (Some 0%nat))).
Lemma foreign_moves : exists h' a', app_execute ex_h app_foreign = Some (h', a') /\ In (5%nat, V3 1 0 1) (so_verts (h' 0%nat)).
Proof.
  eexists. eexists. split; [reflexivity|]. left. f_equal. cbn [with_fields a_factor a_input app_foreign app_setFilter app_setInput new_app]. vring.
Qed.
(** a filter without displacements: an exception *)
Lemma filter_alone : app_execute ex_h (app_setFilter (Some half_filter) (new_app (Some 0%nat))) = None.
Proof. reflexivity. Qed.

(** ApplyFilter twice *)
Definition af_half : app := app_setFilter (Some half_filter) (app_setInput (Some push) (new_app_filter (Some 0%nat))).
Lemma af_twice : exists a1 a2, af_execute ex_h af_half = Some a1 /\ af_execute ex_h a1 = Some a2 /\
  find 5 (fd_data (a_output a1)) = Some (V3 (1/2) 0 0) /\ find 5 (fd_data (a_output a2)) = Some (V3 (1/4) 0 0).
Proof.
  assert (Get : forall n, exists a', af_execs (S n) ex_h af_half = Some a' /\
    find 5 (fd_data (a_output a')) = Some (V3 ((1/2) ^ S n) 0 0)).
  { intros n. destruct (af_n n ex_h af_half 0 ex_wf (one_distinct _ _ _ _ _) (one_distinct _ _ _ _ _) eq_refl (or_introl eq_refl))
      as [a' [E Out]].
    - split; [reflexivity|]. apply push_linked.
    - discriminate.
    - right. split; [reflexivity|]. apply half_usable.
    - exists a'. split; [exact E|]. destruct (Out 5%nat) as [v [k [c [V [K [C F]]]]]]; [cbn; auto|].
      apply (value_or_look _ _ _ _ _ (one_distinct _ _ _ _ _)) in V.
      destruct K as [[K _]|[_ K]]; [discriminate|]. apply (value_or_look _ _ _ _ _ (one_distinct _ _ _ _ _)) in K.
      destruct C as [[_ C]|[C _]]; [|destruct (C eq_refl)]. unfold look in V, K. cbn in V, K. subst v k c. rewrite F. f_equal. vring. }
  destruct (Get 0%nat) as [a1 [E1 P1]]. destruct (Get 1%nat) as [a2 [E2 P2]]. cbn [af_execs] in E1, E2.
  destruct (af_execute ex_h af_half) as [a1'|] eqn:E; [|discriminate]. injection E1 as ->.
  destruct (af_execute ex_h a1) as [a2'|] eqn:E'; [|discriminate]. injection E2 as ->.
  exists a1, a2. split; [reflexivity|]. split; [exact E'|]. rewrite P1, P2. split; f_equal; f_equal; cbn; lra.
Qed.

(** ** A vertex added between two executions *)
Lemma added_still : exists h1 m1 h2 m2,
  exec (translation (V3 1 0 0) 1) ex_h (new_man (Some 0%nat)) = Some (h1, m1) /\
  exec (translation (V3 1 0 0) 1) (put_verts h1 0 (so_verts (h1 0%nat) ++ [(4%nat, V3 1 1 1)])) m1 = Some (h2, m2) /\
  In (9%nat, V3 2 0 0) (so_verts (h2 0%nat)) /\ In (4%nat, V3 1 1 1) (so_verts (h2 0%nat)).
Proof.
  eexists. eexists. eexists. eexists. split; [reflexivity|]. split; [reflexivity|]. split.
  - right. right. left. cbn. f_equal. vring.
  - right. right. right. left. cbn. unfold move. cbn. f_equal. vring.
Qed.
