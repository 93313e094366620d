(** Concrete geometries and objects for the radial basis functions. *)
From Coq Require Import List Arith Bool Reals Lra Lia.
From Verif Require Import Vec SharedPtr Field FieldProofs Manip ManipSpec ManipProofs ShapeProofs Rbf RbfSpec RbfProofs RbfKernel.
Import ListNotations.
Open Scope R_scope.

Definition up : vec := V3 0 0 1.
(** a surface with three vertices, its box has diagonal 5 *)
Definition wv : list (nat * vec) := [(0%nat, V3 0 0 0); (1%nat, V3 3 0 0); (2%nat, V3 0 4 0)].
(** a point cloud with two vertices; the ids do not follow the order *)
Definition wc : list (nat * vec) := [(9%nat, V3 0 0 0); (5%nat, V3 3 0 0)].
Definition wst : store := fun g =>
  match g with
  | O => So 1 wv (fun _ _ => Some up)
  | S O => So 3 wc (fun _ _ => None)
  | _ => So 3 [] (fun _ _ => None)
  end.
Lemma wst_wf : wf_store wst.
Proof.
  intros [|[|g]]; unfold distinct_ids; cbn; repeat constructor; cbn; intuition congruence.
Qed.

(** an oracle that answers null weights and keeps the nodes *)
Definition worac : oracle := Or (fun nodes _ _ data => data) (fun _ nodes _ _ data => (map (fun _ => true) nodes, data)).

Lemma dbl_min_pos : 0 < dbl_min.
Proof. unfold dbl_min. apply Rinv_0_lt_compat. apply pow_lt. lra. Qed.
Lemma dbl_min_le : dbl_min <= 1.
Proof.
  unfold dbl_min. pose proof (pow_R1_Rle 2 1022 ltac:(lra)) as H. rewrite <- Rinv_1. apply Rinv_le_contravar; lra.
Qed.

(** displacements given as a list to new objects *)
Definition w0 (m : rbf_mode) : rbf := new_rbf m (Some 0%nat).
Lemma real_value : forall x r, 1 <= x -> p_value (b_par (setSupportRadiusReal x r)) = x.
Proof. intros x r H. cbn. apply Rmax_right. lra. Qed.
Lemma real_candidate : forall d n data x r, 1 <= x -> candidate d n data (b_par (setSupportRadiusReal x r)) = x.
Proof.
  intros d n data x r H. unfold candidate. rewrite (real_value x r H). pose proof dbl_min_le.
  destruct (Rlt_dec x dbl_min); [lra|]. reflexivity.
Qed.
Lemma real_radii : forall d n data x r, 1 <= x -> fst (effective_radii d n data (b_par (setSupportRadiusReal x r))) = repeat x n.
Proof.
  intros d n data x r H. unfold effective_radii. change (p_radii (b_par (setSupportRadiusReal x r))) with (@nil R).
  cbn [fst]. rewrite real_candidate by exact H. reflexivity.
Qed.

Lemma norm_axis : forall a, 0 <= a -> norm (V3 a 0 0) = a.
Proof. intros a H. unfold norm, dot. cbn [vx vy vz]. replace (a * a + 0 * 0 + 0 * 0) with (a * a) by ring. apply sqrt_square, H. Qed.

(** an object with one node far from the surface, a radius larger than the diagonal of the surface and
    a function without compact support, asked to work on the supports only *)
Definition wfar : rbf :=
  setSupportRadiusReal 6 (setFunction (k_heaviside 10) true (setNode [V3 (-10) 0 0] (w0 MNone))).
Definition wone : rbf := setSupportRadiusReal 2 (setNode [V3 0 0 0] (w0 MNone)).

Lemma wv_in0 : In (0%nat, V3 0 0 0) (so_verts (wst 0%nat)). Proof. left. reflexivity. Qed.
Lemma wv_in1 : In (1%nat, V3 3 0 0) (so_verts (wst 0%nat)). Proof. right. left. reflexivity. Qed.
Lemma wv_in2 : In (2%nat, V3 0 4 0) (so_verts (wst 0%nat)). Proof. right. right. left. reflexivity. Qed.

(** the diagonal of the box of the surface *)
Lemma wv_diag : diagonal (map snd wv) 5.
Proof.
  exists (V3 0 0 0), (V3 3 4 0). unfold least, greatest. cbn [map snd wv In vx vy vz].
  assert (X : forall (P : vec -> Prop), P (V3 0 0 0) -> P (V3 3 0 0) -> P (V3 0 4 0) ->
    forall p, V3 0 0 0 = p \/ V3 3 0 0 = p \/ V3 0 4 0 = p \/ False -> P p) by (intros P A B C p [<-|[<-|[<-|[]]]]; assumption).
  repeat split.
  - exists (V3 0 0 0). split; [tauto|reflexivity].
  - apply X; cbn [vx vy vz]; lra.
  - exists (V3 0 0 0). split; [tauto|reflexivity].
  - apply X; cbn [vx vy vz]; lra.
  - exists (V3 0 0 0). split; [tauto|reflexivity].
  - apply X; cbn [vx vy vz]; lra.
  - exists (V3 3 0 0). split; [tauto|reflexivity].
  - apply X; cbn [vx vy vz]; lra.
  - exists (V3 0 4 0). split; [tauto|reflexivity].
  - apply X; cbn [vx vy vz]; lra.
  - exists (V3 0 0 0). split; [tauto|reflexivity].
  - apply X; cbn [vx vy vz]; lra.
  - unfold dist, dot, vsub. cbn [vx vy vz]. replace (_ + _ + _) with (5 * 5) by ring. symmetry. apply sqrt_square. lra.
Qed.

Lemma vsub_axis : forall a b, vsub (V3 a 0 0) (V3 b 0 0) = V3 (a - b) 0 0.
Proof. intros a b. unfold vsub. cbn [vx vy vz]. f_equal; ring. Qed.
Lemma dist_axis : forall a b, b <= a -> dist (V3 a 0 0) (V3 b 0 0) = a - b.
Proof. intros a b H. change (dist (V3 a 0 0) (V3 b 0 0)) with (norm (vsub (V3 a 0 0) (V3 b 0 0))). rewrite vsub_axis. apply norm_axis. lra. Qed.

(** executions of objects with a real radius succeed *)
Lemma real_defined : forall O r g x D, b_geo r = Some g -> i_geo (b_in r) = None -> p_mode (b_par r) = MNone ->
  distinct_ids (fd_data (b_filter r)) -> 1 <= x ->
  exists r', rbf_execute O wst (setDisplacements D (setSupportRadiusReal x r)) = Some r'.
Proof.
  intros O r g x D G I M N Hx. rewrite (execute_list _ _ _ g) by assumption. apply run_defined.
  - exact wst_wf.
  - exact N.
  - exact M.
  - cbn. lia.
  - intros id p i y _ Hi Z. exfalso. unfold run_radii in Z. change (b_par (setDisplacements D (setSupportRadiusReal x r))) with (b_par (setSupportRadiusReal x r)) in Z.
    rewrite real_radii in Z by exact Hx.
    assert (L : (i < length (i_nodes (b_in (setDisplacements D (setSupportRadiusReal x r)))))%nat) by (apply nth_error_Some; congruence).
    set (n := length _) in *. assert (K : In (nth i (repeat x n) 0) (repeat x n)) by (apply nth_In; rewrite repeat_length; exact L).
    apply repeat_spec in K. lra.
Qed.
