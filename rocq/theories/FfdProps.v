(** Property theorems of the free form deformation lattices: mixtures of the displacements of the nodes
    (C40), rational B-splines (C71), corners and Bezier lattices (C72), weights and displacements of the
    nodes (C73). *)
From Coq Require Import Reals List Arith ZArith Bool Lia Lra.
From Verif Require Import Vec Field Shape ShapeSpec ShapeProofs ShapeCoord ShapeWitness ShapeSel ShapeSelSpec ShapeSelProofs Mesh MeshSpec Lattice LatticeSpec LatticeBuild LatticeWitness Manip ManipSpec Ffd FfdSpec FfdEval FfdReady FfdForms FfdBuild FfdMoves FfdWitness.
Import ListNotations.
Open Scope R_scope.

(** C40: a point in the box of the shape moves by a mixture of the displacements of the nodes: shares
    that are not negative and add up to 1. The shares depend on the point and the lattice only, neither
    on the displacements nor on the geometry. Missing: the points within 1e-12 of the faces that the
    selection takes although their local coordinates are out of the box. *)
Theorem C40_mixture_partial : forall f s q, ready f s -> ShapeSpec.solid s -> spaced f s -> positive_weights f -> in_box s q ->
  exists lam, shares (nodes f) lam /\ forall D world, length D = nodes f -> moves f s D world q (mix (nodes f) lam D).
Proof.
  intros f s q R So Sp Wp I. pose proof (ready_core f s R) as C. destruct (mixture f s q C So Sp Wp I) as (lam & S & E). exists lam. split; [exact S|].
  intros D world L. apply evaluates_moves; [exact C|]. apply E, L.
Qed.
Print Assumptions C40_mixture_partial.
(** The execution ends, without reading out of bounds. *)
Theorem C40_total_partial : forall f s D world fl G g, ready f s -> ShapeSpec.solid s -> spaced f s -> positive_weights f ->
  (forall k, good_geo (G k)) -> distinct_ids (fd_data fl) -> length D = nodes f ->
  (forall id q, In (id, q) (p_verts (ge_patch (G g))) -> affected s (G g) id -> in_box s q) ->
  exists f', ffd_execute G (prepared f D world fl g) = Some f'.
Proof.
  intros f s D world fl G g R So Sp Wp Wf Nf L B. pose proof (ready_core f s R) as C. apply (total_is f s D world C G g fl Wf Nf L).
  intros id q I A. destruct (mixture f s q C So Sp Wp (B id q I A)) as (lam & _ & E). exists (mix (nodes f) lam D). apply E, L.
Qed.
Print Assumptions C40_total_partial.
(** The result is a field on the geometry with one displacement for each vertex, null out of the cells
    in the shape. *)
Theorem C40_field : forall f s D world fl G g f', ready f s -> (forall k, good_geo (G k)) -> distinct_ids (fd_data fl) ->
  ffd_execute G (prepared f D world fl g) = Some f' ->
  fd_geo (f_gdispl f') = Some g /\ map fst (fd_data (f_gdispl f')) = map fst (p_verts (ge_patch (G g))) /\
  forall id, In id (map fst (p_verts (ge_patch (G g)))) -> ~ affected s (G g) id -> In (id, vzero) (fd_data (f_gdispl f')).
Proof. intros f s D world fl G g f' R. exact (field_is f s D world (ready_core f s R) G g fl f'). Qed.
Print Assumptions C40_field.
(** With the apply flag the vertices take these displacements, and the others stay. *)
Theorem C40_apply_partial : forall f s q, ready f s -> ShapeSpec.solid s -> spaced f s -> positive_weights f -> in_box s q ->
  exists lam, shares (nodes f) lam /\ forall D world G g fl vs' f', length D = nodes f -> (forall k, good_geo (G k)) -> distinct_ids (fd_data fl) ->
    ffd_exec G (prepared f D world fl g) = Some (vs', f') -> forall id, In (id, q) (p_verts (ge_patch (G g))) ->
    (affected s (G g) id -> exists k, factor g (p_verts (ge_patch (G g))) fl id k /\ In (id, vadd q (vscale k (displaced s world q (mix (nodes f) lam D)))) vs').
Proof.
  intros f s q R So Sp Wp I. destruct (C40_mixture_partial f s q R So Sp Wp I) as (lam & S & M). exists lam. split; [exact S|].
  intros D world G g fl vs' f' L Wf Nf X id J A. exact (exec_moves f s D world q _ (ready_core f s R) (M D world L) G g fl vs' f' Wf Nf X id J A).
Qed.
Print Assumptions C40_apply_partial.
Theorem C40_others : forall f s D world fl G g vs' f', ready f s -> (forall k, good_geo (G k)) -> distinct_ids (fd_data fl) ->
  ffd_exec G (prepared f D world fl g) = Some (vs', f') ->
  map fst vs' = map fst (p_verts (ge_patch (G g))) /\
  forall id q, In (id, q) (p_verts (ge_patch (G g))) -> ~ affected s (G g) id -> In (id, q) vs'.
Proof. intros f s D world fl G g vs' f' R. exact (exec_others f s D world (ready_core f s R) G g fl vs' f'). Qed.
Print Assumptions C40_others.
(** Equal displacements of all the nodes move every point of the box by that displacement. *)
Theorem C40_rigid : forall f s q D d, ready f s -> ShapeSpec.solid s -> spaced f s -> positive_weights f -> in_box s q ->
  length D = nodes f -> Forall (eq d) D -> moves f s D true q d.
Proof.
  intros f s q D d R So Sp Wp I L E. destruct (C40_mixture_partial f s q R So Sp Wp I) as (lam & S & M).
  rewrite <- (mix_const (nodes f) lam D d S); [apply M, L|]. intros i Hi. rewrite Forall_forall in E. symmetry. apply E, nth_In. lia.
Qed.
Print Assumptions C40_rigid.
(** Null displacements of the nodes move nothing. Along the local coordinates this takes points out of
    the planes where the local coordinates are cut. *)
Theorem C40_null : forall f s q D world G g fl id f', ready f s -> ShapeSpec.solid s -> spaced f s -> positive_weights f -> in_box s q ->
  length D = nodes f -> Forall (eq vzero) D -> world = true \/ ~ edge_plane s q ->
  (forall k, good_geo (G k)) -> distinct_ids (fd_data fl) -> In (id, q) (p_verts (ge_patch (G g))) -> affected s (G g) id ->
  ffd_execute G (prepared f D world fl g) = Some f' -> In (id, vzero) (fd_data (f_gdispl f')).
Proof.
  intros f s q D world G g fl id f' R So Sp Wp I L E W Wf Nf J A X. destruct (C40_mixture_partial f s q R So Sp Wp I) as (lam & S & M).
  destruct (M D world L G g fl id f' Wf Nf J A X) as (k & _ & K).
  rewrite (mix_const (nodes f) lam D vzero S), (displaced_null f s world q (ready_core f s R) So W) in K.
  - replace (vscale k vzero) with vzero in K; [exact K|]. unfold vscale, vzero. cbn [vx vy vz]. f_equal; ring.
  - intros i Hi. rewrite Forall_forall in E. symmetry. apply E, nth_In. lia.
Qed.
Print Assumptions C40_null.
(** No component of the displacement leaves the range of the nodes. *)
Theorem C40_bounds : forall f s q D i a b, ready f s -> ShapeSpec.solid s -> spaced f s -> positive_weights f -> in_box s q ->
  length D = nodes f -> (i < 3)%nat -> Forall (fun d => a <= vent d i <= b) D ->
  exists m, a <= vent m i <= b /\ moves f s D true q m.
Proof.
  intros f s q D i a b R So Sp Wp I L Hi B. destruct (C40_mixture_partial f s q R So Sp Wp I) as (lam & S & M).
  exists (mix (nodes f) lam D). split; [|apply M, L]. apply mix_bounds; [exact S|exact Hi|]. intros k Hk. rewrite Forall_forall in B. apply B, nth_In. lia.
Qed.
Print Assumptions C40_bounds.
Example C40_nonvacuous : exists f, ready f cube /\ ShapeSpec.solid cube /\ spaced f cube /\ positive_weights f /\ length (f_displ f) = nodes f /\
  (forall i, (i < 3)%nat -> dim (f_mesh f) i = 3%Z /\ MeshSpec.comp (f_deg f) i = 2%Z) /\
  (forall k, good_geo ((fun _ : nat => strip_geo (- / 4)) k)) /\
  (forall id, affected cube (strip_geo (- / 4)) id <-> (id <= 2)%nat) /\
  (forall id q, In (id, q) (p_verts (ge_patch (strip_geo (- / 4)))) -> affected cube (strip_geo (- / 4)) id -> in_box cube q).
Proof.
  destruct cube_ready as (f & R & Dm & Dg & Sp & Wp & L). exists f. split; [exact R|]. split; [exact cube_solid|]. split; [exact Sp|]. split; [exact Wp|]. split; [exact L|].
  assert (T : 0 < Shape.tol < / 1000) by exact tol_pos.
  assert (A : forall id, affected cube (strip_geo (- / 4)) id <-> (id <= 2)%nat) by (intros id; apply strip_affected; lra).
  split; [intros i Hi; split; [rewrite Dm by exact Hi; three Hi; reflexivity|apply Dg, Hi]|]. split; [intros _; apply strip_good; lra|]. split; [exact A|].
  intros id q I J. apply A in J. apply cube_box. cbn in I. repeat (destruct I as [I|I]; [injection I as <- <-; intros i Hi; three Hi; cbn [vent vx vy vz]; first [lia | lra]|]). destruct I.
Qed.
(** The same with an azimuth that is periodic. *)
Example C40_round_nonvacuous : exists f q, ready f (new_shape CYLINDER) /\ ShapeSpec.solid (new_shape CYLINDER) /\ spaced f (new_shape CYLINDER) /\ positive_weights f /\ coord_type (new_shape CYLINDER) 1 = PERIODIC /\
  length (f_displ f) = nodes f /\ in_box (new_shape CYLINDER) q.
Proof.
  destruct round_ready as (f & R & So & Sp & Wp & P & L). exists f, (toWorldCoord (new_shape CYLINDER) (V3 (/ 2) 1 0)). repeat (split; [assumption|]). exact round_box.
Qed.
(** The evaluation of one point reads the nodes in the wrong order, and out of the list: a box of 3 by 2 by
    2 nodes, built, with the right number of displacements. *)
Theorem C40_point_refuted : exists f, ready f cube /\ spaced f cube /\ positive_weights f /\ length (f_displ f) = nodes f /\
  in_box cube (V3 (/ 4) 0 0) /\ apply_point f (V3 (/ 4) 0 0) = None.
Proof.
  destruct (cube_ex 3 2 2 (1, 1, 1)%Z) as (f & B & Rd & Dm & Dg & Sp & Wp & LD); try lia. exists f. repeat (split; [assumption|]).
  split; [apply cube_box; intros i Hi; three Hi; cbn [vent vx vy vz]; lra|]. apply box_point; [exact Rd|exact Dm| |].
  - intros i Hi. rewrite Dg by exact Hi. three Hi; reflexivity.
  - rewrite (build_order _ _ _ B), !Dm by lia. reflexivity.
Qed.
Print Assumptions C40_point_refuted.
(** With an unclamped direction the execution reads out of the list for a vertex within 1e-12 below the
    box, which the selection takes. *)
Theorem C40_unclamped_refuted : exists f G, ready f loose /\ (forall k, good_geo (G k)) /\ spaced f loose /\ positive_weights f /\ length (f_displ f) = nodes f /\
  (forall id q, In (id, q) (p_verts (ge_patch (G 0%nat))) -> affected loose (G 0%nat) id -> isPointIncluded loose q = true) /\
  ffd_execute G (prepared f (f_displ f) true no_field 0) = None.
Proof. exact loose_execute. Qed.
Print Assumptions C40_unclamped_refuted.

(** C71: on a shape with clamped directions, the displacement of a point is the rational B-spline of the
    displacements of the nodes: the mean by the products of basis functions and weights, by the recursion of
    Cox and de Boor on clamped knots, the degrees asked for and the local coordinates of the point. The
    functions are not negative and add up to 1. *)
Theorem C71_spline : forall f s q, ready f s -> ShapeSpec.solid s -> all_clamped s -> positive_weights f -> in_box s q ->
  let u d := clamped_knot (points f d) (degree f d) (vent (getLocalOrigin s) d) (vent (s_span s) d) in
  let x d := vent (toLocalCoord s q) d in
  exists k, (forall d, (d < 3)%nat -> in_span (u d) (k d) (x d) /\ (0 <= k d)%Z /\ (1 <= degree f d < points f d)%nat /\
      (forall a, 0 <= bspline (u d) (k d) (degree f d) (Z.of_nat a) (x d)) /\
      rsum (points f d) (fun a => bspline (u d) (k d) (degree f d) (Z.of_nat a) (x d)) = 1) /\
    forall w D y world m, length D = nodes f -> node_values f (f_weights f) w -> node_values f D y ->
      (forall i, (i < 3)%nat -> vent m i = weighted_mean (points f) (fun d a => bspline (u d) (k d) (degree f d) (Z.of_nat a) (x d)) w (fun a b c => vent (y a b c) i)) ->
      moves f s D world q m.
Proof.
  intros f s q R So Cl Wp I u x. pose proof (ready_core f s R) as C. destruct (clamped_form f s q C So Cl Wp I) as (k & K & E). exists k. split; [exact K|].
  intros w D y world m L Hw Hy M. apply evaluates_moves; [exact C|]. exact (E w D y world m L Hw Hy M).
Qed.
Print Assumptions C71_spline.
(** The values on the nodes exist for any list of the right length. *)
Theorem C71_values : forall f s, ready f s ->
  (exists w, node_values f (f_weights f) w) /\ (forall D : list vec, length D = nodes f -> exists y, node_values f D y) /\
  forall w : nat -> nat -> nat -> R, positive_weights f -> node_values f (f_weights f) w ->
  forall a b c, (a < points f 0)%nat -> (b < points f 1)%nat -> (c < points f 2)%nat -> 0 < w a b c.
Proof.
  intros f s R. pose proof (ready_core f s R) as C. split; [exact (values_exist f s (f_weights f) 0 C (co_weights _ _ C))|]. split; [intros D L; exact (values_exist f s D vzero C L)|].
  intros w Wp Hw a b c A B Cc. apply (values_positive f s w C Wp Hw a b c). apply grid_point; lia.
Qed.
Print Assumptions C71_values.
Example C71_nonvacuous : exists f q, ready f cube /\ ShapeSpec.solid cube /\ all_clamped cube /\ positive_weights f /\ in_box cube q /\ length (f_displ f) = nodes f /\
  (forall d, (d < 3)%nat -> points f d = 3%nat /\ degree f d = 2%nat).
Proof.
  destruct cube_ready as (f & R & Dm & Dg & Sp & Wp & L). exists f, (V3 (/ 4) 0 (/ 3)). split; [exact R|]. split; [exact cube_solid|]. split; [exact cube_clamped|]. split; [exact Wp|].
  split; [apply cube_box; intros i Hi; three Hi; cbn [vent vx vy vz]; lra|]. split; [exact L|]. intros d Hd. unfold points, degree. rewrite Dg, Dm by exact Hd. three Hd; split; reflexivity.
Qed.

(** C72: the corner of the box moves by the displacement of its node, whatever the degrees, the weights
    and the other nodes. *)
Theorem C72_corner : forall f s q (hi : nat -> bool), ready f s -> ShapeSpec.solid s -> all_clamped s -> positive_weights f -> in_box s q ->
  (forall d, (d < 3)%nat -> vent (toLocalCoord s q) d = if hi d then vent (getLocalOrigin s) d + vent (s_span s) d else vent (getLocalOrigin s) d) ->
  let e d := if hi d then (dim (f_mesh f) d - 1)%Z else 0%Z in
  forall D world n v, length D = nodes f -> dof (f_lat f) (e 0%nat, e 1%nat, e 2%nat) n -> zget D n = Some v -> moves f s D world q v.
Proof.
  intros f s q hi R So Cl Wp I Q e D world n v L Dn Zn. pose proof (ready_core f s R) as C. apply evaluates_moves; [exact C|]. apply (corner f s q hi C So Cl Wp I Q D world n v L); [|exact Zn].
  assert (E : forall d, (d < 3)%nat -> Z.of_nat (end_node f hi d) = e d).
  { intros d Hd. unfold end_node, e, points. destruct (hi d); [|reflexivity]. destruct (co_curve _ _ C d Hd) as (x & Dx & _). unfold dimn in Dx. lia. }
  rewrite !E by lia. exact Dn.
Qed.
Print Assumptions C72_corner.
(** With as many nodes as the degree plus one the displacement is the rational Bezier form. *)
Theorem C72_bezier : forall f s q, ready f s -> ShapeSpec.solid s -> all_clamped s -> positive_weights f -> in_box s q ->
  (forall d, (d < 3)%nat -> points f d = S (degree f d)) ->
  let t d := (vent (toLocalCoord s q) d - vent (getLocalOrigin s) d) / vent (s_span s) d in
  forall w D y world m, length D = nodes f -> node_values f (f_weights f) w -> node_values f D y ->
    (forall i, (i < 3)%nat -> vent m i = weighted_mean (points f) (fun d a => bernstein (degree f d) a (t d)) w (fun a b c => vent (y a b c) i)) ->
    moves f s D world q m.
Proof.
  intros f s q R So Cl Wp I P t w D y world m L Hw Hy M. pose proof (ready_core f s R) as C. apply evaluates_moves; [exact C|]. exact (bezier f s q C So Cl Wp I P w D y world m L Hw Hy M).
Qed.
Print Assumptions C72_bezier.
Example C72_nonvacuous : exists f q, ready f cube /\ ShapeSpec.solid cube /\ all_clamped cube /\ positive_weights f /\ in_box cube q /\ length (f_displ f) = nodes f /\
  (forall d, (d < 3)%nat -> points f d = S (degree f d)) /\
  forall d, (d < 3)%nat -> vent (toLocalCoord cube q) d = if Nat.eqb d 1 then vent (getLocalOrigin cube) d + vent (s_span cube) d else vent (getLocalOrigin cube) d.
Proof.
  destruct cube_ready as (f & R & Dm & Dg & Sp & Wp & L). exists f, (V3 (- / 2) (/ 2) (- / 2)). split; [exact R|]. split; [exact cube_solid|]. split; [exact cube_clamped|]. split; [exact Wp|].
  split; [apply cube_box; intros i Hi; three Hi; cbn [vent vx vy vz]; lra|]. split; [exact L|]. split.
  - intros d Hd. unfold points, degree. rewrite Dg, Dm by exact Hd. three Hd; reflexivity.
  - intros d Hd. rewrite cube_local. three Hd; cbn; lra.
Qed.

(** C73: build ends on a solid shape; the numbers of nodes are at least the minimum of the shape, and the
    degrees are those asked for between 1 and the number of nodes less one. The weights collected before
    must be of nodes the lattice has. *)
Theorem C73_total : forall f0 s, mreach any (f_mesh f0) -> m_shape (f_mesh f0) = Some s -> ShapeSpec.solid s ->
  (forall d, (d < 3)%nat -> coord_type s d = PERIODIC \/ coord_type s d = SYMMETRIC ->
     2 / 10 ^ 12 <= vent (s_span s) d / IZR (Z.max (dim (f_mesh f0) d) (min_points (s_kind s) d) - 1)) ->
  (forall l, lat_build (f_lat f0) = Some (true, l) -> Forall (fun '(i, _) => (0 <= i < getNNodes l)%Z) (f_collect f0)) ->
  exists f1, build f0 = Some (true, f1) /\ m_shape (f_mesh f1) = Some s /\
    (forall d, (d < 3)%nat -> dim (f_mesh f1) d = Z.max (dim (f_mesh f0) d) (min_points (s_kind s) d)) /\
    (forall d, (d < 3)%nat -> MeshSpec.comp (f_deg f1) d = Z.min (dim (f_mesh f1) d - 1) (Z.max 1 (MeshSpec.comp (f_deg f0) d))).
Proof. exact build_total. Qed.
Print Assumptions C73_total.
(** The displacements of the nodes are kept in their order, and null ones are added for new nodes. *)
Theorem C73_displacements : forall f0 b f1, build f0 = Some (b, f1) ->
  length (f_displ f1) = nodes f1 /\ forall i, (i < nodes f1)%nat -> nth i (f_displ f1) vzero = nth i (f_displ f0) vzero.
Proof. exact build_displ. Qed.
Print Assumptions C73_displacements.
(** The weights set since the last build take effect at the next one, the last of each node; the lattice,
    its degrees and its displacements are the same. *)
Theorem C73_weights : forall f s calls, ready f s -> (forall i w, In (i, w) calls -> (0 <= i < num_points (f_mesh f))%Z) ->
  exists f1 f2, weigh f calls = Some f1 /\ build f1 = Some (true, f2) /\ ready f2 s /\ f_lat f2 = f_lat f /\ f_deg f2 = f_deg f /\
    (length (f_displ f) = nodes f -> f_displ f2 = f_displ f) /\
    forall d, (0 <= d < getNNodes (f_lat f))%Z -> zget (f_weights f2) d = Some (last_weight (f_lat f) calls d 1).
Proof. exact ready_weights. Qed.
Print Assumptions C73_weights.
Example C73_nonvacuous : exists f, ready f cube /\ num_points (f_mesh f) = 27%Z /\ length (f_displ f) = nodes f.
Proof. destruct cube_ready as (f & R & Dm & _ & _ & _ & L). exists f. split; [exact R|]. split; [unfold num_points; rewrite !Dm by lia; reflexivity|exact L]. Qed.
(** The next build forgets them: a weight set and built goes back to 1 when the lattice is built again
    with nothing changed. *)
Theorem C73_weights_refuted : exists f f1 f2 f3 d, ready f cube /\ setNodalWeight f 2 0 = Some f1 /\ build f1 = Some (true, f2) /\ accessDOFFromGrid (f_lat f2) 0 = Some d /\ zget (f_weights f2) d = Some 2 /\
  build f2 = Some (true, f3) /\ f_lat f3 = f_lat f2 /\ zget (f_weights f3) d = Some 1.
Proof. exact weight_lost. Qed.
Print Assumptions C73_weights_refuted.
(** A list of displacements that does not fit the nodes is not refused: it is stored, and any execution
    reads out of it. *)
Theorem C73_size_refuted : exists f, ready f cube /\ length (f_displ f) = nodes f /\ nodes f <> 0%nat /\ f_displ (setDisplacements f []) = [] /\
  forall G g fl, ffd_execute G (prepared f [] true fl g) = None.
Proof.
  destruct cube_ready as (f & R & _ & _ & _ & _ & L). exists f. split; [exact R|]. split; [exact L|]. split; [|split; [reflexivity|intros G g fl; exact (short_none G f cube g fl R)]].
  pose proof (nodes_pos f cube (ready_core f cube R)). unfold nodes. lia.
Qed.
Print Assumptions C73_size_refuted.
