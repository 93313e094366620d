(** The properties of the manipulators (C34-C37, C63, C64). *)
From Coq Require Import List Arith Bool Reals Lra Lia.
From Verif Require Import Vec SharedPtr Field Manip ManipSpec ManipProofs ManipMoves ManipApply ManipWitness.
Import ListNotations.
Open Scope R_scope.

(** * C34: rotation *)

(** Every vertex goes the part given by its filter weight of the way to its turned position;
    other geometries are not touched. *)
Theorem C34_rotation : forall h m g x alpha, wf_store h -> distinct_ids (fd_data (m_filter m)) -> m_geo m = Some g ->
  unit_vec (x_dir x) ->
  exists h' m', exec (rotation x alpha) h m = Some (h', m') /\ (forall k, k <> g -> h' k = h k) /\
    moved (fun i p r => exists w q, weight (so_verts (h g)) g (m_filter m) i w /\
             turned (x_origin x) (x_dir x) alpha p q /\ part_way w p q r)
      (so_verts (h g)) (so_verts (h' g)).
Proof. exact rotation_ok. Qed.
Print Assumptions C34_rotation.

(** Without filter: distances are preserved and points of the axis are fixed. *)
Theorem C34_rigid : forall h m g x alpha, wf_store h -> distinct_ids (fd_data (m_filter m)) -> m_geo m = Some g ->
  unit_vec (x_dir x) -> ~ usable (so_verts (h g)) g (m_filter m) ->
  exists h' m', exec (rotation x alpha) h m = Some (h', m') /\
    (forall i j p q p' q', In (i, p) (so_verts (h g)) -> In (j, q) (so_verts (h g)) ->
       In (i, p') (so_verts (h' g)) -> In (j, q') (so_verts (h' g)) -> dist p' q' = dist p q) /\
    (forall i p p', In (i, p) (so_verts (h g)) -> In (i, p') (so_verts (h' g)) -> on_axis (x_origin x) (x_dir x) p -> p' = p).
Proof. exact rotation_rigid. Qed.
Print Assumptions C34_rigid.

(** Any number of executions of the same object with angles a1, ..., an is the rotation by the
    sum. *)
Theorem C34_additive : forall g x angles h m, wf_store h -> distinct_ids (fd_data (m_filter m)) -> m_geo m = Some g ->
  unit_vec (x_dir x) -> ~ usable (so_verts (h g)) g (m_filter m) ->
  exists h' m', exec_all (map (rotation x) angles) h m = Some (h', m') /\ (forall k, k <> g -> h' k = h k) /\
    moved (fun _ p q => turned (x_origin x) (x_dir x) (fold_right Rplus 0 angles) p q) (so_verts (h g)) (so_verts (h' g)).
Proof.
  exact (fun g x angles h m A B C D E => rotations_ok g x angles h m A B C D (unusable_ones h g m E)).
Qed.
Print Assumptions C34_additive.

(** Rotation by 0, or with a filter that is 0 at all vertices: nothing moves, whatever the axis. *)
Theorem C34_still : forall h m g x alpha, wf_store h -> distinct_ids (fd_data (m_filter m)) -> m_geo m = Some g ->
  (alpha = 0 \/ forall i k, In i (map fst (so_verts (h g))) -> weight (so_verts (h g)) g (m_filter m) i k -> k = 0) ->
  exists h' m', exec (rotation x alpha) h m = Some (h', m') /\ so_verts (h' g) = so_verts (h g).
Proof. exact rotation_still. Qed.
Print Assumptions C34_still.

(** setDirection gives the unit vector of any direction but the null one. *)
Theorem C34_direction : forall d, d <> vzero ->
  exists k u, setDirection d = Some u /\ 0 < k /\ u = vscale k d /\ unit_vec u.
Proof. exact setDirection_ok. Qed.
Print Assumptions C34_direction.

Example C34_nonvacuous : wf_store ex_h /\ unit_vec (x_dir z_axis) /\
  ~ usable (so_verts (ex_h 0%nat)) 0 (m_filter (new_man (Some 0%nat))) /\
  usable (so_verts (ex_h 0%nat)) 0 half_filter /\ on_axis vzero (V3 0 0 1) (V3 0 0 1).
Proof.
  split; [exact ex_wf|]. split; [exact z_unit|]. split; [exact (fresh_unusable _ _ _)|]. split; [exact half_usable|].
  exists 1. apply vec_eq; cbn; ring.
Qed.

(** setAxis and the port of the axis keep a direction of any length: the motion is then not rigid
    and the points of the axis move. *)
Theorem C34_setAxis_refuted : exists h g o d alpha h' m' p q p' q' (i j : nat),
  wf_store h /\ d <> vzero /\ exec (rotation (setAxis o d) alpha) h (new_man (Some g)) = Some (h', m') /\
  In (i, p) (so_verts (h g)) /\ In (j, q) (so_verts (h g)) /\ In (i, p') (so_verts (h' g)) /\ In (j, q') (so_verts (h' g)) /\
  dist p' q' <> dist p q /\ on_axis o d p /\ p' <> p.
Proof.
  destruct long_axis as [h' [m' [E [A B]]]].
  exists ex_h, 0%nat, vzero, (V3 0 0 2), PI, h', m', (V3 0 0 1), (V3 0 0 0), (V3 0 0 7), (V3 0 0 0), 5%nat, 9%nat.
  split; [exact ex_wf|]. split; [intros X; injection X as X; lra|]. split; [exact E|]. split; [cbn; auto|]. split; [cbn; auto|].
  split; [exact A|]. split; [exact B|]. split.
  - unfold dist, dot. cbn [vx vy vz vsub]. intros X.
    replace ((0 - 0) * (0 - 0) + (0 - 0) * (0 - 0) + (7 - 0) * (7 - 0)) with (7 * 7) in X by ring.
    replace ((0 - 0) * (0 - 0) + (0 - 0) * (0 - 0) + (1 - 0) * (1 - 0)) with (1 * 1) in X by ring.
    rewrite !sqrt_square in X by lra. lra.
  - split; [exists (1 / 2); apply vec_eq; cbn; lra|]. intros X. injection X as X. lra.
Qed.
Print Assumptions C34_setAxis_refuted.

(** * C35: twist *)

(** For a twist angle alpha >= 0: the angle is the linear ramp capped at alpha.  Missing for the
    full property: negative angles, see C35_negative_refuted. *)
Theorem C35_twist_partial : forall h m g x alpha D sym, wf_store h -> distinct_ids (fd_data (m_filter m)) -> m_geo m = Some g ->
  unit_vec (x_dir x) -> 0 <= alpha -> 0 < D ->
  exists h' m', exec (twist x alpha D sym) h m = Some (h', m') /\ (forall k, k <> g -> h' k = h k) /\
    moved (fun i p r => exists w a q, weight (so_verts (h g)) g (m_filter m) i w /\
             twist_law alpha D sym (height (x_origin x) (x_dir x) p) a /\
             turned (x_origin x) (x_dir x) a p q /\ part_way w p q r)
      (so_verts (h g)) (so_verts (h' g)).
Proof.
  intros h m g x alpha D sym Nh N G U A HD.
  destruct (twist_ok h m g x alpha D sym Nh N G U) as [h' [m' [E [O M]]]]; [lra|].
  exists h', m'. split; [exact E|]. split; [exact O|]. revert M. apply moved_impl.
  intros i p r _ [w [q [W [T P]]]]. exists w. eexists. exists q. split; [exact W|].
  split; [apply twist_angle_positive; assumption|]. split; [exact T|exact P].
Qed.
Print Assumptions C35_twist_partial.

(** For every angle: a vertex without filter keeps its foot on the axis and its distance from the
    axis; points of the axis are fixed. *)
Theorem C35_distance : forall h m g x alpha D sym, wf_store h -> distinct_ids (fd_data (m_filter m)) -> m_geo m = Some g ->
  unit_vec (x_dir x) -> D <> 0 -> ~ usable (so_verts (h g)) g (m_filter m) ->
  exists h' m', exec (twist x alpha D sym) h m = Some (h', m') /\
    moved (fun _ p q => foot (x_origin x) (x_dir x) q = foot (x_origin x) (x_dir x) p /\
             dist q (foot (x_origin x) (x_dir x) q) = dist p (foot (x_origin x) (x_dir x) p) /\
             (on_axis (x_origin x) (x_dir x) p -> q = p))
      (so_verts (h g)) (so_verts (h' g)).
Proof.
  intros h m g x alpha D sym Nh N G U HD A.
  destruct (twist_ok h m g x alpha D sym Nh N G U HD) as [h' [m' [E [O M]]]].
  exists h', m'. split; [exact E|]. revert M. apply moved_impl. intros i p r Hi [w [q [W [T P]]]].
  assert (w = 1) as -> by (destruct W as [[K _]|[_ K]]; [destruct (A K)|exact K]). apply full_way in P. subst r.
  destruct (turned_radius _ _ _ _ _ U T) as [F R]. split; [exact F|]. split; [exact R|].
  intros X. exact (turned_axis _ _ U _ _ _ X T).
Qed.
Print Assumptions C35_distance.

(** For a negative alpha the cap works the wrong way: at heights t >= 0 the angle is
    alpha * max(1, t/D), all of alpha near the origin and more than it beyond D. *)
Theorem C35_negative : forall h m g x alpha D sym, wf_store h -> distinct_ids (fd_data (m_filter m)) -> m_geo m = Some g ->
  unit_vec (x_dir x) -> alpha <= 0 -> 0 < D ->
  exists h' m', exec (twist x alpha D sym) h m = Some (h', m') /\
    moved (fun i p r => 0 <= height (x_origin x) (x_dir x) p ->
             exists w q, weight (so_verts (h g)) g (m_filter m) i w /\
             turned (x_origin x) (x_dir x) (alpha * Rmax 1 (height (x_origin x) (x_dir x) p / D)) p q /\ part_way w p q r)
      (so_verts (h g)) (so_verts (h' g)).
Proof.
  intros h m g x alpha D sym Nh N G U A HD.
  destruct (twist_ok h m g x alpha D sym Nh N G U) as [h' [m' [E [_ M]]]]; [lra|].
  exists h', m'. split; [exact E|]. revert M. apply moved_impl. intros i p r _ [w [q [W [T P]]]] H.
  exists w, q. split; [exact W|]. split; [|exact P].
  destruct (twist_angle_negative alpha D (height (x_origin x) (x_dir x) p) A HD H) as [K1 K2].
  destruct sym; [rewrite K1 in T|rewrite K2 in T]; exact T.
Qed.
Print Assumptions C35_negative.

Theorem C35_negative_refuted : exists h g x alpha D h' m' p q (i : nat),
  wf_store h /\ unit_vec (x_dir x) /\ 0 < D /\ exec (twist x alpha D true) h (new_man (Some g)) = Some (h', m') /\
  In (i, p) (so_verts (h g)) /\ In (i, q) (so_verts (h' g)) /\
  forall a, twist_law alpha D true (height (x_origin x) (x_dir x) p) a -> ~ turned (x_origin x) (x_dir x) a p q.
Proof.
  destruct negative_twist as [h' [m' [E A]]].
  exists ex_h, 0%nat, z_axis, (- PI), 2, h', m', (V3 1 0 1), (V3 (-1) 0 1), 2%nat.
  split; [exact ex_wf|]. split; [exact z_unit|]. split; [lra|]. split; [exact E|]. split; [cbn; auto|]. split; [exact A|].
  intros a L T. assert (H : height (x_origin z_axis) (x_dir z_axis) (V3 1 0 1) = 1).
  { unfold height, dot. cbn [z_axis x_origin x_dir vx vy vz vzero vsub]. ring. }
  rewrite H in L. destruct L as [[_ L]|[[L _]|[L _]]]; [|lra|lra].
  unfold Rmin in L. destruct (Rle_dec 1 (1 / 2)) as [X|_]; [lra|].
  apply half_turn_is_not. replace (- (PI / 2)) with a by (rewrite L; field). exact T.
Qed.
Print Assumptions C35_negative_refuted.

Example C35_nonvacuous : wf_store ex_h /\ unit_vec (x_dir z_axis) /\ 0 <= PI /\
  twist_law PI 2 true (height vzero (V3 0 0 1) (V3 1 0 1)) (PI / 2).
Proof.
  split; [exact ex_wf|]. split; [exact z_unit|]. split; [pose proof PI_RGT_0; lra|].
  left. assert (H : height vzero (V3 0 0 1) (V3 1 0 1) = 1) by (unfold height, dot; cbn; ring). rewrite H. split; [lra|].
  unfold Rmin. destruct (Rle_dec 1 (1 / 2)) as [X|_]; [lra|field].
Qed.

(** * C36: scale, translate, bend *)

Theorem C36_scale : forall h m g s c, wf_store h -> distinct_ids (fd_data (m_filter m)) -> m_geo m = Some g ->
  exists h' m', scale_exec s c false h m = Some (h', m') /\ (forall k, k <> g -> h' k = h k) /\
    moved (fun i p r => exists w, weight (so_verts (h g)) g (m_filter m) i w /\
             vx r - vx p = w * ((vx s - 1) * (vx p - vx c)) /\
             vy r - vy p = w * ((vy s - 1) * (vy p - vy c)) /\
             vz r - vz p = w * ((vz s - 1) * (vz p - vz c)))
      (so_verts (h g)) (so_verts (h' g)).
Proof. exact scale_center. Qed.
Print Assumptions C36_scale.

(** With the mean point as centre and no filter, the mean point is fixed. *)
Theorem C36_mean_fixed : forall h m g s c, wf_store h -> distinct_ids (fd_data (m_filter m)) -> m_geo m = Some g ->
  ~ usable (so_verts (h g)) g (m_filter m) -> so_verts (h g) <> [] ->
  exists h' m' c0, scale_exec s c true h m = Some (h', m') /\
    mean_point (so_verts (h g)) c0 /\ mean_point (so_verts (h' g)) c0.
Proof. exact scale_mean. Qed.
Print Assumptions C36_mean_fixed.

(** Scaling about the mean point: the same law with that centre. *)
Theorem C36_scale_mean : forall h m g s c, wf_store h -> distinct_ids (fd_data (m_filter m)) -> m_geo m = Some g ->
  so_verts (h g) <> [] ->
  exists h' m' c0, scale_exec s c true h m = Some (h', m') /\ mean_point (so_verts (h g)) c0 /\
    moved (fun i p r => exists w, weight (so_verts (h g)) g (m_filter m) i w /\
             vx r - vx p = w * ((vx s - 1) * (vx p - vx c0)) /\
             vy r - vy p = w * ((vy s - 1) * (vy p - vy c0)) /\
             vz r - vz p = w * ((vz s - 1) * (vz p - vz c0)))
      (so_verts (h g)) (so_verts (h' g)).
Proof.
  intros h m g s c Nh N G Ne. pose proof (center_mean _ Ne) as C.
  destruct (scaling_ok h m g s c true Nh N G) as [h' [m' [E [O M]]]].
  exists h', m', (center_of (so_verts (h g))). split; [exact E|]. split; [exact C|]. revert M. apply moved_impl. intros i p r _ [w [W P]].
  exists w. split; [exact W|]. unfold part_way in P. subst r. cbn [vx vy vz vadd vscale vsub cmpmul]. repeat split; ring.
Qed.
Print Assumptions C36_scale_mean.

Theorem C36_translate : forall h m g d alpha, wf_store h -> distinct_ids (fd_data (m_filter m)) -> m_geo m = Some g ->
  exists h' m', exec (translation d alpha) h m = Some (h', m') /\ (forall k, k <> g -> h' k = h k) /\
    moved (fun i p r => exists w, weight (so_verts (h g)) g (m_filter m) i w /\ r = vadd p (vscale (w * alpha) d))
      (so_verts (h g)) (so_verts (h' g)).
Proof. exact translation_ok. Qed.
Print Assumptions C36_translate.

(** A filter that is 0 at all vertices: nothing moves (scale, translation, twist; rotation is in
    C34_still). *)
Theorem C36_still : forall h m g, wf_store h -> distinct_ids (fd_data (m_filter m)) -> m_geo m = Some g ->
  (forall i k, In i (map fst (so_verts (h g))) -> weight (so_verts (h g)) g (m_filter m) i k -> k = 0) ->
  (forall s c mean, exists h' m', scale_exec s c mean h m = Some (h', m') /\ so_verts (h' g) = so_verts (h g)) /\
  (forall d alpha, exists h' m', exec (translation d alpha) h m = Some (h', m') /\ so_verts (h' g) = so_verts (h g)) /\
  (forall x alpha D sym, D <> 0 -> exists h' m', exec (twist x alpha D sym) h m = Some (h', m') /\ so_verts (h' g) = so_verts (h g)).
Proof.
  intros h m g Nh N G W. split; [|split].
  - intros s c mean. unfold scale_exec. rewrite G. apply zero_weight_still; try assumption; [discriminate|].
    intros p v V. injection V as <-. vring.
  - intros d alpha. apply zero_weight_still; try assumption; [discriminate|]. intros p v V. injection V as <-. vring.
  - intros x alpha D sym HD. apply zero_weight_still; try assumption; [exact (twist_total x alpha D sym HD)|].
    intros p v V. unfold twist in V. destruct (Req_EM_T D 0); [contradiction|]. injection V as <-. vring.
Qed.
Print Assumptions C36_still.

(** The bend: in the frame (the global one if none was set) the coordinates get the weight times
    the polynomial law.  Missing for the full property: laws of degree 0 with a constant
    (C36_constant_refuted) and a frame set through the ports (C36_port_frame_refuted). *)
Theorem C36_bend_partial : forall b h m g, wf_store h -> distinct_ids (fd_data (m_filter m)) -> m_geo m = Some g ->
  (forall j z, b_deg b j z = 0%nat -> nth 0 (b_coef b j z) 0 = 0) -> (b_local b = true -> orthonormal (b_sys b)) ->
  exists b' h' m', bend_exec b h m = Some (b', h', m') /\ (forall k, k <> g -> h' k = h k) /\
    moved (fun i p r => exists w, weight (so_verts (h g)) g (m_filter m) i w /\
             if b_local b then
               exists l l', local_coords (b_origin b) (b_sys b) p l /\ local_coords (b_origin b) (b_sys b) r l' /\
                 l' = vadd l (vscale w (bend_vec (b_deg b) (b_coef b) l))
             else r = vadd p (vscale w (bend_vec (b_deg b) (b_coef b) p)))
      (so_verts (h g)) (so_verts (h' g)).
Proof. exact bend_ok. Qed.
Print Assumptions C36_bend_partial.

(** The same from the calls of the user: a new bend given one polynomial, in the frame given by its
    setters, or in the global one. Missing: as above. *)
Lemma one_law : forall i j d l q w, (i < 3)%nat -> (j < 3)%nat ->
  shifted i (w * poly l d (coordinate j q)) q
    (vadd q (vscale w (bend_vec (upd2 i j d (fun _ _ => 0%nat)) (upd2 i j l (upd2 i j (resize (S d) []) (fun _ _ => []))) q))).
Proof.
  intros i j d l q w Hi Hj c Hc. assert (forall x, poly [] 0 x = 0) as Z by (intros x; unfold poly; cbn; ring).
  unfold bend_vec, bend_law, upd2.
  destruct i as [|[|[|?]]]; try lia; destruct j as [|[|[|?]]]; try lia; destruct c as [|[|[|?]]]; try lia;
    unfold coordinate; cbn [nth Nat.eqb andb Nat.eq_dec vadd vscale vx vy vz nat_rec nat_rect]; rewrite ?Z; ring.
Qed.
Theorem C36_bend_use_partial : forall i j d l h m g, (i < 3)%nat -> (j < 3)%nat -> (d = 0%nat -> nth 0 l 0 = 0) ->
  wf_store h -> distinct_ids (fd_data (m_filter m)) -> m_geo m = Some g ->
  let b := setCoeffs i j l (setDegree i j d new_bend) in
  (exists b' h' m', bend_exec b h m = Some (b', h', m') /\
     moved (fun id p r => exists w, weight (so_verts (h g)) g (m_filter m) id w /\ shifted i (w * poly l d (coordinate j p)) p r)
       (so_verts (h g)) (so_verts (h' g))) /\
  (forall o, exists b' h' m', bend_exec (bend_setOrigin o b) h m = Some (b', h', m') /\
     moved (fun id p r => exists w q q', weight (so_verts (h g)) g (m_filter m) id w /\
              local_coords o (M3 (V3 1 0 0) (V3 0 1 0) (V3 0 0 1)) p q /\ local_coords o (M3 (V3 1 0 0) (V3 0 1 0) (V3 0 0 1)) r q' /\
              shifted i (w * poly l d (coordinate j q)) q q')
       (so_verts (h g)) (so_verts (h' g))) /\
  (forall o s, orthonormal s -> exists b' h' m', bend_exec (setRefSystem s (bend_setOrigin o b)) h m = Some (b', h', m') /\
     moved (fun id p r => exists w q q', weight (so_verts (h g)) g (m_filter m) id w /\
              local_coords o s p q /\ local_coords o s r q' /\ shifted i (w * poly l d (coordinate j q)) q q')
       (so_verts (h g)) (so_verts (h' g))) /\
  (forall s, orthonormal s -> exists b' h' m', bend_exec (setRefSystem s b) h m = Some (b', h', m') /\
     moved (fun id p r => exists w q q', weight (so_verts (h g)) g (m_filter m) id w /\
              local_coords vzero s p q /\ local_coords vzero s r q' /\ shifted i (w * poly l d (coordinate j q)) q q')
       (so_verts (h g)) (so_verts (h' g))).
Proof.
  intros i j d l h m g Hi Hj D Nh N G b.
  assert (forall a z, b_deg b a z = 0%nat -> nth 0 (b_coef b a z) 0 = 0) as Z.
  { intros a z. subst b. cbn. unfold upd2. destruct (Nat.eqb a i && Nat.eqb z j)%bool; [exact D|]. reflexivity. }
  assert (orthonormal unit_mat) as U by (unfold orthonormal, dot; cbn; repeat split; ring).
  assert (forall o s b2, b_deg b2 = b_deg b -> b_coef b2 = b_coef b -> b_local b2 = true -> b_origin b2 = o -> b_sys b2 = s -> orthonormal s ->
    exists b' h' m', bend_exec b2 h m = Some (b', h', m') /\
     moved (fun id p r => exists w q q', weight (so_verts (h g)) g (m_filter m) id w /\
              local_coords o s p q /\ local_coords o s r q' /\ shifted i (w * poly l d (coordinate j q)) q q')
       (so_verts (h g)) (so_verts (h' g))) as K.
  { intros o s b2 E1 E2 E3 <- <- O. destruct (C36_bend_partial b2 h m g Nh N G) as [b' [h' [m' [E [_ M]]]]]; [rewrite E1, E2; exact Z|intros _; exact O|].
    exists b', h', m'. split; [exact E|]. rewrite E3, E1, E2 in M. revert M. apply moved_impl. intros id p r _ [w [W [q [q' [L [L' Q]]]]]]. exists w, q, q'. split; [exact W|]. split; [exact L|]. split; [exact L'|]. subst q'. apply one_law; assumption. }
  split; [|split; [|split]].
  - destruct (C36_bend_partial b h m g Nh N G Z) as [b' [h' [m' [E [_ M]]]]]; [discriminate|].
    exists b', h', m'. split; [exact E|]. change (b_local b) with false in M. cbn iota in M. revert M. apply moved_impl. intros id p r _ [w [W Q]]. exists w. split; [exact W|]. rewrite Q. apply one_law; assumption.
  - intros o. apply K; try reflexivity. exact U.
  - intros o s O. apply K; try reflexivity. exact O.
  - intros s O. apply K; try reflexivity. exact O.
Qed.
Print Assumptions C36_bend_use_partial.
(** A polynomial is kept when others are given, a later degree cuts or completes it. *)
Theorem C36_bend_setters : forall b i j i' j' d l,
  b_deg (setDegree i j d b) i j = d /\ b_coef (setCoeffs i j l b) i j = l /\
  ((i', j') <> (i, j) -> b_deg (setDegree i j d b) i' j' = b_deg b i' j' /\ b_coef (setDegree i j d b) i' j' = b_coef b i' j' /\
     b_coef (setCoeffs i j l b) i' j' = b_coef b i' j') /\
  b_deg (setCoeffs i j l b) = b_deg b /\
  (forall x, poly (b_coef (setDegree i j d b) i j) d x = poly (b_coef b i j) d x) /\
  length (b_coef (setDegree i j d b) i j) = S d.
Proof.
  intros b i j i' j' d l. unfold setDegree, setCoeffs, upd2. cbn [b_deg b_coef]. rewrite !Nat.eqb_refl. cbn [andb].
  split; [reflexivity|]. split; [reflexivity|]. split.
  { intros N. destruct (Nat.eqb i' i && Nat.eqb j' j)%bool eqn:E; [|repeat split; reflexivity].
    apply andb_true_iff in E. destruct E as [E1 E2]. apply Nat.eqb_eq in E1, E2. subst. contradiction. }
  split; [reflexivity|]. split.
  - intros x. unfold poly. apply sum_eq. intros k Hk. rewrite nth_resize. replace (Nat.ltb k (S d)) with true by (symmetry; apply Nat.ltb_lt; lia). reflexivity.
  - unfold resize. rewrite app_length, firstn_length, repeat_length. lia.
Qed.
Print Assumptions C36_bend_setters.

(** a constant law x-displacement = 1 (degree 0): no vertex moves *)
Theorem C36_constant_refuted : exists b h g b' h' m', wf_store h /\ so_verts (h g) <> [] /\ b_local b = false /\
  (forall p, bend_vec (b_deg b) (b_coef b) p = V3 1 0 0) /\
  bend_exec b h (new_man (Some g)) = Some (b', h', m') /\ so_verts (h' g) = so_verts (h g).
Proof.
  destruct constant_ignored as [b' [h' [m' [E S]]]]. exists constant_bend, ex_h, 0%nat, b', h', m'.
  split; [exact ex_wf|]. split; [discriminate|]. split; [reflexivity|]. split; [|split; [exact E|exact S]].
  intros p. unfold bend_vec, bend_law, poly. cbn. apply vec_eq; cbn; ring.
Qed.
Print Assumptions C36_constant_refuted.

(** the origin of the frame given through its port is not used: with the law x-displacement = x
    about (1,0,0) the vertex at x = 1 should not move in x, but it does *)
Theorem C36_port_frame_refuted : exists b o h g b' h' m' p q l (i : nat), wf_store h /\
  bend_exec (port_origin o b) h (new_man (Some g)) = Some (b', h', m') /\
  In (i, p) (so_verts (h g)) /\ In (i, q) (so_verts (h' g)) /\
  local_coords o unit_mat p l /\ b_sys b = unit_mat /\ bend_vec (b_deg b) (b_coef b) l = vzero /\ q <> p.
Proof.
  destruct port_ignored as [b' [h' [m' [E S]]]].
  exists (setCoeffs 0 0 [0; 1] (setDegree 0 0 1 new_bend)), (V3 1 0 0), ex_h, 0%nat, b', h', m', (V3 1 0 1), (V3 2 0 1), (V3 0 0 1), 2%nat.
  split; [exact ex_wf|]. split; [exact E|]. split; [cbn; auto|]. split; [exact S|].
  split; [unfold local_coords; apply vec_eq; unfold dot; cbn; ring|]. split; [reflexivity|].
  split; [unfold bend_vec, bend_law, poly; cbn; apply vec_eq; cbn; ring|].
  intros X. injection X as X. lra.
Qed.
Print Assumptions C36_port_frame_refuted.

Definition bend_example : bend := setRefSystem unit_mat (setCoeffs 0 1 [1; 2; 3] (setDegree 0 1 2 new_bend)).
Example C36_nonvacuous :
  wf_store ex_h /\ so_verts (ex_h 0%nat) <> [] /\ ~ usable (so_verts (ex_h 0%nat)) 0 (m_filter (new_man (Some 0%nat))) /\
  (forall j z, b_deg bend_example j z = 0%nat -> nth 0 (b_coef bend_example j z) 0 = 0) /\
  b_local bend_example = true /\ orthonormal (b_sys bend_example) /\
  bend_law (b_deg bend_example) (b_coef bend_example) 0 (V3 0 2 0) = 17.
Proof.
  split; [exact ex_wf|]. split; [discriminate|]. split; [exact (fresh_unusable _ _ _)|]. split; [|split; [reflexivity|split]].
  - intros [|j] [|[|z]]; cbn; intros H; try reflexivity; discriminate.
  - unfold orthonormal, dot. cbn. repeat split; ring.
  - unfold bend_law, poly. cbn. ring.
Qed.

(** * C37: Apply *)

(** Without filter (and with a vector input): each vertex moves by factor times its displacement,
    null where the field has none or if it is not a field of the geometry; the output field has
    these displacements. *)
Theorem C37_moves : forall h a g, wf_store h -> distinct_ids (fd_data (a_input a)) -> plain a -> a_geo a = Some g ->
  exists h' a', app_execute h a = Some (h', a') /\ (forall k, k <> g -> h' k = h k) /\
    moved (fun i p q => exists v, displacement (so_verts (h g)) g (a_input a) i v /\ q = vadd p (vscale (a_factor a) v))
      (so_verts (h g)) (so_verts (h' g)) /\
    (forall i, In i (map fst (so_verts (h g))) -> exists v, displacement (so_verts (h g)) g (a_input a) i v /\
       find i (fd_data (a_output a')) = Some (vscale (a_factor a) v)).
Proof.
  intros h a g A B C D. destruct (app_plain h a g A B C D) as [h' [a' [E [O [M [Out _]]]]]].
  exists h', a'. split; [exact E|]. split; [exact O|]. split; [exact M|exact Out].
Qed.
Print Assumptions C37_moves.

(** n executions: n times the displacement. *)
Theorem C37_executions : forall n h a g, wf_store h -> distinct_ids (fd_data (a_input a)) -> plain a -> a_geo a = Some g ->
  exists h' a', app_execs n h a = Some (h', a') /\ (forall k, k <> g -> h' k = h k) /\
    moved (fun i p q => exists v, displacement (so_verts (h g)) g (a_input a) i v /\ q = vadd p (vscale (INR n * a_factor a) v))
      (so_verts (h g)) (so_verts (h' g)).
Proof. exact app_plain_n. Qed.
Print Assumptions C37_executions.

(** With a filter on a surface: one execution moves by factor * filter * displacement; n executions
    by factor * (filter + ... + filter^n) * displacement. *)
Theorem C37_filter_partial : forall n h a g, wf_store h -> distinct_ids (fd_data (a_input a)) -> distinct_ids (fd_data (a_filter a)) ->
  fd_data (a_scalar a) = [] -> a_geo a = Some g ->
  linked (so_verts (h g)) g (a_input a) -> fd_data (a_input a) <> [] -> filter_fits (h g) (a_filter a) ->
  exists h' a', app_execs n h a = Some (h', a') /\ (forall k, k <> g -> h' k = h k) /\
    moved (fun i p q => exists v k, value_or vzero (a_input a) i v /\ filter_value (a_filter a) i k /\
             q = vadd p (vscale (a_factor a * powers k n) v))
      (so_verts (h g)) (so_verts (h' g)).
Proof. exact app_filtered_n. Qed.
Print Assumptions C37_filter_partial.

(** With a scalar input on a surface: factor * filter * scalar along the normal, whatever the
    vector input was; the scalar field and the filter keep their values, so the next execution
    applies them in the same way to the new normals. *)
Theorem C37_scalar : forall h a g, wf_store h -> distinct_ids (fd_data (a_input a)) -> distinct_ids (fd_data (a_scalar a)) ->
  distinct_ids (fd_data (a_filter a)) -> a_geo a = Some g -> so_type (h g) = 1%nat ->
  linked (so_verts (h g)) g (a_scalar a) -> fd_data (a_scalar a) <> [] -> filter_fits (h g) (a_filter a) ->
  (forall i, In i (map fst (so_verts (h g))) -> so_normal (h g) (so_verts (h g)) i <> None) ->
  exists h' a', app_execute h a = Some (h', a') /\ (forall k, k <> g -> h' k = h k) /\ so_type (h' g) = so_type (h g) /\
    moved (fun i p q => exists s k n, value_or 0 (a_scalar a) i s /\ filter_value (a_filter a) i k /\
             so_normal (h g) (so_verts (h g)) i = Some n /\ q = vadd p (vscale (a_factor a * k * s) n))
      (so_verts (h g)) (so_verts (h' g)) /\
    a_geo a' = Some g /\ a_factor a' = a_factor a /\
    (forall i, In i (map fst (so_verts (h g))) -> exists s k, value_or 0 (a_scalar a) i s /\ filter_value (a_filter a) i k /\
       value_or 0 (a_scalar a') i s /\ filter_value (a_filter a') i k).
Proof. exact app_scalar. Qed.
Print Assumptions C37_scalar.

(** The second execution with a filter does not repeat the first displacement. *)
Theorem C37_twice_refuted : exists h a g h1 a1 h2 a2 p q r (i : nat),
  wf_store h /\ linked (so_verts (h g)) g (a_input a) /\ linked (so_verts (h g)) g (a_filter a) /\ so_type (h g) = 1%nat /\
  a_geo a = Some g /\ app_execute h a = Some (h1, a1) /\ app_execute h1 a1 = Some (h2, a2) /\
  In (i, p) (so_verts (h g)) /\ In (i, q) (so_verts (h1 g)) /\ In (i, r) (so_verts (h2 g)) /\ vsub r q <> vsub q p.
Proof.
  destruct half_twice as [h1 [a1 [h2 [a2 [E1 [E2 [A B]]]]]]].
  exists ex_h, app_half, 0%nat, h1, a1, h2, a2, (V3 0 0 1), (V3 (1/2) 0 1), (V3 (3/4) 0 1), 5%nat.
  split; [exact ex_wf|]. split; [exact push_linked|]. split; [exact half_usable|]. split; [reflexivity|]. split; [reflexivity|].
  split; [exact E1|]. split; [exact E2|]. split; [cbn; auto|]. split; [exact A|]. split; [exact B|].
  intros X. injection X as X. lra.
Qed.
Print Assumptions C37_twice_refuted.

(** A filter on a geometry that is not a surface stops the deformation: with displacement (1,0,0)
    and filter 1 on the points of the geometry no vertex moves. *)
Theorem C37_volume_refuted : exists h a g h' a' (i : nat), wf_store h /\ linked (so_verts (h g)) g (a_input a) /\
  linked (so_verts (h g)) g (a_filter a) /\ a_geo a = Some g /\ a_factor a = 1 /\
  value_or vzero (a_input a) i (V3 1 0 0) /\ value_or 0 (a_filter a) i 1 /\ In i (map fst (so_verts (h g))) /\
  app_execute h a = Some (h', a') /\ so_verts (h' g) = so_verts (h g).
Proof.
  destruct volume_still as [h' [a' [E S]]]. exists ex_h, app_volume, 2%nat, h', a', 5%nat.
  split; [exact ex_wf|]. split; [split; [reflexivity|]; split; [reflexivity|]; intros i [<-|[]]; cbn; auto|].
  split; [split; [reflexivity|]; split; [reflexivity|]; apply incl_refl|].
  split; [reflexivity|]. split; [reflexivity|]. split; [left; cbn; auto|]. split; [left; cbn; auto|]. split; [cbn; auto|].
  split; [exact E|exact S].
Qed.
Print Assumptions C37_volume_refuted.

(** Displacements linked to another geometry are refused, except if a filter is set. *)
Theorem C37_foreign_refuted : exists h a g h' a' p q (i : nat), wf_store h /\ ~ linked (so_verts (h g)) g (a_input a) /\
  a_geo a = Some g /\ app_execute h a = Some (h', a') /\ In (i, p) (so_verts (h g)) /\ In (i, q) (so_verts (h' g)) /\ q <> p.
Proof.
  destruct foreign_moves as [h' [a' [E S]]]. exists ex_h, app_foreign, 0%nat, h', a', (V3 0 0 1), (V3 1 0 1), 5%nat.
  split; [exact ex_wf|]. split; [intros [_ [X _]]; discriminate|]. split; [reflexivity|]. split; [exact E|].
  split; [cbn; auto|]. split; [exact S|]. intros X. injection X as X. lra.
Qed.
Print Assumptions C37_foreign_refuted.

(** A filter without displacements ends in an exception instead of leaving the geometry as it
    is. *)
Theorem C37_filter_alone_refuted : exists h a g, wf_store h /\ a_geo a = Some g /\ fd_data (a_input a) = [] /\
  fd_data (a_scalar a) = [] /\ linked (so_verts (h g)) g (a_filter a) /\ app_execute h a = None.
Proof.
  exists ex_h, (app_setFilter (Some half_filter) (new_app (Some 0%nat))), 0%nat.
  split; [exact ex_wf|]. split; [reflexivity|]. split; [reflexivity|]. split; [reflexivity|]. split; [exact half_usable|exact filter_alone].
Qed.
Print Assumptions C37_filter_alone_refuted.

(** The same from the calls of the user: a new object given displacements, or scalars along the
    normals, a filter and a factor, in any order; a null pointer is ignored. *)
Theorem C37_use : forall h g k f s w, wf_store h -> distinct_ids (fd_data f) -> distinct_ids (fd_data s) -> distinct_ids (fd_data w) ->
  (forall h' a, app_execute h (app_setInput (Some f) (app_setScaling k (new_app (Some g)))) = Some (h', a) ->
     moved (fun i p q => exists v, displacement (so_verts (h g)) g f i v /\ q = vadd p (vscale k v)) (so_verts (h g)) (so_verts (h' g))) /\
  (linked (so_verts (h g)) g f -> fd_data f <> [] -> so_type (h g) = 1%nat -> linked (so_verts (h g)) g w -> fd_data w <> [] ->
   exists h' a, app_execute h (app_setFilter (Some w) (app_setInput (Some f) (app_setScaling k (new_app (Some g))))) = Some (h', a) /\
     moved (fun i p q => exists v c, value_or vzero f i v /\ value_or 0 w i c /\ q = vadd p (vscale (k * c) v)) (so_verts (h g)) (so_verts (h' g))) /\
  (linked (so_verts (h g)) g s -> fd_data s <> [] -> so_type (h g) = 1%nat ->
   (forall i, In i (map fst (so_verts (h g))) -> so_normal (h g) (so_verts (h g)) i <> None) ->
   exists h' a, app_execute h (app_setScaling k (app_setScalar (Some s) (new_app (Some g)))) = Some (h', a) /\
     moved (fun i p q => exists x n, value_or 0 s i x /\ so_normal (h g) (so_verts (h g)) i = Some n /\ q = vadd p (vscale (k * x) n)) (so_verts (h g)) (so_verts (h' g))) /\
  (forall a, app_setInput None a = a /\ app_setScalar None a = a /\ app_setFilter None a = a) /\
  (forall a, app_setInput (Some f) (app_setFilter (Some w) a) = app_setFilter (Some w) (app_setInput (Some f) a) /\
             app_setScalar (Some s) (app_setFilter (Some w) a) = app_setFilter (Some w) (app_setScalar (Some s) a) /\
             app_setInput (Some f) (app_setScaling k a) = app_setScaling k (app_setInput (Some f) a) /\
             app_setFilter (Some w) (app_setScaling k a) = app_setScaling k (app_setFilter (Some w) a)).
Proof.
  intros h g k f s w Nh Nf Ns Nw. split; [|split; [|split; [|split]]].
  - intros h' a E. destruct (C37_moves h (app_setInput (Some f) (app_setScaling k (new_app (Some g)))) g Nh Nf) as [h1 [a1 [E1 [_ [M _]]]]];
      [split; reflexivity|reflexivity|]. rewrite E in E1. injection E1 as <- <-. exact M.
  - intros L F T Lw W.
    destruct (C37_filter_partial 1 h (app_setFilter (Some w) (app_setInput (Some f) (app_setScaling k (new_app (Some g))))) g Nh Nf Nw) as [h1 [a1 [E1 [_ M]]]];
      [reflexivity|reflexivity|exact L|exact F|right; split; [exact T|]; split; [apply Lw|apply Lw]|].
    exists h1, a1. cbn [app_execs] in E1. destruct (app_execute h _) as [[h2 a2]|]; [|discriminate]. injection E1 as <- <-. split; [reflexivity|].
    cbn [app_setFilter app_setInput app_setScaling new_app a_input a_filter a_factor] in M. revert M. apply moved_impl. intros id p r _ [v [c [V [C Q]]]]. exists v, c. split; [exact V|].
    destruct C as [[C _]|[_ C]]; [contradiction|]. split; [exact C|]. rewrite Q. unfold powers. cbn [seq map fold_right pow].
    replace (k * (c * 1 + 0)) with (k * c) by ring. reflexivity.
  - intros L F T O.
    destruct (C37_scalar h (app_setScaling k (app_setScalar (Some s) (new_app (Some g)))) g Nh) as [h1 [a1 [E1 [_ [_ [M _]]]]]];
      [constructor|exact Ns|constructor|reflexivity|exact T|exact L|exact F|left; reflexivity|exact O|].
    exists h1, a1. split; [exact E1|]. cbn [app_setScalar app_setScaling new_app a_scalar a_filter a_factor] in M. revert M. apply moved_impl. intros id p r _ [v [c [n [V [C [Nn Q]]]]]]. exists v, n. split; [exact V|]. split; [exact Nn|].
    destruct C as [[_ ->]|[C _]]; [|exfalso; apply C; reflexivity]. rewrite Q. replace (k * 1 * v) with (k * v) by ring. reflexivity.
  - intros a. repeat split.
  - intros a. repeat split.
Qed.
Print Assumptions C37_use.


Example C37_nonvacuous : plain app_push /\ linked (so_verts (ex_h 0%nat)) 0 (a_input app_push) /\
  filter_fits (ex_h 0%nat) (a_filter app_half) /\ fd_data (a_input app_half) <> [] /\
  distinct_ids (fd_data (a_input app_half)) /\ distinct_ids (fd_data (a_filter app_half)) /\
  so_normal (ex_h 0%nat) (so_verts (ex_h 0%nat)) 5%nat <> None /\ linked (so_verts (ex_h 0%nat)) 0 half_filter.
Proof.
  split; [split; reflexivity|]. split; [exact push_linked|]. split; [exact half_fits|]. split; [discriminate|].
  split; [apply one_distinct|]. split; [apply one_distinct|]. split; [discriminate|exact half_usable].
Qed.

(** * C63: a manipulator without filter can be used again *)

(** If since the first execution vertices were only moved or removed, the second execution moves
    all of them with weight 1.  Missing for the full property: added vertices. *)
Theorem C63_reuse_partial : forall value value' h g h' m' h2, wf_store h -> wf_store h2 ->
  (forall p k, value p k <> None) -> (forall p k, value' p k <> None) ->
  exec value h (new_man (Some g)) = Some (h', m') ->
  incl (map fst (so_verts (h2 g))) (map fst (so_verts (h g))) ->
  exists h3 m3, exec value' h2 m' = Some (h3, m3) /\
    moved (fun _ p r => exists v, value' p 1 = Some v /\ r = vadd p v) (so_verts (h2 g)) (so_verts (h3 g)).
Proof. exact reuse_ok. Qed.
Print Assumptions C63_reuse_partial.

(** A vertex added after the first execution stays where it is, although no filter was ever set. *)
Theorem C63_refuted : exists h g d alpha h1 m1 i p h2 h3 m3,
  wf_store h /\ exec (translation d alpha) h (new_man (Some g)) = Some (h1, m1) /\
  h2 = put_verts h1 g (so_verts (h1 g) ++ [(i, p)]) /\ ~ In i (map fst (so_verts (h1 g))) /\
  exec (translation d alpha) h2 m1 = Some (h3, m3) /\ In (i, p) (so_verts (h3 g)) /\ vscale alpha d <> vzero.
Proof.
  destruct added_still as [h1 [m1 [h3 [m3 [E1 [E2 [_ A]]]]]]].
  exists ex_h, 0%nat, (V3 1 0 0), 1, h1, m1, 4%nat, (V3 1 1 1). eexists. exists h3, m3.
  split; [exact ex_wf|]. split; [exact E1|]. split; [reflexivity|]. split.
  - assert (T : forall p k, translation (V3 1 0 0) 1 p k <> None) by (intros p k; discriminate).
    destruct (exec_ok (translation (V3 1 0 0) 1) ex_h (new_man (Some 0%nat)) 0%nat ex_wf (fresh_distinct _) eq_refl T)
      as [h' [m' [E [_ [_ [_ [_ [_ [_ [_ M]]]]]]]]]].
    rewrite E in E1. injection E1 as <- _. rewrite (moved_ids _ _ _ M). cbn. intros [X|[X|[X|[]]]]; discriminate.
  - split; [exact E2|]. split; [exact A|]. intros X. injection X as X. lra.
Qed.
Print Assumptions C63_refuted.

(** * C64: ApplyFilter *)

(** One execution gives factor * filter * displacement at every vertex (factor 1 if none was
    given); the filter is applied once more by every further execution. *)
Theorem C64_output_partial : forall n h a g, wf_store h -> distinct_ids (fd_data (a_input a)) -> distinct_ids (fd_data (a_filter a)) ->
  fd_data (a_scalar a) = [] -> af_target a g -> on_points (so_verts (h g)) (a_input a) -> fd_data (a_input a) <> [] ->
  (fd_data (a_filter a) = [] \/ on_points (so_verts (h g)) (a_filter a)) ->
  exists a', af_execs (S n) h a = Some a' /\
    (forall i, In i (map fst (so_verts (h g))) -> exists v k c, value_or vzero (a_input a) i v /\ filter_value (a_filter a) i k /\
       af_factor a c /\ find i (fd_data (a_output a')) = Some (vscale (c * k ^ S n) v)).
Proof. exact af_n. Qed.
Print Assumptions C64_output_partial.

Theorem C64_twice_refuted : exists h a a1 a2 (i : nat) v w, wf_store h /\ af_execute h a = Some a1 /\ af_execute h a1 = Some a2 /\
  find i (fd_data (a_output a1)) = Some v /\ find i (fd_data (a_output a2)) = Some w /\ w <> v.
Proof.
  destruct af_twice as [a1 [a2 [E1 [E2 [A B]]]]]. exists ex_h, af_half, a1, a2, 5%nat, (V3 (1/2) 0 0), (V3 (1/4) 0 0).
  split; [exact ex_wf|]. split; [exact E1|]. split; [exact E2|]. split; [exact A|]. split; [exact B|].
  intros X. injection X as X. lra.
Qed.
Print Assumptions C64_twice_refuted.

Example C64_nonvacuous : af_target af_half 0 /\ on_points (so_verts (ex_h 0%nat)) (a_input af_half) /\
  on_points (so_verts (ex_h 0%nat)) (a_filter af_half) /\ af_factor af_half 1.
Proof.
  split; [left; reflexivity|]. split; [split; [reflexivity|apply push_linked]|]. split; [split; [reflexivity|apply half_usable]|].
  left. split; reflexivity.
Qed.
