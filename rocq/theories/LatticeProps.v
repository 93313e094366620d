(** Property theorems of the lattices: numbers of degrees of freedom (C29), points that coincide (C61),
    use after clearing (C62). *)
From Coq Require Import Reals List Arith ZArith Bool Lia Lra.
From Verif Require Import Vec Shape ShapeSpec ShapeProofs ShapeWitness Mesh MeshSpec MeshProofs MeshBuild Lattice LatticeSpec LatticeBuild LatticeGeom LatticeWitness.
Import ListNotations.
Open Scope R_scope.

(** C29: build ends without writing out of bounds, and succeeds exactly when there is a shape. *)
Theorem C29_total : forall l0, exists b l, lat_build l0 = Some (b, l) /\ (b = true <-> m_shape (l_mesh l0) <> None).
Proof. exact lat_build_total. Qed.
Print Assumptions C29_total.
(** The numbers are 0, 1, ..., getNNodes - 1; every point has one; every one is the number of a point, and
    the point returned for it is the first one that has it; first points are in the order of the numbers. *)
Theorem C29_numbers : forall l s, built_lat l s ->
  Z.of_nat (length (l_map l)) = num_points (l_mesh l) /\
  (forall n, (0 <= n < num_points (l_mesh l))%Z -> exists d, accessDOFFromGrid l n = Some d /\ (0 <= d < getNNodes l)%Z) /\
  (forall d, (0 <= d < getNNodes l)%Z -> (0 <= accessGridFromDOF l d < num_points (l_mesh l))%Z /\ accessDOFFromGrid l (accessGridFromDOF l d) = Some d /\
     forall n, (0 <= n < accessGridFromDOF l d)%Z -> accessDOFFromGrid l n <> Some d) /\
  (forall d d', (0 <= d < d')%Z -> (d' < getNNodes l)%Z -> (accessGridFromDOF l d < accessGridFromDOF l d')%Z) /\
  (forall d, ~ (0 <= d < getNNodes l)%Z -> accessGridFromDOF l d = (-1)%Z).
Proof. intros l s B. exact (numbers l s (built_good l s B)). Qed.
Print Assumptions C29_numbers.
(** The lists of coordinates have one point of the mesh for each number. *)
Theorem C29_coordinates : forall l s, built_lat l s ->
  Z.of_nat (length (lat_getGlobalCoords l)) = getNNodes l /\ Z.of_nat (length (lat_getLocalCoords l)) = getNNodes l /\
  forall d, (0 <= d < getNNodes l)%Z -> exists i j k p, point_index (l_mesh l) (i, j, k) /\ accessGridFromDOF l d = accessPointIndex (l_mesh l) i j k /\
    getLocalPoint (l_mesh l) i j k = Some p /\ zget (lat_getLocalCoords l) d = Some (Some p) /\ zget (lat_getGlobalCoords l) d = Some (Some (toWorldCoord s p)).
Proof. intros l s B. exact (coords_ok l s (built_good l s B)). Qed.
Print Assumptions C29_coordinates.
(** Points that share a number are in the same place. Proved for boxes, for cylinders whose azimuth is
    periodic only for the whole turn, and for spheres whose azimuth is not periodic. *)
Theorem C29_shared_partial : forall l s t t' d p, built_lat l s -> joinable s -> point_index (l_mesh l) t -> point_index (l_mesh l) t' ->
  dof l t d -> dof l t' d -> place l t p -> place l t' p.
Proof. intros l s t t' d p B. exact (shared_place l s (built_good l s B) t t' d p). Qed.
Print Assumptions C29_shared_partial.
(** It fails for the default sphere, for the default wedge and for a sector of cylinder. *)
Theorem C29_sphere_refuted : exists l t t' d p, built_lat l (new_shape SPHERE) /\
  (point_index (l_mesh l) t /\ point_index (l_mesh l) t' /\ dof l t d /\ dof l t' d /\ place l t p /\ ~ place l t' p).
Proof. exact sphere_joined. Qed.
Print Assumptions C29_sphere_refuted.
Theorem C29_wedge_refuted : exists l t t' d p, built_lat l (new_shape WEDGE) /\
  (point_index (l_mesh l) t /\ point_index (l_mesh l) t' /\ dof l t d /\ dof l t' d /\ place l t p /\ ~ place l t' p).
Proof. exact wedge_joined. Qed.
Print Assumptions C29_wedge_refuted.
Theorem C29_sector_refuted : exists l s t t' d p, built_lat l s /\ s_kind s = CYLINDER /\
  (point_index (l_mesh l) t /\ point_index (l_mesh l) t' /\ dof l t d /\ dof l t' d /\ place l t p /\ ~ place l t' p).
Proof. destruct sector_joined as (l & t & t' & d & p & B & H). exists l, sector, t, t', d, p. split; [exact B|]. split; [reflexivity|exact H]. Qed.
Print Assumptions C29_sector_refuted.
(** On a box every point has its own number. *)
Theorem C29_box : forall l s t t' d, built_lat l s -> s_kind s = CUBE -> point_index (l_mesh l) t -> point_index (l_mesh l) t' ->
  dof l t d -> dof l t' d -> t = t'.
Proof.
  intros l s t t' d B K P P' D D'. pose proof (built_good l s B) as G. pose proof (dof_same l s G t t' d P P' D D') as E.
  unfold LatticeProofs.rep3 in E. rewrite (gl_shape l s G), K in E. destruct t as [[? ?] ?], t' as [[? ?] ?]. exact E.
Qed.
Print Assumptions C29_box.
Example C29_nonvacuous : exists l, built_lat l tube /\ joinable tube /\ exists t t' d p, t <> t' /\ point_index (l_mesh l) t /\ point_index (l_mesh l) t' /\
  dof l t d /\ dof l t' d /\ place l t p.
Proof.
  destruct (lat_ex CYLINDER tube 2 4 2) as (l & B & D); [exact tube_reach|intros i Hi; three Hi; cbn; lia|].
  exists l. split; [exact B|]. split; [apply tube_ok|]. pose proof (built_good l _ B) as G.
  assert (P : point_index (l_mesh l) (1, 0, 1)%Z) by (apply (pt l 2 4 2 1 0 1 D); lia).
  assert (P' : point_index (l_mesh l) (1, 3, 1)%Z) by (apply (pt l 2 4 2 1 3 1 D); lia).
  destruct (same_dof l _ G (1, 0, 1)%Z (1, 3, 1)%Z P P') as (d & D1 & D2).
  - unfold LatticeProofs.rep3. rewrite (gl_shape l _ G). destruct (reach_good _ _ tube_reach) as (_ & _ & K). unfold lat_info. rewrite K. cbn [i_per].
    assert (C : periodic tube = true) by (unfold periodic; rewrite tube_ct; reflexivity). rewrite C.
    destruct (dim_eqs (l_mesh l)) as (D0 & D1 & D2). rewrite (D 1%nat) in D1 by lia. cbn [want] in D1.
    replace (a_n (m_y (l_mesh l))) with 3%Z by lia. reflexivity.
  - exists (1, 0, 1)%Z, (1, 3, 1)%Z, d. eexists. split; [discriminate|]. do 4 (split; [assumption|]). apply (where_ l _ 2 4 2 1 0 1 G D). lia.
Qed.

(** C61: points in the same place share a number: boxes and tubes. *)
Theorem C61_same_place_partial : forall l s t t' p, built_lat l s -> solid s -> no_axis_seam s ->
  point_index (l_mesh l) t -> point_index (l_mesh l) t' -> place l t p -> place l t' p -> exists d, dof l t d /\ dof l t' d.
Proof. intros l s t t' p B. exact (same_place l s (built_good l s B) t t' p). Qed.
Print Assumptions C61_same_place_partial.
(** For every shape, away from the axis, the seam, the poles and the edge different points are in
    different places. *)
Theorem C61_regular : forall l s i j k i' j' k' q q' p, built_lat l s -> solid s ->
  point_index (l_mesh l) (i, j, k) -> point_index (l_mesh l) (i', j', k') ->
  getLocalPoint (l_mesh l) i j k = Some q -> getLocalPoint (l_mesh l) i' j' k' = Some q' -> ~ singular s q -> ~ singular s q' ->
  place l (i, j, k) p -> place l (i', j', k') p -> (i, j, k) = (i', j', k').
Proof. intros l s i j k i' j' k' q q' p B. exact (regular_same l s (built_good l s B) i j k i' j' k' q q' p). Qed.
Print Assumptions C61_regular.
(** It fails on the axis of the default cylinder, on the seam of the default sphere and on the edge of
    the default wedge. *)
Theorem C61_refuted : forall k, k <> CUBE -> exists l t t' p, built_lat l (new_shape k) /\
  (point_index (l_mesh l) t /\ point_index (l_mesh l) t' /\ place l t p /\ place l t' p /\ ~ exists d, dof l t d /\ dof l t' d).
Proof. intros k K. destruct k; [congruence|exact axis_apart|exact sphere_apart|exact wedge_apart]. Qed.
Print Assumptions C61_refuted.
Example C61_nonvacuous : exists l, built_lat l tube /\ solid tube /\ no_axis_seam tube /\ exists t t' p, t <> t' /\ point_index (l_mesh l) t /\ point_index (l_mesh l) t' /\
  place l t p /\ place l t' p.
Proof.
  destruct C29_nonvacuous as (l & B & J & t & t' & d & p & N & P & P' & D & D' & Q). exists l. split; [exact B|].
  split; [apply tube_ok|]. split; [apply tube_ok|]. exists t, t', p. do 4 (split; [assumption|]).
  exact (C29_shared_partial l tube t t' d p B J P P' D D' Q).
Qed.

(** C62: clearing a lattice leaves no numbers: the count returned should be 0 and the lists empty. The
    count is kept, and the coordinates are read out of the bounds of the cleared mesh. *)
Theorem C62_refuted : forall l s, built_lat l s ->
  (0 < getNNodes l)%Z /\ getNNodes (clearLattice l) = getNNodes l /\ (forall d, accessGridFromDOF (clearLattice l) d = (-1)%Z) /\
  forall d, (0 <= d < getNNodes l)%Z -> zget (lat_getLocalCoords (clearLattice l)) d = Some None.
Proof.
  intros l s B. pose proof (built_good l s B) as G. destruct (numbers l s G) as (_ & N2 & _). pose proof (np_pts l s G) as NP.
  assert (Z : (0 < num_points (l_mesh l))%Z).
  { unfold num_points. pose proof (LatticeProofs.dims_pos _ (gl_sized l s G) 0%nat ltac:(lia)). pose proof (LatticeProofs.dims_pos _ (gl_sized l s G) 1%nat ltac:(lia)).
    pose proof (LatticeProofs.dims_pos _ (gl_sized l s G) 2%nat ltac:(lia)). nia. }
  destruct (N2 0%Z ltac:(lia)) as (d & _ & Hd). split; [lia|]. split; [reflexivity|]. split; [reflexivity|].
  intros e He. unfold lat_getLocalCoords. rewrite (nth_all l) by exact He. reflexivity.
Qed.
Print Assumptions C62_refuted.
(** Building again makes the numbers valid for any lattice with a shape. *)
Theorem C62_rebuild : forall l0 s, mreach any (l_mesh l0) -> m_shape (l_mesh l0) = Some s ->
  exists l, lat_build l0 = Some (true, l) /\ built_lat l s.
Proof.
  intros l0 s R E. eexists. split; [apply lat_build_is, E|]. split; [exists l0; split; [exact R|apply lat_build_is, E]|].
  apply (build_facts (l_mesh l0) s E).
Qed.
Print Assumptions C62_rebuild.
Example C62_nonvacuous : exists l, built_lat l (new_shape SPHERE).
Proof.
  destruct (lat_ex SPHERE (new_shape SPHERE) 2 5 3) as (l & B & D); [apply reach_new|intros i Hi; three Hi; cbn; lia|]. exists l. exact B.
Qed.

(** C70. *)
(** Copies and exchanges of built lattices answer as the originals: same count, same numbers, same
    places. An assignment does too. *)
Theorem C70_copies : forall l s l' s', built_lat l s -> built_lat l' s' ->
  let same a b := getNNodes a = getNNodes b /\ (forall n, accessDOFFromGrid a n = accessDOFFromGrid b n) /\
    (forall d, accessGridFromDOF a d = accessGridFromDOF b d) /\
    lat_getGlobalCoords a = lat_getGlobalCoords b /\ lat_getLocalCoords a = lat_getLocalCoords b /\ (forall t p, place a t p <-> place b t p) in
  same (lat_copy l) l /\ same (fst (lat_swap l l')) l' /\ same (snd (lat_swap l l')) l /\ same (lat_assign l' l) l.
Proof.
  intros l s l' s' [_ E] [_ E'] same.
  assert (forall a b, a = b -> same a b) as K. { intros a b ->. subst same. cbn beta. repeat split; auto. }
  split; [|split; [|split]]; apply K.
  - destruct l as [m n p]. reflexivity.
  - unfold lat_swap, mesh_swap. rewrite E'. destruct l' as [m n p]. reflexivity.
  - unfold lat_swap, mesh_swap. rewrite E'. destruct l as [m n p]. reflexivity.
  - unfold lat_assign, mesh_assign, mesh_swap, mesh_copy. rewrite E. destruct l as [m n p]. reflexivity.
Qed.
Print Assumptions C70_copies.
Example C70_nonvacuous : exists l l', built_lat l (new_shape SPHERE) /\ built_lat l' tube.
Proof. destruct C62_nonvacuous as [l B]. destruct C29_nonvacuous as [l' [B' _]]. exists l, l'. split; assumption. Qed.
