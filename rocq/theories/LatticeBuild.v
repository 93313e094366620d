(** Built lattices: numbers, coordinates, points that share a number. *)
From Coq Require Import Reals List Arith ZArith Bool Lia Lra.
From Verif Require Import Vec Shape ShapeSpec ShapeProofs ShapeCoord Mesh MeshSpec MeshProofs MeshBuild Lattice LatticeNumber LatticeProofs LatticeSpec.
Import ListNotations.
Open Scope R_scope.

Lemma build_sized m0 s : m_shape m0 = Some s -> sized (snd (mesh_build m0)).
Proof.
  intros E. destruct (build_facts m0 s E) as (_ & _ & Sh & D & _). unfold sized. rewrite Sh. intros i Hi. rewrite (D i Hi). lia.
Qed.
Lemma lat_build_is l0 s : m_shape (l_mesh l0) = Some s ->
  let m := snd (mesh_build (l_mesh l0)) in
  lat_build l0 = Some (true, La m (reduceDimToDOF (Some s) (dim m 0) (dim m 1) (dim m 2)) (labels (size m) (repn m))).
Proof.
  intros E m. destruct (build_facts (l_mesh l0) s E) as (F & _ & Sh & _). unfold lat_build.
  destruct (mesh_build (l_mesh l0)) as [b m'] eqn:B. cbn [fst snd] in *. subst b. unfold m.
  rewrite resize_sized; [rewrite Sh; reflexivity|]. pose proof (build_sized (l_mesh l0) s E) as Q. rewrite B in Q. exact Q.
Qed.
Lemma lat_build_total l0 : exists b l, lat_build l0 = Some (b, l) /\ (b = true <-> m_shape (l_mesh l0) <> None).
Proof.
  destruct (m_shape (l_mesh l0)) as [s|] eqn:E.
  - rewrite (lat_build_is l0 s E). do 2 eexists. split; [reflexivity|]. split; [discriminate|reflexivity].
  - unfold lat_build, mesh_build. rewrite E. destruct (resize_bare (l_mesh l0) E) as [[np map] ->]. do 2 eexists. split; [reflexivity|].
    split; [discriminate|]. intros C; destruct (C eq_refl).
Qed.
Record good_lat (l : lattice) (s : shape) : Prop := GL {
  gl_shape : m_shape (l_mesh l) = Some s; gl_sized : sized (l_mesh l); gl_map : l_map l = labels (size (l_mesh l)) (repn (l_mesh l));
  gl_np : l_np l = Z.of_nat (count (fun n => Nat.eqb (repn (l_mesh l) n) n) (size (l_mesh l)));
  gl_reach : exists k, reach k s;
  gl_point : forall i j k, point_index (l_mesh l) (i, j, k) -> getLocalPoint (l_mesh l) i j k =
    Some (V3 (division s 0 (dim (l_mesh l) 0 - 1) (IZR i)) (division s 1 (dim (l_mesh l) 1 - 1) (IZR j)) (division s 2 (dim (l_mesh l) 2 - 1) (IZR k))) }.
Lemma built_good l s : built_lat l s -> good_lat l s.
Proof.
  intros ((l0 & R & B) & Sh). destruct (m_shape (l_mesh l0)) as [s'|] eqn:E.
  - rewrite (lat_build_is l0 s' E) in B. injection B as <-. cbn [l_mesh l_np l_map] in *.
    destruct (build_facts (l_mesh l0) s' E) as (_ & _ & Sh' & _ & P & _). rewrite Sh in Sh'. injection Sh' as <-.
    pose proof (build_sized (l_mesh l0) s E) as Z. split; cbn [l_mesh l_np l_map].
    + exact Sh.
    + exact Z.
    + reflexivity.
    + rewrite count_total by exact Z. rewrite Sh. reflexivity.
    + destruct (mreach_inv _ _ R) as [Q _]. apply Q, E.
    + intros i j k H. rewrite P. pose proof (H 0%nat ltac:(lia)) as H0. pose proof (H 1%nat ltac:(lia)) as H1. pose proof (H 2%nat ltac:(lia)) as H2.
      cbn [comp] in *. rewrite !(proj2 (Z.leb_le _ _)) by lia. rewrite !(proj2 (Z.ltb_lt _ _)) by lia. reflexivity.
  - unfold lat_build, mesh_build in B. rewrite E in B. destruct (resizeMapDof (l_mesh l0)) as [[? ?]|]; discriminate.
Qed.

(* ------------------------------------------------------------------ numbers *)
Section lat.
Variables (l : lattice) (s : shape).
Hypothesis G : good_lat l s.
Let m := l_mesh l.
Let N := size m.
Let rep := repn m.
Lemma h1 n : (n < N)%nat -> (rep n <= n)%nat. Proof. apply repn_below, (gl_sized l s G). Qed.
Lemma h2 n : (n < N)%nat -> rep (rep n) = rep n. Proof. apply repn_idem, (gl_sized l s G). Qed.
Lemma np_pts : num_points m = Z.of_nat N.
Proof.
  unfold N, size. rewrite Z2Nat.id; [reflexivity|]. unfold num_points.
  pose proof (dims_pos m (gl_sized l s G) 0%nat ltac:(lia)). pose proof (dims_pos m (gl_sized l s G) 1%nat ltac:(lia)).
  pose proof (dims_pos m (gl_sized l s G) 2%nat ltac:(lia)). nia.
Qed.
Lemma map_length_ok : Z.of_nat (length (l_map l)) = num_points m.
Proof. rewrite np_pts, (gl_map l s G). rewrite labels_length. reflexivity. Qed.
Lemma dof_at n : (n < N)%nat -> accessDOFFromGrid l (Z.of_nat n) = Some (Z.of_nat (count (fun x => Nat.eqb (rep x) x) (rep n))).
Proof.
  intros H. unfold accessDOFFromGrid, zget. rewrite (proj2 (Z.ltb_ge _ _)) by lia. rewrite Nat2Z.id, (gl_map l s G).
  rewrite labels_nth by exact H. reflexivity.
Qed.
Lemma dof_of t : point_index m t -> dof l t (Z.of_nat (count (fun x => Nat.eqb (rep x) x) (Z.to_nat (api m (rep3 m t))))).
Proof.
  intros P. destruct t as [[i j] k]. unfold dof. fold m. change (accessPointIndex m i j k) with (api m (i, j, k)).
  destruct (api_range m _ P) as [A _]. rewrite np_pts in A. rewrite <- (Z2Nat.id (api m (i, j, k))) by lia. rewrite dof_at by lia.
  unfold rep at 2. rewrite repn_api; [reflexivity|apply (gl_sized l s G)|exact P].
Qed.
Lemma dof_same t t' d : point_index m t -> point_index m t' -> dof l t d -> dof l t' d -> rep3 m t = rep3 m t'.
Proof.
  intros P P' D D'. pose proof (dof_of t P) as Q. pose proof (dof_of t' P') as Q'.
  pose proof (rep3_valid m t (gl_sized l s G) P) as V. pose proof (rep3_valid m t' (gl_sized l s G) P') as V'.
  apply (api_inj m); try assumption. destruct (api_range m _ V) as [A _]. destruct (api_range m _ V') as [A' _]. rewrite np_pts in A, A'.
  assert (C : count (fun x => Nat.eqb (rep x) x) (Z.to_nat (api m (rep3 m t))) = count (fun x => Nat.eqb (rep x) x) (Z.to_nat (api m (rep3 m t')))).
  { apply Nat2Z.inj. destruct t as [[? ?] ?], t' as [[? ?] ?]. unfold dof in *. congruence. }
  assert (R : forall u, point_index m (rep3 m u) -> rep (Z.to_nat (api m (rep3 m u))) = Z.to_nat (api m (rep3 m u))).
  { intros u U. unfold rep. rewrite repn_api; [|apply (gl_sized l s G)|exact U]. rewrite rep3_idem by apply (gl_sized l s G). reflexivity. }
  rewrite <- (R t V), <- (R t' V') in C. apply (cnt_inj N rep h2) in C; [|lia|lia]. rewrite (R t V), (R t' V') in C. lia.
Qed.
Lemma same_dof t t' : point_index m t -> point_index m t' -> rep3 m t = rep3 m t' -> exists d, dof l t d /\ dof l t' d.
Proof. intros P P' E. eexists. split; [apply dof_of, P|]. rewrite E. apply dof_of, P'. Qed.
Lemma numbers :
  Z.of_nat (length (l_map l)) = num_points m /\
  (forall n, (0 <= n < num_points m)%Z -> exists d, accessDOFFromGrid l n = Some d /\ (0 <= d < getNNodes l)%Z) /\
  (forall d, (0 <= d < getNNodes l)%Z -> (0 <= accessGridFromDOF l d < num_points m)%Z /\ accessDOFFromGrid l (accessGridFromDOF l d) = Some d /\
     forall n, (0 <= n < accessGridFromDOF l d)%Z -> accessDOFFromGrid l n <> Some d) /\
  (forall d d', (0 <= d < d')%Z -> (d' < getNNodes l)%Z -> (accessGridFromDOF l d < accessGridFromDOF l d')%Z) /\
  (forall d, ~ (0 <= d < getNNodes l)%Z -> accessGridFromDOF l d = (-1)%Z).
Proof.
  split; [exact map_length_ok|]. rewrite np_pts. unfold getNNodes. rewrite (gl_np l s G). fold m N rep.
  assert (GF : forall d, (d < count (fun n => Nat.eqb (rep n) n) N)%nat -> accessGridFromDOF l (Z.of_nat d) = Z.of_nat (find_pos (labels N rep) (Z.of_nat d)) /\ (find_pos (labels N rep) (Z.of_nat d) < N)%nat).
  { intros d H. destruct (first_ok N rep h1 h2 d H) as (r & R & _ & _ & F). split; [|lia].
    unfold accessGridFromDOF, posVectorFind. rewrite (gl_map l s G). fold m N rep. rewrite labels_length, F.
    destruct (Nat.eqb_spec r N); [lia|reflexivity]. }
  split; [|split; [|split]].
  - intros n H. rewrite <- (Z2Nat.id n) by lia. rewrite dof_at by lia. eexists. split; [reflexivity|].
    pose proof (cnt_rep N rep h1 h2 (Z.to_nat n) ltac:(lia)). lia.
  - intros d H. rewrite <- (Z2Nat.id d) by lia. destruct (GF (Z.to_nat d) ltac:(lia)) as [-> L].
    destruct (first_ok N rep h1 h2 (Z.to_nat d) ltac:(lia)) as (r & R & I & C & F). rewrite F in *.
    split; [lia|]. rewrite dof_at by lia. rewrite I. split; [congruence|].
    intros n Hn. rewrite <- (Z2Nat.id n) by lia. rewrite dof_at by lia. intros Q. injection Q as Q. apply Nat2Z.inj in Q.
    assert (Q' : count (fun x => Nat.eqb (rep x) x) (rep (Z.to_nat n)) = count (fun x => Nat.eqb (rep x) x) (rep r)) by congruence.
    apply (cnt_inj N rep h2) in Q'; [|lia|lia]. pose proof (h1 (Z.to_nat n) ltac:(lia)). lia.
  - intros d d' H H'. rewrite <- (Z2Nat.id d), <- (Z2Nat.id d') by lia.
    destruct (GF (Z.to_nat d) ltac:(lia)) as [-> _]. destruct (GF (Z.to_nat d') ltac:(lia)) as [-> _].
    pose proof (first_lt N rep h1 h2 (Z.to_nat d) (Z.to_nat d') ltac:(lia)). lia.
  - intros d H. unfold accessGridFromDOF, posVectorFind. rewrite (gl_map l s G). fold m N rep. rewrite labels_length.
    rewrite find_pos_none by (apply no_label; [exact h1|exact h2|exact H]). rewrite labels_length, Nat.eqb_refl. reflexivity.
Qed.
Lemma place_is i j k : point_index m (i, j, k) -> place l (i, j, k)
  (toWorldCoord s (V3 (division s 0 (dim m 0 - 1) (IZR i)) (division s 1 (dim m 1 - 1) (IZR j)) (division s 2 (dim m 2 - 1) (IZR k)))).
Proof.
  intros P. unfold place, getGlobalPoint. rewrite (gl_point l s G i j k P). unfold transfToGlobal. rewrite (gl_shape l s G). reflexivity.
Qed.
Lemma nth_all {A} (f : Z -> option A) n d : (0 <= d < n)%Z -> zget (all_of f n) d = Some (f d).
Proof.
  intros H. unfold all_of. rewrite (zget_map_seq (fun i => f (Z.of_nat i))). rewrite (proj2 (Z.leb_le _ _)) by lia.
  rewrite (proj2 (Z.ltb_lt _ _)) by lia. cbn [andb]. rewrite Z2Nat.id by lia. reflexivity.
Qed.
Lemma coords_ok : Z.of_nat (length (lat_getGlobalCoords l)) = getNNodes l /\ Z.of_nat (length (lat_getLocalCoords l)) = getNNodes l /\
  forall d, (0 <= d < getNNodes l)%Z -> exists i j k p, point_index m (i, j, k) /\ accessGridFromDOF l d = accessPointIndex m i j k /\
    getLocalPoint m i j k = Some p /\ zget (lat_getLocalCoords l) d = Some (Some p) /\ zget (lat_getGlobalCoords l) d = Some (Some (toWorldCoord s p)).
Proof.
  assert (P0 : (0 <= getNNodes l)%Z) by (unfold getNNodes; rewrite (gl_np l s G); lia).
  split; [|split].
  - unfold lat_getGlobalCoords, all_of. rewrite map_length, seq_length. lia.
  - unfold lat_getLocalCoords, all_of. rewrite map_length, seq_length. lia.
  - intros d H. destruct numbers as (_ & _ & N3 & _). destruct (N3 d H) as (Hg & _ & _).
    destruct (proj2 (points_bijection m) (dims_pos m (gl_sized l s G)) _ Hg) as [P E].
    unfold lat_getLocalCoords, lat_getGlobalCoords. rewrite !nth_all by exact H. fold m.
    destruct (pointCoords m (accessGridFromDOF l d)) as [[i j] k]. 
    pose proof (gl_point l s G i j k P) as Q. fold m in Q. exists i, j, k. eexists. split; [exact P|]. split; [symmetry; exact E|].
    split; [exact Q|]. split; [rewrite Q; reflexivity|]. f_equal. exact (place_is i j k P).
Qed.
End lat.
