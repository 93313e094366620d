(** Concrete meshes. *)
From Coq Require Import Reals List Arith ZArith Bool Lia Lra.
From Verif Require Import Vec Shape ShapeSpec ShapeProofs ShapeCoord ShapeWitness Mesh MeshSpec MeshProofs MeshInterp MeshBuild.
Import ListNotations.
Open Scope R_scope.

Lemma built_reach m s : mreach no_polar m -> m_built m = true -> m_shape m = Some s -> solid s -> mreach any m -> built_on m s.
Proof. intros R B E S A. split; [exists m; split; [exact A|apply flag_ok; assumption]|]. auto. Qed.
Lemma mreach_any P m : mreach P m -> mreach any m.
Proof. intros H. induction H as [|m o m' H IH Po A E|a b Ha IHa Hb IHb]; [apply mreach_new|eapply mreach_call; try eassumption; exact I|apply mreach_assign; assumption]. Qed.

(** A sector of a cylinder, with the least number of points around the axis. *)
Definition fan_mesh : mesh := setMeshCopy new_mesh sector 3 1 4.
Lemma fan_mreach : mreach no_polar fan_mesh.
Proof.
  apply (mreach_call no_polar new_mesh (MMeshCopy sector 3 1 4)); [apply mreach_new|exact I|exists CYLINDER; exact sector_reach|reflexivity].
Qed.
Lemma fan_built : built_on fan_mesh sector.
Proof. apply built_reach; [exact fan_mreach|reflexivity|reflexivity|exact sector_solid|apply (mreach_any no_polar), fan_mreach]. Qed.
Lemma fan_dim : dim fan_mesh 0 = 3%Z /\ dim fan_mesh 1 = 4%Z /\ dim fan_mesh 2 = 4%Z.
Proof. repeat split. Qed.
Lemma fan_sizes : int_sizes fan_mesh.
Proof. intros i Hi. destruct fan_dim as (D0 & D1 & D2). three Hi; [rewrite D0|rewrite D1|rewrite D2]; lia. Qed.

(** A unit cube with three points per direction. *)
Definition box_mesh : mesh := setMesh vzero new_mesh vzero (V3 1 1 1) CUBE 3 3 3.
Lemma box_shape : m_shape box_mesh = Some (new_shape CUBE).
Proof.
  unfold box_mesh, setMesh. rewrite build_shape. cbn. unfold setSpan, checkSpan, setScaling, vabs; cbn. rewrite Rabs_R1. reflexivity.
Qed.
Lemma box_mreach : mreach no_polar box_mesh.
Proof. apply (mreach_call no_polar new_mesh (MMesh vzero vzero (V3 1 1 1) CUBE 3 3 3)); [apply mreach_new|exact I|exact I|reflexivity]. Qed.
Lemma box_built : built_on box_mesh (new_shape CUBE).
Proof. apply built_reach; [exact box_mreach|reflexivity|exact box_shape|exact cube_solid|apply (mreach_any no_polar), box_mreach]. Qed.
Lemma box_dim i : (i < 3)%nat -> dim box_mesh i = 3%Z.
Proof. intros Hi. three Hi; reflexivity. Qed.
Lemma box_sizes : int_sizes box_mesh.
Proof. intros i Hi. rewrite box_dim by assumption. lia. Qed.
Lemma box_local p : toLocalCoord (new_shape CUBE) p = p.
Proof.
  destruct p as [x y z]. unfold toLocalCoord. cbn [new_shape s_kind s_scaling s_sdr s_origin].
  unfold dots, dot, cdiv, vsub, ident, vzero. apply vec_ext; cbn [vx vy vz row0 row1 row2]; field.
Qed.
Lemma box_in p : (forall i, (i < 3)%nat -> - / 2 <= vent p i <= / 2) -> in_param (new_shape CUBE) (toLocalCoord (new_shape CUBE) p).
Proof. intros H. rewrite box_local. intros i Hi. pose proof (H i Hi). three Hi; cbn in *; lra. Qed.

(** A point whose cell number is not an int. *)
Definition far : vec := V3 (10 ^ 10) 0 0.
Lemma far_lost : locateCellByPoint box_mesh far = None.
Proof.
  unfold locateCellByPoint. rewrite box_shape. rewrite box_local. unfold locate1 at 1.
  assert (E : to_int ((vx far - vx (getLocalOrigin (new_shape CUBE))) / a_d (m_x box_mesh)) = None).
  { destruct (to_int _) as [z|] eqn:T; [|reflexivity]. exfalso. apply to_int_some in T. destruct T as [T Z].
    destruct (built_axes _ _ box_built) as (_ & _ & _ & _ & X & _). rewrite (ga_d _ _ _ _ X) in T. rewrite (box_dim 0) in T by lia.
    cbn [vx far getLocalOrigin new_shape s_kind s_span] in T. replace (3 - 1)%Z with 2%Z in T by reflexivity.
    assert (Hz : (z <= 2147483647)%Z) by (change 2147483648%Z with (2 ^ 31)%Z; lia). apply IZR_le in Hz. lra. }
  rewrite E. reflexivity.
Qed.

(** A sphere whose polar infimum is changed after the mesh is built. *)
Definition ball_mesh : mesh := setMeshCopy new_mesh (new_shape SPHERE) 2 5 3.
Definition ball_cut : mesh := with_shape ball_mesh (Some (setInfLimits (new_shape SPHERE) 1 2)).
Lemma ball_reach : mreach any ball_cut.
Proof.
  apply (mreach_call any ball_mesh (MInf 1 2)); [|exact I|exact I|reflexivity].
  apply (mreach_call any new_mesh (MMeshCopy (new_shape SPHERE) 2 5 3)); [apply mreach_new|exact I|exists SPHERE; apply reach_new|reflexivity].
Qed.
Lemma ball_span : vz (s_span (setInfLimits (new_shape SPHERE) 1 2)) = PI - 1.
Proof.
  pose proof pi_big. unfold setInfLimits. cbn [Z.ltb Z.compare orb new_shape s_kind checkInfLimits Z.eqb Pos.eqb].
  rewrite Rmax_right by lra. rewrite Rmin_right by lra.
  unfold setSpan, checkSpan, setScaling, getSpan, cmul; cbn [s_kind s_span s_scaling s_inf vx vy vz vabs setCoordinateType].
  rewrite !Rmult_1_l. rewrite (Rabs_right PI) by lra.
  assert (E : Rmin PI (0.5 * (2 * PI) - 1) = PI - 1) by (rewrite Rmin_right by lra; lra). rewrite E.
  destruct (Rlt_dec _ _); reflexivity.
Qed.
Lemma ball_stale : m_built ball_cut = true /\ ~ same_points ball_cut (snd (mesh_build ball_cut)).
Proof.
  split; [reflexivity|]. intros (_ & P & _). specialize (P 0%Z 0%Z 2%Z).
  destruct (build_facts ball_cut _ eq_refl) as (_ & _ & _ & D & L & _). cbn zeta in D, L. rewrite L in P. rewrite !D in P by lia.
  assert (D0 : forall i, (i < 3)%nat -> dim ball_cut i = match i with 0%nat => 2 | 1%nat => 5 | _ => 3 end%Z) by (intros i Hi; three Hi; reflexivity).
  rewrite !D0 in P by lia. assert (K : s_kind (setInfLimits (new_shape SPHERE) 1 2) = SPHERE) by (rewrite (proj1 (setInf_rest _ _ _)); reflexivity).
  rewrite K in P. cbn [min_points Z.max Z.compare Z.leb Z.ltb andb Pos.compare Pos.compare_cont] in P.
  change (getLocalPoint ball_cut 0 0 2) with (getLocalPoint ball_mesh 0 0 2) in P.
  destruct (build_facts (setDimension (mesh_setShapeCopy (with_shape new_mesh None) (Some (new_shape SPHERE))) 2 5 3) (new_shape SPHERE) eq_refl) as (_ & _ & _ & D' & L' & _). cbn zeta in D', L'.
  fold ball_mesh in D', L'. change (snd (mesh_build (setDimension (mesh_setShapeCopy (with_shape new_mesh None) (Some (new_shape SPHERE))) 2 5 3))) with ball_mesh in L', D'.
  rewrite L' in P. assert (D1 : forall i, (i < 3)%nat -> dim ball_mesh i = match i with 0%nat => 2 | 1%nat => 5 | _ => 3 end%Z) by (intros i Hi; three Hi; reflexivity).
  rewrite !D1 in P by lia. cbn [Z.leb Z.ltb andb Z.compare Pos.compare Pos.compare_cont] in P.
  pose proof ball_span as BS. set (c := setInfLimits (new_shape SPHERE) 1 2) in *. clearbody c.
  apply (f_equal (fun o => match o with Some v => vz v | None => 0 end)) in P. cbn [vz] in P.
  unfold division, getLocalOrigin in P. rewrite K in P. cbn [vent vz new_shape s_kind s_span] in P. rewrite BS in P.
  replace (3 - 1)%Z with 2%Z in P by reflexivity. lra.
Qed.

(** Assignment from a mesh without shape. *)
Definition shaped : mesh := mesh_setShape vzero new_mesh SPHERE.
Lemma shaped_reach : mreach any shaped.
Proof. apply (mreach_call any new_mesh (MShape vzero SPHERE)); [apply mreach_new|exact I|exact I|reflexivity]. Qed.
