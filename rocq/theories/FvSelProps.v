(** C148: the selections of a mesh and its boundary. *)
From Coq Require Import String List Arith Bool ZArith Reals Lia.
From Verif Require Import Vec SharedPtr Obj ObjSpec ObjProofs ObjProps PidProps Select SelectSpec SelectProofs SelectProps TriProofs DegProps Topo TopoSpec TopoProofs TopoProps BorderSpec BorderProofs BorderProps FvSel FvSelSpec FvSelProofs.
Import ListNotations.
Open Scope list_scope.
Open Scope nat_scope.

(** The volume patch has the cells of the mesh that are selected.  The boundary patch has the cells of
    the boundary that are selected and all of whose vertices are vertices of the volume patch.  The
    internal boundary patch has a cell on each free face of the volume patch with a vertex that is not in
    the boundary patch.  After any history of the mesh and of its boundary. *)
Theorem C148_patches : forall fr clean w b g d e, new_ids fr -> merges_close clean -> fv_geo b = Some g -> fv_bnd b = Some d -> fv_engine b = Some e ->
  pid_history fr g -> usable g -> apart g -> (/ 10 ^ 15 <= o_tol g)%R -> pid_history fr d -> usable d -> apart d -> (/ 10 ^ 15 <= o_tol d)%R ->
  o_type g = 2 /\ o_type d = 1 \/ o_type g = 1 /\ o_type d = 4 ->
  (forall i, In i (w e g) -> In i (map fst (o_cells g))) -> (forall i, In i (w e d) -> In i (map fst (o_cells d))) ->
  exists vol, SelectSpec.part g (fun i => In i (w e g)) vol /\
  forall m adj face interf shape owner, mesh_of m vol -> adjacent_right m adj -> faces_right m face -> interfaces_right m interf shape owner ->
  exists bp ip, fv_execute clean (extractBoundaryMesh adj face interf shape owner) w b = Some (vol, bp, ip) /\
  cells_of d (fun i c => In i (w e d) /\ made_of (vertex_in vol) c) bp /\
  o_type ip = o_type d /\ well_formed ip /\
  (forall k c, In (k, c) (o_cells ip) <-> exists n i f p, free_at m n i f /\ carries vol n p /\ k = interf n i /\ c = Cl (fst (shape k)) (snd (shape k)) p /\ exists v, In v f /\ ~ vertex_in bp v) /\
  (forall v x, In (v, x) (o_verts ip) <-> In (v, x) (o_verts g) /\ exists n f, free m n f /\ In v f /\ exists u, In u f /\ ~ vertex_in bp u).
Proof.
  intros fr clean w b g d e Fr Mc Hg Hd He Hist U A Tol Hist' U' A' Tol' Ty Ig Id.
  assert (Tg : o_type g <> 3) by lia. assert (Td : o_type d <> 3) by lia.
  destruct (selection_ok clean (w e g) g Mc (history_proper fr g Fr Hist U) A Tg Tol Ig) as (vol & Ev & _ & Pv).
  destruct (selection_ok clean (w e d) d Mc (history_proper fr d Fr Hist' U') A' Td Tol' Id) as (bp0 & Eb & _ & Pb).
  exists vol. split; [exact Pv|]. intros m adj face interf shape owner M Ad F I.
  pose proof (clean_up_ok vol bp0 _ d (proj1 (proj2 U')) (proj2 (proj2 U')) Td Pb) as Cb. set (bp := clean_up vol bp0) in *.
  assert (Uv : usable vol). { split; [exact (proj1 (proj2 Pv))|]. split; [exact (part_sound _ _ _ (proj1 (proj2 U)) Pv)|exact (part_closed _ _ _ (proj2 (proj2 U)) Pv)]. }
  assert (Tv : o_type vol = o_type g) by exact (proj1 Pv).
  assert (Iv : forall c k, In (c, k) (o_cells vol) -> int_range (c_pid k)).
  { intros c k H. apply (proj1 (proj2 (proj2 Pv))) in H. apply (history_int fr g Fr Hist c k), H. }
  assert (T124 : o_type vol = 1 \/ o_type vol = 2 \/ o_type vol = 4) by (rewrite Tv; lia).
  destruct (border_mesh_ok vol m adj face interf shape owner Iv Uv M Ad F I T124) as (r & Er & Ur & R1 & R2 & _ & Rc & Rv & _).
  exists bp, (delete_cells (getCellFromVertexList (map fst (o_verts bp)) true r) r).
  assert (Tr : o_type r = o_type d) by (rewrite Tv in R1, R2; destruct Ty as [(Q1 & ->)|(Q1 & ->)]; auto).
  split; [unfold fv_execute; rewrite Hg, Hd, He, Ev, Eb; cbv zeta; fold bp; unfold internal_patch; rewrite Er; reflexivity|]. split; [exact Cb|].
  destruct Ur as (Wr & Sr & Cr). destruct (delete_cells_of (getCellFromVertexList (map fst (o_verts bp)) true r) r Wr Sr) as (D1 & D2 & D3 & D4).
  split; [congruence|]. split; [exact D2|].
  assert (Tr3 : o_type r <> 3) by congruence.
  destruct (C82_cells r (map fst (o_verts bp)) Wr Sr Tr3) as (_ & G & _).
  assert (Vin : forall v, In v (map fst (o_verts bp)) <-> vertex_in bp v).
  { intros v. rewrite in_map_iff. split; [intros ((u, x) & E & H); cbn [fst] in E; subst u; exists x; exact H|intros (x & H); exists (v, x); auto]. }
  (* the vertices of a cell of the border are those of its face *)
  assert (Face : forall n i f p, free_at m n i f -> forall v, vertex_of (Cl (fst (shape (interf n i))) (snd (shape (interf n i))) p) v <-> In v f).
  { intros n i f p Q v. destruct I as (I & _). destruct (I n i f Q) as (_ & J & _). split.
    - intros (fs & h & V1 & V2 & V3). cbn [c_type c_conn] in V1. assert (fs = [f]) by (apply (means_unique _ _ _ _ V1 J)). subst fs. destruct V2 as [<- | []]. exact V3.
    - intros V. exists [f], f. split; [exact J|]. split; [left; reflexivity|exact V]. }
  assert (Some_v : forall n i f, free_at m n i f -> exists v, In v f).
  { intros n i f Q. destruct I as (I & _). destruct (I n i f Q) as (_ & J & NP & Pg).
    revert J NP Pg. generalize (fst (shape (interf n i))), (snd (shape (interf n i))). intros et cn J NP Pg. remember [f] as L eqn:EL. destruct J as [t l k E1 E2|l|fs].
    - injection EL as ->. destruct f as [|v f]; [|exists v; left; reflexivity]. exfalso. cbn [length] in E2. subst k. destruct t; discriminate E1.
    - injection EL as ->. specialize (Pg eq_refl). destruct f as [|v f]; [cbn in Pg; lia|exists v; left; reflexivity].
    - destruct (NP eq_refl). }
  assert (Dec : forall f, (exists v, In v f /\ ~ vertex_in bp v) \/ forall v, In v f -> vertex_in bp v).
  { intros f. destruct (existsb (fun v => negb (nin v (map fst (o_verts bp)))) f) eqn:E.
    - left. apply existsb_exists in E. destruct E as (v & H & E). exists v. split; [exact H|]. rewrite negb_true_iff, nin_not in E. rewrite <- Vin. exact E.
    - right. intros v H. destruct (nin v (map fst (o_verts bp))) eqn:Q; [apply Vin, nin_in, Q|]. exfalso.
      assert (existsb (fun v => negb (nin v (map fst (o_verts bp)))) f = true) by (apply existsb_exists; exists v; rewrite Q; auto). congruence. }
  assert (Gone : forall n i f p, free_at m n i f -> In (interf n i, Cl (fst (shape (interf n i))) (snd (shape (interf n i))) p) (o_cells r) ->
            (~ In (interf n i) (getCellFromVertexList (map fst (o_verts bp)) true r) <-> exists v, In v f /\ ~ vertex_in bp v)).
  { intros n i f p Q H. rewrite G. split.
    - intros N. destruct (Dec f) as [X|X]; [exact X|]. exfalso. apply N. eexists. split; [exact H|]. split.
      + destruct (Some_v n i f Q) as (v & V). exists v. apply (Face n i f p Q), V.
      + intros v V. apply Vin, X, (Face n i f p Q), V.
    - intros (v & V & N) (c & H' & _ & K). assert (c = Cl (fst (shape (interf n i))) (snd (shape (interf n i))) p).
      { apply (in_find _ _ _ _ (proj2 Wr)) in H, H'. congruence. } subst c. apply N, Vin, K, (Face n i f p Q), V. }
  split.
  - intros k c. rewrite D3. split.
    + intros (H & N). pose proof H as H0. apply Rc in H. destruct H as (n & i & f & bb & Q & B & -> & ->). exists n, i, f, (c_pid bb). split; [exact Q|]. split; [exists bb; split; [exact B|reflexivity]|].
      split; [reflexivity|]. split; [reflexivity|]. apply (Gone n i f (c_pid bb) Q H0), N.
    + intros (n & i & f & p & Q & (bb & B & <-) & -> & -> & X). assert (H0 : In (interf n i, Cl (fst (shape (interf n i))) (snd (shape (interf n i))) (c_pid bb)) (o_cells r)) by (apply Rc; exists n, i, f, bb; auto).
      split; [exact H0|]. apply (Gone n i f (c_pid bb) Q H0), X.
  - assert (At : forall c f, free m c f <-> exists i, free_at m c i f).
    { intros c f. split.
      - intros ((fs & B & Hf) & Q). apply In_nth_error in Hf. destruct Hf as (i & Hi). exists i. split; [exists fs; split; assumption|exact Q].
      - intros (i & (fs & B & Hi) & Q). split; [exists fs; split; [exact B|apply (nth_error_In _ _ Hi)]|exact Q]. }
    intros v x. rewrite D4. split.
    + intros (H & k & c & K & N & Vc). pose proof K as K0. apply Rc in K. destruct K as (n & i & f & bb & Q & B & -> & ->). apply Rv in H. destruct H as (H & _). split; [apply (proj1 (proj2 (proj2 (proj2 Pv)))) in H; tauto|].
      exists n, f. split; [apply At; exists i; exact Q|]. split; [apply (Face n i f (c_pid bb) Q), Vc|]. apply (Gone n i f (c_pid bb) Q K0), N.
    + intros (H & n & f & Fr' & Vf & X). pose proof Fr' as FF. apply At in Fr'. destruct Fr' as (i & Q). destruct M as (M1 & M2).
      destruct (M2 n f v (proj1 FF) Vf) as (bb & B & Bv). assert (Hv : In (v, x) (o_verts vol)).
      { apply (proj1 (proj2 (proj2 (proj2 Pv)))). split; [exact H|]. apply (proj1 (proj2 (proj2 Pv))) in B. exists n, bb. tauto. }
      split; [apply Rv; split; [exact Hv|]; exists n, f; auto|].
      assert (K0 : In (interf n i, Cl (fst (shape (interf n i))) (snd (shape (interf n i))) (c_pid bb)) (o_cells r)) by (apply Rc; exists n, i, f, bb; auto).
      eexists. eexists. split; [exact K0|]. split; [apply (Gone n i f (c_pid bb) Q K0), X|]. apply (Face n i f (c_pid bb) Q), Vf.
Qed.
Print Assumptions C148_patches.

(** Whatever the calls, the geometries linked are a volume with a surface, or a surface with a curve, as
    the topology says; without one of the two, or without a selection, the execution raises an exception. *)
Definition fv_run (c : fv_call) (b : fv) : fv :=
  match c with FvGeometry g => fv_setGeometry g b | FvBoundary g => fv_setBoundary g b | FvDual d => fv_setDual d b | FvSelection e => fv_setSelection e b end.
Theorem C148_linked : forall topo calls, let b := fold_left (fun b c => fv_run c b) calls (new_fv topo) in
  (forall g d, fv_geo b = Some g -> fv_bnd b = Some d -> pair_of topo (o_type g) (o_type d)) /\
  (forall clean border w, fv_geo b = None \/ fv_bnd b = None \/ fv_engine b = None -> fv_execute clean border w b = None) /\
  forall clean border w pick, fv_execute clean border (fv_setShape pick b w) b = fv_execute clean border (fun _ => pick) b.
Proof.
  intros topo calls. cbv zeta.
  assert (H : forall b0, (fv_topo b0 = Z.min 2 (Z.max 1 topo) /\ (forall g, fv_geo b0 = Some g -> ((topo <= 1)%Z -> o_type g = 2) /\ ((2 <= topo)%Z -> o_type g = 1)) /\
                (forall d, fv_bnd b0 = Some d -> ((topo <= 1)%Z -> o_type d = 1) /\ ((2 <= topo)%Z -> o_type d = 4))) ->
     let b := fold_left (fun b c => fv_run c b) calls b0 in forall g d, fv_geo b = Some g -> fv_bnd b = Some d -> pair_of topo (o_type g) (o_type d)).
  { induction calls as [|c calls IH]; intros b0 (T & G & D); cbn [fold_left].
    - intros g d Hg Hd. specialize (G g Hg). specialize (D d Hd). unfold pair_of. tauto.
    - apply IH. clear IH. destruct c as [o|o|dd|e]; cbn [fv_run].
      + unfold fv_setGeometry. destruct o as [o|]; [|auto]. destruct (_ || _) eqn:E; [auto|]. cbn [fv_topo fv_geo fv_bnd]. split; [exact T|]. split; [|exact D].
        intros g Q. injection Q as <-. apply orb_false_elim in E. destruct E as (E1 & E2). rewrite T in E1, E2. split; intros L.
        * replace (Z.min 2 (Z.max 1 topo)) with 1%Z in E1 by lia. cbn in E1. apply negb_false_iff, Nat.eqb_eq in E1. exact E1.
        * replace (Z.min 2 (Z.max 1 topo)) with 2%Z in E2 by lia. cbn in E2. apply negb_false_iff, Nat.eqb_eq in E2. exact E2.
      + unfold fv_setBoundary. destruct o as [o|]; [|auto]. destruct (_ || _) eqn:E; [auto|]. cbn [fv_topo fv_geo fv_bnd]. split; [exact T|]. split; [exact G|].
        intros g Q. injection Q as <-. apply orb_false_elim in E. destruct E as (E1 & E2). rewrite T in E1, E2. split; intros L.
        * replace (Z.min 2 (Z.max 1 topo)) with 1%Z in E1 by lia. cbn in E1. apply negb_false_iff, Nat.eqb_eq in E1. exact E1.
        * replace (Z.min 2 (Z.max 1 topo)) with 2%Z in E2 by lia. cbn in E2. apply negb_false_iff, Nat.eqb_eq in E2. exact E2.
      + unfold fv_setDual. cbn [fv_topo fv_geo fv_bnd]. auto.
      + unfold fv_setSelection. destruct e; [cbn [fv_topo fv_geo fv_bnd]|]; auto. }
  split.
  - apply H. cbn. split; [reflexivity|]. split; intros ? Q; discriminate Q.
  - split.
    + intros clean border w. unfold fv_execute. destruct (fv_geo _); [|reflexivity]. destruct (fv_bnd _); [|reflexivity]. destruct (fv_engine _); [|reflexivity]. intros [Q|[Q|Q]]; discriminate Q.
    + intros clean border w pick. unfold fv_execute, fv_setShape. destruct (fv_geo _); [|reflexivity]. destruct (fv_bnd _); [|reflexivity]. destruct (fv_engine _) as [e|]; [|reflexivity].
      now rewrite Nat.eqb_refl.
Qed.
Print Assumptions C148_linked.

(** The boundary of the two tetrahedra of C91. *)
Definition tets_skin : obj :=
  let g := points 1 [(0, 0, 0); (1, 0, 0); (0, 1, 0); (0, 0, 1); (1, 1, 1)]%Z in
  let g := snd (addConnectedCell fresh [1; 0; 2] ETriangle 3%Z (Some 50) g) in
  let g := snd (addConnectedCell fresh [0; 3; 2] ETriangle 3%Z (Some 51) g) in
  let g := snd (addConnectedCell fresh [0; 1; 3] ETriangle 3%Z (Some 53) g) in
  let g := snd (addConnectedCell fresh [1; 4; 3] ETriangle 6%Z (Some 81) g) in
  let g := snd (addConnectedCell fresh [4; 2; 3] ETriangle 6%Z (Some 82) g) in
  snd (addConnectedCell fresh [1; 2; 4] ETriangle 6%Z (Some 83) g).
Definition tet1 : mesh := firstn 1 tets.
Definition tet1_border : obj -> option obj := extractBoundaryMesh (adj_of tet1) tets_face tets_interf tets_shape tets_owner.
(** a selection of the volume: tetrahedron 5; of its boundary: the faces given *)
Definition pick (faces : list nat) (o : obj) : list nat := if Nat.eqb (o_type o) 2 then [5] else faces.
Definition other (faces : list nat) (o : obj) : list nat := if Nat.eqb (o_type o) 2 then [8] else faces.
Definition two_block : fv := fv_setSelection (Some 7) (fv_setBoundary (Some tets_skin) (fv_setGeometry (Some tets_obj) (new_fv 1))).
Definition cells3 (r : option (obj * obj * obj)) : option (list nat * list nat * list nat) :=
  option_map (fun x => (map fst (o_cells (fst (fst x))), map fst (o_cells (snd (fst x))), map fst (o_cells (snd x)))) r.

(** The dual has no effect: the flag is kept and never given to the selection that does the work. *)
Theorem C148_dual_refuted : (forall clean border w b d, fv_execute clean border w (fv_setDual d b) = fv_execute clean border w b) /\
  exists clean border w b, cells3 (fv_execute clean border w (fv_setDual true b)) = Some ([5], [50], [51; 52; 53]) /\
    cells3 (fv_execute clean border w b) = Some ([5], [50], [51; 52; 53]).
Proof.
  split; [reflexivity|]. exists SelectProps.same, tet1_border, (fun _ => pick [50; 81]), two_block. split; vm_compute; reflexivity.
Qed.
Print Assumptions C148_dual_refuted.

(** A copy shares the selection that does the work: to change the shape of the copy changes what the
    original extracts. *)
Theorem C148_copy_refuted : exists clean border w b shape,
  cells3 (fv_execute clean border w b) = Some ([5], [50], [51; 52; 53]) /\
  cells3 (fv_execute clean border (fv_setShape shape (fv_copy b) w) b) = Some ([5], [], [50; 51; 52; 53]).
Proof.
  exists SelectProps.same, tet1_border, (fun _ => pick [50; 81]), two_block, (pick []). split; vm_compute; reflexivity.
Qed.
Print Assumptions C148_copy_refuted.

(** The face between the selected part and the rest of the mesh is missing from the internal boundary
    when its vertices are on the boundary patch: the tetrahedron 5, selected with its three faces of the
    boundary, has no internal boundary, while face (1, 2, 3) divides it from tetrahedron 8. *)
Theorem C148_internal_refuted : exists clean border w b,
  cells3 (fv_execute clean border w b) = Some ([5], [50; 51; 53], []) /\
  (exists f n, has_face tet1 5 f /\ (forall k, ~ across tet1 5 f k) /\ across tets 5 f n) /\
  option_map (fun r => map fst (o_cells r)) (border tets_obj) <> None.
Proof.
  exists SelectProps.same, tet1_border, (fun _ => pick [50; 51; 53]), two_block. split; [vm_compute; reflexivity|]. split; [|vm_compute; discriminate].
  exists (get_face tets (5, 2)), 8. split; [exists (snd (hd (0, []) tets)); split; [left; reflexivity|vm_compute; tauto]|]. split.
  - intros k (N & h & (fs & H & _) & _). cbn in H. destruct H as [H|[]]. injection H as H _. congruence.
  - split; [discriminate|]. exists (get_face tets (8, 0)). split; [eexists; split; [right; left; reflexivity|vm_compute; tauto]|]. intros v. vm_compute. tauto.
Qed.
Print Assumptions C148_internal_refuted.

(** The boundary patch goes on announcing the PIDs of the cells deleted from it. *)
Theorem C148_pids_refuted : exists clean border w b vol bp ip p, fv_execute clean border w b = Some (vol, bp, ip) /\
  In p (o_pids bp) /\ ~ exists id, carries bp id p.
Proof.
  exists SelectProps.same, tet1_border, (fun _ => pick [50; 81]), two_block.
  destruct (fv_execute SelectProps.same tet1_border (fun _ => pick [50; 81]) two_block) as [((vol, bp), ip)|] eqn:E; [|exfalso; assert (X : cells3 (fv_execute SelectProps.same tet1_border (fun _ => pick [50; 81]) two_block) <> None) by (vm_compute; discriminate); rewrite E in X; apply X; reflexivity].
  exists vol, bp, ip, 6%Z. split; [reflexivity|].
  assert (P : option_map (fun x => (o_pids (snd (fst x)), o_cells (snd (fst x)))) (fv_execute SelectProps.same tet1_border (fun _ => pick [50; 81]) two_block) = Some ([3; 6]%Z, [(50, Cl ETriangle [1; 0; 2] 3)])) by (vm_compute; reflexivity).
  rewrite E in P. cbn [option_map fst snd] in P. injection P as P1 P2. split; [rewrite P1; right; left; reflexivity|].
  intros (id & c & H & Q). rewrite P2 in H. destruct H as [H|[]]. injection H as _ <-. discriminate Q.
Qed.
Print Assumptions C148_pids_refuted.

(** Tetrahedron 5, with a face of its boundary and one of the other tetrahedron. *)
Example C148_nonvacuous :
  pid_history fresh tets_obj /\ usable tets_obj /\ apart tets_obj /\ (/ 10 ^ 15 <= o_tol tets_obj)%R /\
  pid_history fresh tets_skin /\ usable tets_skin /\ apart tets_skin /\ (/ 10 ^ 15 <= o_tol tets_skin)%R /\
  fv_geo two_block = Some tets_obj /\ fv_bnd two_block = Some tets_skin /\ fv_engine two_block = Some 7 /\ o_type tets_obj = 2 /\ o_type tets_skin = 1 /\
  (forall i, In i (pick [50; 81] tets_obj) -> In i (map fst (o_cells tets_obj))) /\ (forall i, In i (pick [50; 81] tets_skin) -> In i (map fst (o_cells tets_skin))) /\
  exists vol bp ip, fv_execute SelectProps.same tet1_border (fun _ => pick [50; 81]) two_block = Some (vol, bp, ip) /\
  mesh_of tet1 vol /\ adjacent_right tet1 (adj_of tet1) /\ faces_right tet1 tets_face /\ interfaces_right tet1 tets_interf tets_shape tets_owner /\
  map fst (o_cells vol) = [5] /\ map fst (o_cells bp) = [50] /\ map fst (o_cells ip) = [51; 52; 53] /\ map fst (o_verts bp) = [0; 2; 1] /\
  ~ made_of (vertex_in vol) (Cl ETriangle [1; 4; 3] 6).
Proof.
  assert (Far : forall t vs, In t [tets_obj; tets_skin] -> o_verts t = vs -> vs = [(0, V3 0 0 0); (1, V3 1 0 0); (2, V3 0 1 0); (3, V3 0 0 1); (4, V3 1 1 1)] -> o_tol t = (/ 1000000)%R -> apart t).
  { intros t vs _ Ev -> Et v w x y Hx Hy N. rewrite Ev in Hx, Hy. cbn [In] in Hx, Hy. rewrite Et. unfold far.
    repeat (destruct Hx as [Hx|Hx]; [injection Hx as <- <-|]); [..|destruct Hx];
    (repeat (destruct Hy as [Hy|Hy]; [injection Hy as <- <-|]); [..|destruct Hy]); try (exfalso; apply N; reflexivity);
    cbn [vx vy vz]; first [left; unfold Rabs; destruct (Rcase_abs _); Lra.lra|right; left; unfold Rabs; destruct (Rcase_abs _); Lra.lra|right; right; unfold Rabs; destruct (Rcase_abs _); Lra.lra]. }
  split; [unfold tets_obj; cbv zeta; eapply ph_call; [|apply pc_name]; do 2 (eapply ph_call; [|apply pc_conn; unfold int_range; lia]); apply points_history|].
  split; [apply usable_check; vm_compute; reflexivity|]. split; [eapply Far; [left; reflexivity|reflexivity|cbv - [IZR]; reflexivity|cbv - [IZR Rinv]; reflexivity]|].
  split; [change (o_tol tets_obj) with (/ 1000000)%R; Lra.lra|].
  split; [unfold tets_skin; cbv zeta; do 6 (eapply ph_call; [|apply pc_conn; unfold int_range; lia]); apply points_history|].
  split; [apply usable_check; vm_compute; reflexivity|]. split; [eapply Far; [right; left; reflexivity|reflexivity|cbv - [IZR]; reflexivity|cbv - [IZR Rinv]; reflexivity]|].
  split; [change (o_tol tets_skin) with (/ 1000000)%R; Lra.lra|].
  split; [reflexivity|]. split; [reflexivity|]. split; [reflexivity|]. split; [reflexivity|]. split; [reflexivity|].
  split; [intros i [<- | []]; vm_compute; tauto|]. split; [intros i [<- | [<- | []]]; vm_compute; tauto|].
  destruct (fv_execute SelectProps.same tet1_border (fun _ => pick [50; 81]) two_block) as [((vol, bp), ip)|] eqn:E; [|exfalso; assert (X : cells3 (fv_execute SelectProps.same tet1_border (fun _ => pick [50; 81]) two_block) <> None) by (vm_compute; discriminate); rewrite E in X; apply X; reflexivity].
  assert (P : option_map (fun x => (o_cells (fst (fst x)), map fst (o_verts (fst (fst x))), map fst (o_cells (snd (fst x))), map fst (o_cells (snd x)), map fst (o_verts (snd (fst x)))))
      (fv_execute SelectProps.same tet1_border (fun _ => pick [50; 81]) two_block) = Some ([(5, Cl ETetra [0; 1; 2; 3] 3)], [0; 1; 2; 3], [50], [51; 52; 53], [0; 2; 1])) by (vm_compute; reflexivity).
  rewrite E in P. cbn [option_map fst snd] in P. injection P as P1 P2 P3 P4 P5. exists vol, bp, ip. split; [reflexivity|].
  assert (N1 : NoDup (map fst tet1)) by (apply nodup_check; vm_compute; reflexivity).
  assert (Sub : forall c i f, face_at tet1 c i f -> face_at tets c i f /\ c = 5).
  { intros c i f (fs & H & K). cbn [tet1 firstn tets In] in H. destruct H as [H|[]]. injection H as <- <-. split; [|reflexivity]. eexists. split; [left; reflexivity|exact K]. }
  split.
  { split; [rewrite P1; reflexivity|]. intros c f v (fs & H & Hf) Hv. rewrite P1.
    apply In_nth_error in Hf. destruct Hf as (i & Hi). destruct (Sub c i f) as ((fs' & H' & Hi') & ->); [exists fs; split; assumption|]. pose proof (tet_at 5 i fs' f H' Hi') as F.
    eexists. split; [left; reflexivity|]. exists [[0; 1; 2; 3]], [0; 1; 2; 3]. split; [apply (means_fixed _ _ 4); reflexivity|]. split; [left; reflexivity|].
    clear - F Hv. remember 5 as c5 eqn:Ec. tet_case F; cbn [In] in Hv |- *; lia. }
  split; [apply adj_of_right, N1|]. split; [intros c i f F; apply (get_face_at tets c i f tets_nodup (proj1 (Sub c i f F)))|]. split.
  { split.
    - intros c i f (F & _). apply Sub in F. destruct F as (F & _). split; [|split; [|split; discriminate]].
      + unfold tets_owner, tets_interf. tet_case F; reflexivity.
      + tet_case F; apply (means_fixed _ _ 3); reflexivity.
    - intros c i f d j h (F & _) (G & _). apply Sub in F, G. destruct F as (F & _), G as (G & _). apply tets_faces in F, G. unfold tets_interf. lia. }
  split; [rewrite P1; reflexivity|]. split; [exact P3|]. split; [exact P4|]. split; [exact P5|].
  intros (_ & H). destruct (H 4) as (x & X).
  - exists [[1; 4; 3]], [1; 4; 3]. split; [apply (means_fixed _ _ 3); reflexivity|]. split; [left; reflexivity|right; left; reflexivity].
  - assert (Q : In 4 (map fst (o_verts vol))) by (apply in_map_iff; exists (4, x); auto). rewrite P2 in Q. cbn in Q. lia.
Qed.
