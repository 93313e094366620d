(** Properties C153, C154 *)
From Coq Require Import List Arith Bool ZArith Lia.
From Verif Require Import Vtu VtuSpec VtuProofs.
Import ListNotations.
Open Scope list_scope.
Open Scope nat_scope.

(** C153: the mesh read from a file is the grid the file describes *)
Theorem C153_read : forall (V : Type) st (k : grid V) f ids cids,
  regular k -> describes st k f ->
  numbered (g_vid k) (length (g_points k)) ids -> numbered (g_cid k) (length (g_cells k)) cids ->
  (st = Skipped -> (exists s, In s (g_cells k) /\ type_of s = POLYHEDRON) -> length (g_cells k) <= length (a_faces f)) ->
  decode f = Done (mesh_of k ids cids).
Proof. exact decode_ok. Qed.
Print Assumptions C153_read.

(** a type that is not supported: an exception *)
Theorem C153_unsupported : forall (V : Type) (f : arrays V) z, In z (a_types f) -> (forall t, ~ In (t, z) codes) -> decode f = Throws.
Proof.
  intros V f z I N. unfold decode. destruct (Nat.ltb (length (a_conn f)) (length (a_offsets f))); [reflexivity|].
  assert (E : existsb (fun z => etype_eqb (type_of_code z) UNDEFINED) (a_types f) = true).
  { apply existsb_exists. exists z. split; [exact I|]. unfold type_of_code. simpl in N.
    repeat match goal with |- context [Z.eqb z ?n] => destruct (Z.eqb_spec z n); [subst; exfalso; eapply N; tauto|] end. reflexivity. }
  now rewrite E.
Qed.
Print Assumptions C153_unsupported.

(** a polyhedron first, and no faces in the file: an exception *)
Theorem C153_no_faces : forall (V : Type) (f : arrays V), a_types f <> [] -> length (a_types f) = length (a_offsets f) -> hd 0%Z (a_types f) = 42%Z ->
  a_foffsets f = [] -> decode f = Throws.
Proof.
  intros V f N L H F. unfold decode. destruct (Nat.ltb (length (a_conn f)) (length (a_offsets f))); [reflexivity|].
  destruct (existsb (fun z => etype_eqb (type_of_code z) UNDEFINED) (a_types f)); [reflexivity|].
  rewrite F. destruct (a_types f) as [|z l] eqn:T; [congruence|]. simpl in H. subst z.
  destruct (a_offsets f) as [|o r]; [discriminate|]. simpl. rewrite T. reflexivity.
Qed.
Print Assumptions C153_no_faces.

(** a grid of VTK with few polyhedra among many cells is refused *)
Definition tet : shape := Plain TETRA [0; 1; 2; 3].
Definition poly : shape := Poly [0; 1; 2; 3] [[0; 1; 2]; [0; 1; 3]; [1; 2; 3]; [0; 2; 3]].
Definition many : grid nat := Grid [5; 6; 7; 8] (repeat tet 17 ++ [poly]) None None None.
Definition many_file : arrays nat :=
  Arrays [5; 6; 7; 8] (map (fun j => 4 * S j) (seq 0 18)) (repeat 10%Z 17 ++ [42%Z]) (concat (repeat [0; 1; 2; 3] 18))
         [4; 3; 0; 1; 2; 3; 0; 1; 3; 3; 1; 2; 3; 3; 0; 2; 3] (repeat (-1)%Z 17 ++ [17%Z]) [] [] [].
Lemma many_regular : regular many.
Proof.
  split; [|repeat split; intros l E; discriminate E].
  assert (A : forall l, (forall s, In s l -> s = tet \/ s = poly) -> Forall (fun s => points_of s <> [] /\ Forall (fun i => i < 4) (points_of s) /\
     match s with Plain t _ => t <> POLYHEDRON /\ t <> UNDEFINED | Poly _ fs => Forall (Forall (fun i => i < 4)) fs end) l).
  { intros l H. apply Forall_forall. intros s S. destruct (H s S) as [-> | ->]; simpl; (split; [discriminate|]); (split; [repeat constructor; lia|]).
    - split; discriminate.
    - repeat constructor; lia. }
  apply (A (g_cells many)). intros s S. simpl in S. intuition.
Qed.
Lemma many_describes : describes Skipped many many_file.
Proof.
  unfold describes. repeat (split; [vm_compute; reflexivity|]). split.
  { vm_compute. repeat (constructor; [tauto|]). constructor. }
  repeat (split; [vm_compute; reflexivity|]). vm_compute; reflexivity.
Qed.
Theorem C153_few_refuted : exists (k : grid nat) f, regular k /\ describes Skipped k f /\ decode f = Throws.
Proof. exists many, many_file. split; [exact many_regular|]. split; [exact many_describes|]. vm_compute. reflexivity. Qed.
Print Assumptions C153_few_refuted.

(** a place beyond the points is no error: the cell has a vertex that the mesh does not have *)
Theorem C153_outside_refuted : exists (f : arrays nat) m c, decode f = Done m /\ In c (m_cells m) /\
  exists v, In v (snd (fst c)) /\ ~ In v (map fst (m_verts m)).
Proof.
  exists (Arrays [5; 6; 7] [3] [5%Z] [0; 1; 3] [] [] [] [] [11; 12; 13]), (Mesh [(11, 5); (12, 6); (13, 7)] [(0, TRIANGLE, [11; 12; 0], 0%Z)]), (0, TRIANGLE, [11; 12; 0], 0%Z).
  split; [vm_compute; reflexivity|]. split; [now left|]. exists 0. simpl. intuition lia.
Qed.
Print Assumptions C153_outside_refuted.

Definition small : grid nat := Grid [5; 6; 7; 8] [Plain POLYGON [0; 1; 2]; poly; Plain TRIANGLE [1; 2; 3]] (Some [20; 10; 10]) (Some [1; 2; 3]%Z) (Some [4; 3; 2; 1]).
Definition small_file : arrays nat :=
  Arrays [5; 6; 7; 8] [3; 7; 10] [7; 42; 5]%Z [0; 1; 2; 0; 1; 2; 3; 1; 2; 3] [4; 3; 0; 1; 2; 3; 0; 1; 3; 3; 1; 2; 3; 3; 0; 2; 3] [-1; 17; -1]%Z
         [20; 10; 10] [1; 2; 3]%Z [4; 3; 2; 1].
(** the hypotheses can be met: a polyhedron among other cells, cell ids that are not all different *)
Example C153_nonvacuous : regular small /\ describes Skipped small small_file /\ numbered (g_vid small) 4 [4; 3; 2; 1] /\ numbered (g_cid small) 3 [0; 1; 2] /\
  length (g_cells small) <= length (a_faces small_file) /\
  decode small_file = Done (Mesh [(4, 5); (3, 6); (2, 7); (1, 8)]
    [(0, POLYGON, [3; 4; 3; 2], 1%Z); (1, POLYHEDRON, [4; 3; 4; 3; 2; 3; 4; 3; 1; 3; 3; 2; 1; 3; 4; 2; 1], 2%Z); (2, TRIANGLE, [3; 2; 1], 3%Z)]).
Proof.
  split.
  { split; [|repeat split; intros l E; injection E as <-; reflexivity].
    repeat (apply Forall_cons; [simpl; (split; [discriminate|]); (split; [repeat constructor; lia|]); first [split; discriminate|repeat constructor; lia]|]). constructor. }
  split.
  { unfold describes. repeat (split; [vm_compute; reflexivity|]). split.
    { vm_compute. repeat (constructor; [tauto|]). constructor. }
    repeat (split; [vm_compute; reflexivity|]). vm_compute; reflexivity. }
  split; [split; [reflexivity|]; intro N; exfalso; apply N; repeat constructor; simpl; intuition lia|].
  split; [split; [|reflexivity]; intro N; inversion N; subst; inversion H2; subst; exfalso; apply H3; now left|].
  split; [simpl; lia|]. vm_compute. reflexivity.
Qed.

(** C154: a mesh written and read back.  [written c]: the cell is among those to be written *)
Theorem C154_back : forall (V : Type) written always rt (m : mesh V), sound m ->
  exists m' used, decode (write written always rt m) = Done m' /\
    m_cells m' = filter written (m_cells m) /\
    m_verts m' = map (fun e => (fst e, rt (snd e))) (filter (fun e => used (fst e)) (m_verts m)) /\
    forall i, used i = true <-> exists c, In c (m_cells m) /\ written c = true /\ vertex_of c i.
Proof.
  intros V written always rt m S.
  exists (Mesh (map (fun e => (fst e, rt (snd e))) (used_verts m (filter written (m_cells m)))) (filter written (m_cells m))),
         (fun i => existsb (Nat.eqb i) (flat_map cell_verts (filter written (m_cells m)))).
  split; [now apply roundtrip|]. split; [reflexivity|]. split; [reflexivity|].
  intro i. rewrite existsb_exists. destruct S as [_ [_ F]]. rewrite Forall_forall in F. split.
  - intros [j [J E]]. apply Nat.eqb_eq in E. subst j. apply in_flat_map in J. destruct J as [c [C J]]. apply filter_In in C. destruct C as [C W].
    exists c. split; [exact C|]. split; [exact W|]. destruct (F c C) as [vs [H _]]. exists vs. split; [exact H|]. now apply (verts_of c vs H).
  - intros [c [C [W [vs [H I]]]]]. exists i. split; [|apply Nat.eqb_refl]. apply in_flat_map. exists c. split; [now apply filter_In|]. now apply (verts_of c vs H).
Qed.
Print Assumptions C154_back.

(** the same mesh, if every vertex is of a cell and the coordinates are read as they were *)
Theorem C154_same : forall (V : Type) always (m : mesh V), sound m ->
  (forall i, In i (map fst (m_verts m)) -> exists c, In c (m_cells m) /\ vertex_of c i) ->
  decode (write (fun _ => true) always (fun x => x) m) = Done m.
Proof.
  intros V always m S U. destruct (C154_back V (fun _ => true) always (fun x => x) m S) as [m' [used [D [C [W I]]]]]. rewrite D. f_equal.
  destruct m as [vs cs], m' as [vs' cs']. simpl in *. f_equal.
  - rewrite W. transitivity (map (fun e : nat * V => e) (filter (fun e => used (fst e)) vs)); [apply map_ext; now intros []|]. rewrite map_id.
    clear - U I. assert (A : forall e, In e vs -> used (fst e) = true). { intros e E. apply I. destruct (U (fst e) (in_map fst vs e E)) as [c [H1 H2]]. exists c. auto. }
    clear - A. induction vs as [|e vs IH]; [reflexivity|]. simpl. rewrite (A e) by now left. f_equal. apply IH. intros; apply A; now right.
  - rewrite C. clear. induction cs as [|c cs IH]; [reflexivity|]. simpl. now rewrite IH.
Qed.
Print Assumptions C154_same.

(** vertices that are of no cell are not written *)
Theorem C154_orphans_refuted : exists (m : mesh nat), sound m /\ m_verts m <> [] /\ forall always,
  decode (write (fun _ => true) always (fun x => x) m) = Done (Mesh [] []).
Proof.
  exists (Mesh [(1, 10); (2, 20)] []). split; [|split; [discriminate|intros []; vm_compute; reflexivity]].
  split; [repeat constructor; simpl; intuition lia|]. split; constructor.
Qed.
Print Assumptions C154_orphans_refuted.

(** a cell of a type that is not known is written, and the file is refused *)
Theorem C154_unknown : forall (V : Type) written always rt (m : mesh V) c, In c (m_cells m) -> written c = true -> snd (fst (fst c)) = UNDEFINED ->
  decode (write written always rt m) = Throws.
Proof.
  intros V written always rt m c I W T. apply (C153_unsupported V _ (-1)%Z).
  - simpl. apply in_map_iff. exists c. split; [now rewrite T|]. now apply filter_In.
  - intros t H. simpl in H. repeat (destruct H as [H|H]; [discriminate|]). exact H.
Qed.
Print Assumptions C154_unknown.

Definition whole : mesh nat := Mesh [(9, 90); (7, 70); (5, 50); (3, 30); (1, 10)]
  [(4, POLYHEDRON, [4; 3; 9; 7; 5; 3; 9; 7; 3; 3; 7; 5; 3; 3; 9; 5; 3], 2%Z); (2, TETRA, [1; 7; 5; 9], (-1)%Z)].
Example C154_nonvacuous : sound whole /\ decode (write (fun c => Nat.eqb (fst (fst (fst c))) 4) false S whole)
  = Done (Mesh [(9, 91); (7, 71); (5, 51); (3, 31)] [(4, POLYHEDRON, [4; 3; 9; 7; 5; 3; 9; 7; 3; 3; 7; 5; 3; 3; 9; 5; 3], 2%Z)]).
Proof.
  split; [|vm_compute; reflexivity].
  split; [simpl; repeat constructor; simpl; intuition lia|]. split; [simpl; repeat constructor; simpl; intuition lia|].
  constructor; [|constructor; [|constructor]].
  - exists (concat [[9; 7; 5]; [9; 7; 3]; [7; 5; 3]; [9; 5; 3]]). split; [apply (holds_polyhedron POLYHEDRON [[9; 7; 5]; [9; 7; 3]; [7; 5; 3]; [9; 5; 3]]); [reflexivity|discriminate]|].
    intros x X. simpl in *. intuition.
  - exists [1; 7; 5; 9]. split; [apply holds_other; discriminate|]. intros x X. simpl in *. intuition.
Qed.
