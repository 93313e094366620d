(** C91: the border of a geometry. *)
From Coq Require Import String List Arith Bool ZArith Reals Lia Permutation.
From Verif Require Import Vec SharedPtr Obj ObjSpec ObjProofs PidProps Select SelectSpec SelectProofs SelectProps TriProofs DegProps Topo TopoSpec TopoProofs TopoProps BorderSpec BorderProofs.
Import ListNotations.
Open Scope list_scope.
Open Scope nat_scope.

(** The faces, the cells and the vertices of the border are those of the free faces, each once. *)
Theorem C91_border : forall m adj face t, NoDup (map fst m) -> adjacent_right m adj -> faces_right m face -> t <> 3 ->
  let r := extractBoundaryFaceCellID t adj (map fst m) in
  (forall c i, (exists l, In (c, l) r /\ In i l) <-> exists f, free_at m c i f) /\
  NoDup (map fst r) /\ (forall c l, In (c, l) r -> NoDup l) /\
  NoDup (extractBoundaryCellID r) /\ (forall c, In c (extractBoundaryCellID r) <-> exists f, free m c f) /\
  NoDup (extractBoundaryVertexID face r) /\ (forall v, In v (extractBoundaryVertexID face r) <-> exists c f, free m c f /\ In v f).
Proof.
  intros m adj face t N A F T. cbv zeta. change (extractBoundaryFaceCellID t adj (map fst m)) with (table m adj t).
  assert (At : forall c f, free m c f <-> exists i, free_at m c i f).
  { intros c f. split.
    - intros ((fs & H & Hf) & Q). apply In_nth_error in Hf. destruct Hf as (i & Hi). exists i. split; [exists fs; split; assumption|exact Q].
    - intros (i & (fs & H & Hi) & Q). split; [exists fs; split; [exact H|apply (nth_error_In _ _ Hi)]|exact Q]. }
  split; [intros c i; apply (table_free m adj N A t c i T)|]. split; [apply (table_nodup m adj N t)|]. split.
  { intros c l H. apply (table_in m adj t c l T) in H. destruct H as (_ & -> & _). apply border_faces_nodup. }
  split; [apply (table_nodup m adj N t)|]. split.
  { intros c. unfold extractBoundaryCellID. rewrite in_map_iff. split.
    - intros ((d, l) & E & H). cbn [fst] in E. subst d. destruct l as [|i l]; [apply (table_in m adj t c [] T) in H; destruct H as (_ & _ & H); contradiction|].
      destruct (proj1 (table_free m adj N A t c i T)) as (f & Hf); [exists (i :: l); split; [exact H|left; reflexivity]|]. exists f. apply At. exists i. exact Hf.
    - intros (f & Hf). apply At in Hf. destruct Hf as (i & Hf). destruct (proj2 (table_free m adj N A t c i T)) as (l & H & _); [exists f; exact Hf|]. exists (c, l). split; [reflexivity|exact H]. }
  split; [apply NoDup_nodup|]. intros v. rewrite (vertices_in m adj N A t face v T F). split.
  - intros (c & i & f & Hf & V). exists c, f. split; [apply At; exists i; exact Hf|exact V].
  - intros (c & f & Hf & V). apply At in Hf. destruct Hf as (i & Hf). exists c, i, f. split; assumption.
Qed.
Print Assumptions C91_border.

(** A cloud has no border, and a mesh has none exactly when it is closed. *)
Theorem C91_none : forall m adj t, NoDup (map fst m) -> adjacent_right m adj ->
  extractBoundaryFaceCellID 3 adj (map fst m) = [] /\
  (t <> 3 -> (extractBoundaryFaceCellID t adj (map fst m) = [] <-> watertight m)).
Proof.
  intros m adj t N A. split; [reflexivity|]. intros T. change (extractBoundaryFaceCellID t adj (map fst m)) with (table m adj t). split.
  - intros E c f ((fs & H & Hf) & Q). apply In_nth_error in Hf. destruct Hf as (i & Hi).
    destruct (proj2 (table_free m adj N A t c i T)) as (l & J & _); [exists f; split; [exists fs; split; assumption|exact Q]|]. rewrite E in J. destruct J.
  - intros W. destruct (table m adj t) as [|(c, l) r] eqn:E; [reflexivity|]. exfalso.
    assert (H : In (c, l) (table m adj t)) by (rewrite E; left; reflexivity). destruct l as [|i l]; [apply (table_in m adj t c [] T) in H; destruct H as (_ & _ & H); contradiction|].
    destruct (proj1 (table_free m adj N A t c i T)) as (f & (fs & Hc & Hi) & Q); [exists (i :: l); split; [exact H|left; reflexivity]|].
    apply (W c f). split; [exists fs; split; [exact Hc|apply (nth_error_In _ _ Hi)]|exact Q].
Qed.
Print Assumptions C91_none.

Lemma border_mesh_ok : forall g m adj face interf shape owner, (forall c b, In (c, b) (o_cells g) -> int_range (c_pid b)) -> usable g -> mesh_of m g ->
  adjacent_right m adj -> faces_right m face -> interfaces_right m interf shape owner -> o_type g = 1 \/ o_type g = 2 \/ o_type g = 4 ->
  exists r, extractBoundaryMesh adj face interf shape owner g = Some r /\ usable r /\
  (o_type g = 2 -> o_type r = 1) /\ (o_type g = 1 -> o_type r = 4) /\ (o_type g = 4 -> o_type r = 3) /\
  (forall k e, In (k, e) (o_cells r) <-> exists c i f b, free_at m c i f /\ In (c, b) (o_cells g) /\ k = interf c i /\ e = Cl (fst (shape k)) (snd (shape k)) (c_pid b)) /\
  (forall v x, In (v, x) (o_verts r) <-> In (v, x) (o_verts g) /\ exists c f, free m c f /\ In v f) /\
  (forall p, In p (o_pids r) <-> exists c i f, free_at m c i f /\ carries g c p) /\
  (forall p s, named r p s -> s = EmptyString).
Proof.
  intros g m adj face interf shape owner Rg U (M1 & M2) A F (I1 & I2) T.
  pose proof U as ((Dv & Dc) & Sd & Cd). assert (N : NoDup (map fst m)) by (rewrite M1; exact Dc).
  assert (T3 : o_type g <> 3) by lia.
  assert (At : forall c f, free m c f <-> exists i, free_at m c i f).
  { intros c f. split.
    - intros ((fs & B & Hf) & Q). apply In_nth_error in Hf. destruct Hf as (i & Hi). exists i. split; [exists fs; split; assumption|exact Q].
    - intros (i & (fs & B & Hi) & Q). split; [exists fs; split; [exact B|apply (nth_error_In _ _ Hi)]|exact Q]. }
  unfold extractBoundaryMesh. cbv zeta. rewrite <- M1. change (extractBoundaryFaceCellID (o_type g) adj (map fst m)) with (table m adj (o_type g)).
  set (tab := table m adj (o_type g)).
  assert (Vin : forall v, In v (extractBoundaryVertexID face tab) <-> exists c i f, free_at m c i f /\ In v f) by (intros v; apply (vertices_in m adj N A _ face v T3 F)).
  assert (Kin : forall k, In k (extractBoundaryInterfaceID interf tab) <-> exists c i f, free_at m c i f /\ interf c i = k) by (intros k; apply (interfaces_in m adj N A _ interf k T3)).
  assert (Own : forall c i f, free_at m c i f -> exists b, In (c, b) (o_cells g)).
  { intros c i f Q. pose proof (face_known m c i f (proj1 Q)) as K. rewrite M1 in K. apply in_map_iff in K. destruct K as ((d, b) & E & K). cbn [fst] in E. subst d. exists b. exact K. }
  destruct (copy_verts_ok (extractBoundaryVertexID face tab) g (new_obj (boundary_type (o_type g)))) as (r0 & -> & R1 & R2 & R3 & R4 & R5 & R6 & R7).
  - exact Dv.
  - constructor.
  - intros e [].
  - intros v V. apply Vin in V. destruct V as (c & i & f & Q & V). destruct (proj2 (At c f) (ex_intro _ i Q)) as (Hf & _).
    destruct (M2 c f v Hf V) as (k & K1 & K2). apply (Cd c k v K1 K2).
  - destruct (border_cells_ok shape owner g (extractBoundaryInterfaceID interf tab) r0) as (r & -> & E1 & E2 & E3 & E4 & E5 & E6 & E7).
    + apply NoDup_nodup.
    + intros k _. rewrite R3. intros [].
    + unfold pid_ok. rewrite R3, R4, R5. cbn. repeat split; try constructor; intros; tauto.
    + rewrite R4. intros p [].
    + rewrite R5. intros e [].
    + intros k K. apply Kin in K. destruct K as (c & i & f & Q & E). destruct (I1 c i f Q) as (J1 & J2 & J3 & J4). rewrite E in *. split; [|split].
      * apply coherent_iff. split; [exists [f]; exact J2|]. split; [|intros Z; contradiction]. intros Z. rewrite Z in J2. specialize (J4 Z).
        inversion J2 as [t0 l0 n0 Q1 Q2 Q3|l0 Q1 Q2|]; [discriminate|]. cbn [length]. lia.
      * intros Z. rewrite Z in J2. inversion J2 as [t0 l0 n0 Q1 Q2 Q3| |]. destruct (fst (shape k)); cbn in Q1; rewrite <- ?Q2 in Q1; discriminate.
      * destruct (Own c i f Q) as (b & B). exists b. split; [rewrite J1; apply (in_find _ c _ b Dc B)|]. apply (Rg c b B).
    + rewrite R3 in E4. cbn [new_obj o_cells List.app] in E4.
      assert (Cells : forall k e, In (k, e) (o_cells r) <-> exists c i f b, free_at m c i f /\ In (c, b) (o_cells g) /\ k = interf c i /\ e = Cl (fst (shape k)) (snd (shape k)) (c_pid b)).
      { intros k e. rewrite E4, in_map_iff. split.
        - intros (k' & Q & K). apply Kin in K. destruct K as (c & i & f & Fa & E). unfold bcell in Q. injection Q as -> Q.
          destruct (Own c i f Fa) as (b & B). exists c, i, f, b. split; [exact Fa|]. split; [exact B|]. split; [congruence|].
          destruct (I1 c i f Fa) as (J1 & _). rewrite E in J1. rewrite J1, (in_find _ c _ b Dc B) in Q. congruence.
        - intros (c & i & f & b & Fa & B & -> & ->). exists (interf c i). split.
          + destruct (I1 c i f Fa) as (J1 & _). unfold bcell. rewrite J1, (in_find _ c _ b Dc B). reflexivity.
          + apply Kin. exists c, i, f. split; [exact Fa|reflexivity]. }
      assert (Verts : forall v x, In (v, x) (o_verts r) <-> In (v, x) (o_verts g) /\ exists c f, free m c f /\ In v f).
      { intros v x. rewrite E3, R7. cbn [new_obj o_verts]. rewrite Vin. split.
        - intros [[]|((c & i & f & Q & V) & G)]. split; [exact G|]. exists c, f. split; [apply At; exists i; exact Q|exact V].
        - intros (G & c & f & Q & V). right. split; [|exact G]. apply At in Q. destruct Q as (i & Q). exists c, i, f. split; assumption. }
      exists r. split; [reflexivity|]. split; [split; [split|split]|].
      * unfold distinct. rewrite E3. exact R6.
      * unfold distinct. rewrite E4, map_map. cbn [bcell fst]. rewrite map_id. apply NoDup_nodup.
      * intros k e K. apply Cells in K. destruct K as (c & i & f & b & Fa & _ & -> & ->). destruct (I1 c i f Fa) as (_ & J2 & _). exists [f]. exact J2.
      * intros k e v K V. apply Cells in K. destruct K as (c & i & f & b & Fa & _ & -> & ->). destruct (I1 c i f Fa) as (_ & J2 & _).
        destruct V as (fs & h & V1 & V2 & V3). cbn [c_type c_conn] in V1.
        assert (fs = [f]) by (apply (means_unique _ _ _ _ V1 J2)). subst fs. destruct V2 as [<- | []].
        destruct (proj2 (At c f) (ex_intro _ i Fa)) as (Hf & Q). destruct (M2 c f v Hf V3) as (kk & K1 & K2). pose proof (Cd c kk v K1 K2) as G.
        apply in_map_iff in G. destruct G as ((w, x) & E & G). cbn [fst] in E. subst w. apply in_map_iff. exists (v, x). split; [reflexivity|]. apply Verts. split; [exact G|].
        exists c, f. split; [split; assumption|exact V3].
      * rewrite E1, R1. cbn [new_obj o_type]. repeat (split; [intros ->; reflexivity|]). split; [exact Cells|]. split; [exact Verts|]. split.
        -- intros p. split.
           ++ intros P. destruct (E6 p P) as (k & e & K & Pe). apply Cells in K. destruct K as (c & i & f & b & Fa & B & -> & ->). exists c, i, f. split; [exact Fa|]. exists b. split; [exact B|exact Pe].
           ++ intros (c & i & f & Fa & b & B & <-). destruct E5 as (Q & _).
              apply (Q (interf c i) (Cl (fst (shape (interf c i))) (snd (shape (interf c i))) (c_pid b))). apply Cells. exists c, i, f, b. auto.
        -- intros p s P. apply (E7 (p, s) P).
Qed.
(** The mesh of the border: a cell on each free face, with the id of its interface and the PID of the
    cell it bounds; the vertices of these faces, with their ids, where they are.  After any history
    of the geometry.  The names of the PIDs are not inherited: all are empty. *)
Theorem C91_mesh : forall fr g m adj face interf shape owner, new_ids fr -> pid_history fr g -> usable g -> mesh_of m g ->
  adjacent_right m adj -> faces_right m face -> interfaces_right m interf shape owner -> o_type g = 1 \/ o_type g = 2 \/ o_type g = 4 ->
  exists r, extractBoundaryMesh adj face interf shape owner g = Some r /\ usable r /\
  (o_type g = 2 -> o_type r = 1) /\ (o_type g = 1 -> o_type r = 4) /\ (o_type g = 4 -> o_type r = 3) /\
  (forall k e, In (k, e) (o_cells r) <-> exists c i f b, free_at m c i f /\ In (c, b) (o_cells g) /\ k = interf c i /\ e = Cl (fst (shape k)) (snd (shape k)) (c_pid b)) /\
  (forall v x, In (v, x) (o_verts r) <-> In (v, x) (o_verts g) /\ exists c f, free m c f /\ In v f) /\
  (forall p, In p (o_pids r) <-> exists c i f, free_at m c i f /\ carries g c p) /\
  (forall p s, named r p s -> s = EmptyString).
Proof.
  intros fr g m adj face interf shape owner Fr H. apply border_mesh_ok. intros c b B. apply (history_int fr g Fr H c b B).
Qed.
Print Assumptions C91_mesh.

(** The border of a volume is closed: when in each cell a side belongs to two faces, when faces that
    match have the same sides and when no face belongs to more than two cells, every side of a free face
    belongs to another free face; so the check on the mesh of the border says it is closed. *)
Theorem C91_closed : forall m bm interf adj, NoDup (map fst m) -> solid_cells m -> conforming m ->
  (forall c i f d j h, free_at m c i f -> free_at m d j h -> interf c i = interf d j -> c = d /\ i = j) ->
  NoDup (map fst bm) -> adjacent_right bm adj ->
  (forall k es, In (k, es) bm <-> exists c i f, free_at m c i f /\ k = interf c i /\ es = map (fun s => [fst s; snd s]) (ring_sides f)) ->
  watertight bm /\ isClosedLoop adj (map fst bm) = true.
Proof.
  intros m bm interf adj N So Co I2 Nb Ab B.
  assert (W : watertight bm).
  { intros k e ((es & K & He) & Q). apply B in K. destruct K as (c & i & f & Fa & -> & ->). apply in_map_iff in He. destruct He as ((a, b) & <- & He).
    destruct (border_sides m N So Co c i f a b Fa (or_introl He)) as (d & j & h & Fb & Sh & Ne). apply (Q (interf d j)). split.
    - intros E. destruct (I2 d j h c i f Fb Fa E) as (-> & ->). apply Ne. reflexivity.
    - cbn [fst snd]. assert (K : In (interf d j, map (fun s => [fst s; snd s]) (ring_sides h)) bm) by (apply B; exists d, j, h; auto).
      destruct Sh as [Sh|Sh].
      + exists [a; b]. split; [|intros v; reflexivity]. eexists. split; [exact K|]. apply in_map_iff. exists (a, b). split; [reflexivity|exact Sh].
      + exists [b; a]. split; [|intros v; cbn; tauto]. eexists. split; [exact K|]. apply in_map_iff. exists (b, a). split; [reflexivity|exact Sh]. }
  split; [exact W|]. apply (C90_closed bm adj Nb Ab), W.
Qed.
Print Assumptions C91_closed.

(** Two tetrahedra with a face in common: the six other faces make their border. *)
Definition tets : mesh := [(5, [[1; 0; 2]; [0; 3; 2]; [3; 1; 2]; [0; 1; 3]]); (8, [[2; 1; 3]; [1; 4; 3]; [4; 2; 3]; [1; 2; 4]])].
Lemma tets_faces : forall c i f, face_at tets c i f ->
  (c = 5 /\ (i = 0 /\ f = [1; 0; 2] \/ i = 1 /\ f = [0; 3; 2] \/ i = 2 /\ f = [3; 1; 2] \/ i = 3 /\ f = [0; 1; 3])) \/
  (c = 8 /\ (i = 0 /\ f = [2; 1; 3] \/ i = 1 /\ f = [1; 4; 3] \/ i = 2 /\ f = [4; 2; 3] \/ i = 3 /\ f = [1; 2; 4])).
Proof.
  intros c i f (fs & H & E). cbn [In tets] in H. destruct H as [H|[H|[]]]; injection H as <- <-;
    (destruct i as [|[|[|[|i]]]]; [| | | |destruct i; discriminate E]); cbn in E; injection E as <-; [left|left|left|left|right|right|right|right]; (split; [reflexivity|]); tauto.
Qed.
Ltac tet_case H := apply tets_faces in H; destruct H as [[-> [[-> ->]|[[-> ->]|[[-> ->]|[-> ->]]]]]|[-> [[-> ->]|[[-> ->]|[[-> ->]|[-> ->]]]]]].
Lemma tet_at : forall c i fs f, In (c, fs) tets -> nth_error fs i = Some f -> face_at tets c i f.
Proof. intros c i fs f H E. exists fs. split; assumption. Qed.
Ltac tet_give := (eapply tet_at; [first [left; reflexivity|right; left; reflexivity]|reflexivity]).
Lemma tets_solid : solid_cells tets.
Proof.
  intros c i f a b H Si. 
  assert (Q : exists j h, j <> i /\ face_at tets c j h /\ sideb h a b = true /\ forall k g, face_at tets c k g -> sideb g a b = true -> k = i \/ k = j).
  { tet_case H; unfold side in Si; cbn [ring_sides combine tl firstn List.app In] in Si;
      repeat match type of Si with _ \/ _ => destruct Si as [Si|Si] end; try contradiction; injection Si as <- <-;
      first
      [ exists 0; eexists; split; [discriminate|]; split; [tet_give|]; split; [vm_compute; reflexivity|]; intros k g K E; apply tets_faces in K; destruct K as [[K0 K]|[K0 K]]; try discriminate K0; destruct K as [[-> ->]|[[-> ->]|[[-> ->]|[-> ->]]]]; first [left; reflexivity|right; reflexivity|exfalso; vm_compute in E; discriminate E]
      | exists 1; eexists; split; [discriminate|]; split; [tet_give|]; split; [vm_compute; reflexivity|]; intros k g K E; apply tets_faces in K; destruct K as [[K0 K]|[K0 K]]; try discriminate K0; destruct K as [[-> ->]|[[-> ->]|[[-> ->]|[-> ->]]]]; first [left; reflexivity|right; reflexivity|exfalso; vm_compute in E; discriminate E]
      | exists 2; eexists; split; [discriminate|]; split; [tet_give|]; split; [vm_compute; reflexivity|]; intros k g K E; apply tets_faces in K; destruct K as [[K0 K]|[K0 K]]; try discriminate K0; destruct K as [[-> ->]|[[-> ->]|[[-> ->]|[-> ->]]]]; first [left; reflexivity|right; reflexivity|exfalso; vm_compute in E; discriminate E]
      | exists 3; eexists; split; [discriminate|]; split; [tet_give|]; split; [vm_compute; reflexivity|]; intros k g K E; apply tets_faces in K; destruct K as [[K0 K]|[K0 K]]; try discriminate K0; destruct K as [[-> ->]|[[-> ->]|[[-> ->]|[-> ->]]]]; first [left; reflexivity|right; reflexivity|exfalso; vm_compute in E; discriminate E] ]. }
  destruct Q as (j & h & Q1 & Q2 & Q3 & Q4). exists j, h. split; [exact Q1|]. split; [exact Q2|]. split; [apply sideb_iff, Q3|].
  intros k g K E. apply (Q4 k g K), sideb_iff, E.
Qed.
Lemma tets_conforming : conforming tets.
Proof.
  split; [|split].
  - intros c i f d j h H J Q a b Si. apply sameb_iff in Q. apply sideb_iff.
    tet_case H; tet_case J; try (exfalso; vm_compute in Q; discriminate Q);
      unfold side in Si; cbn [ring_sides combine tl firstn List.app In] in Si; repeat match type of Si with _ \/ _ => destruct Si as [Si|Si] end; try contradiction; injection Si as <- <-; vm_compute; reflexivity.
  - intros c i f j h H J Q. apply sameb_iff in Q. apply tets_faces in H, J. destruct H as [[Hc H]|[Hc H]]; destruct J as [[Jc J]|[Jc J]]; try congruence;
      destruct H as [[-> ->]|[[-> ->]|[[-> ->]|[-> ->]]]]; destruct J as [[-> ->]|[[-> ->]|[[-> ->]|[-> ->]]]]; try reflexivity; exfalso; vm_compute in Q; discriminate Q.
  - assert (K : forall c f n, across tets c f n -> n <> c /\ (n = 5 \/ n = 8)).
    { intros c f n (Ne & h & (fs & H & _) & _). split; [exact Ne|]. cbn in H. destruct H as [H|[H|[]]]; injection H as <- _; tauto. }
    intros c i f n n' H A B. apply K in A, B. apply tets_faces in H. lia.
Qed.

(** The volume of the two tetrahedra, of PIDs 3 and 6. *)
Definition tets_obj : obj :=
  let g := points 2 [(0, 0, 0); (1, 0, 0); (0, 1, 0); (0, 0, 1); (1, 1, 1)]%Z in
  let g := snd (addConnectedCell fresh [0; 1; 2; 3] ETetra 3%Z (Some 5) g) in
  let g := snd (addConnectedCell fresh [1; 2; 3; 4] ETetra 6%Z (Some 8) g) in
  snd (setPIDName 6 "tip"%string g).
Definition tets_face (c i : nat) : list nat := get_face tets (c, i).
Definition tets_interf (c i : nat) : nat := c * 10 + i.
Definition tets_shape (k : nat) : elem * list nat := (ETriangle, tets_face (k / 10) (k mod 10)).
Definition tets_owner (k : nat) : nat := k / 10.
Definition tets_border : mesh :=
  map (fun x => (tets_interf (fst x) (snd x), map (fun s => [fst s; snd s]) (ring_sides (get_face tets x)))) (filter (fun x => negb (sharedb tets x)) (places tets)).
Lemma tets_nodup : NoDup (map fst tets).
Proof. apply nodup_check. vm_compute. reflexivity. Qed.
Lemma tets_free : forall c i f, free_at tets c i f <-> In (c, i) (filter (fun x => negb (sharedb tets x)) (places tets)) /\ f = get_face tets (c, i).
Proof.
  intros c i f. rewrite filter_In, places_in, negb_true_iff. split.
  - intros (F & Q). split; [split; [exists f; exact F|]|symmetry; apply (get_face_at tets c i f tets_nodup F)].
    destruct (sharedb tets (c, i)) eqn:E; [|reflexivity]. apply (sharedb_iff tets c i f tets_nodup F) in E. destruct E as (n & E). destruct (Q n E).
  - intros (((h & F) & E) & ->). rewrite (get_face_at tets c i h tets_nodup F). split; [exact F|]. intros n Hn.
    pose proof (proj2 (sharedb_iff tets c i h tets_nodup F) (ex_intro _ n Hn)). congruence.
Qed.
Lemma tets_interf_one : forall c i f d j h, free_at tets c i f -> free_at tets d j h -> tets_interf c i = tets_interf d j -> c = d /\ i = j.
Proof. intros c i f d j h (F & _) (G & _). apply tets_faces in F, G. unfold tets_interf. lia. Qed.
Example C91_nonvacuous :
  pid_history fresh tets_obj /\ usable tets_obj /\ mesh_of tets tets_obj /\ adjacent_right tets (adj_of tets) /\ faces_right tets tets_face /\
  interfaces_right tets tets_interf tets_shape tets_owner /\ o_type tets_obj = 2 /\ solid_cells tets /\ conforming tets /\
  (NoDup (map fst tets_border) /\ adjacent_right tets_border (adj_of tets_border) /\
   forall k es, In (k, es) tets_border <-> exists c i f, free_at tets c i f /\ k = tets_interf c i /\ es = map (fun s => [fst s; snd s]) (ring_sides f)) /\
  extractBoundaryFaceCellID 2 (adj_of tets) [5; 8] = [(5, [0; 1; 3]); (8, [1; 2; 3])] /\
  option_map o_cells (extractBoundaryMesh (adj_of tets) tets_face tets_interf tets_shape tets_owner tets_obj) =
   Some [(50, Cl ETriangle [1; 0; 2] 3); (51, Cl ETriangle [0; 3; 2] 3); (53, Cl ETriangle [0; 1; 3] 3);
         (81, Cl ETriangle [1; 4; 3] 6); (82, Cl ETriangle [4; 2; 3] 6); (83, Cl ETriangle [1; 2; 4] 6)].
Proof.
  assert (Nb : NoDup (map fst tets_border)) by (apply nodup_check; vm_compute; reflexivity).
  assert (Cs : o_cells tets_obj = [(5, Cl ETetra [0; 1; 2; 3] 3); (8, Cl ETetra [1; 2; 3; 4] 6)]) by (vm_compute; reflexivity).
  split; [unfold tets_obj; cbv zeta; eapply ph_call; [|apply pc_name]; do 2 (eapply ph_call; [|apply pc_conn; unfold int_range; lia]); apply points_history|].
  split; [apply usable_check; vm_compute; reflexivity|]. split.
  { split; [rewrite Cs; reflexivity|]. intros c f v (fs & H & Hf) Hv. rewrite Cs.
    apply In_nth_error in Hf. destruct Hf as (i & Hi). pose proof (tet_at c i fs f H Hi) as F. clear H Hi.
    assert (P : (c = 5 /\ In v [0; 1; 2; 3]) \/ (c = 8 /\ In v [1; 2; 3; 4])).
    { tet_case F; cbn [In] in Hv |- *; lia. }
    destruct P as [(-> & P)|(-> & P)].
    - eexists. split; [left; reflexivity|]. exists [[0; 1; 2; 3]], [0; 1; 2; 3]. split; [apply (means_fixed _ _ 4); reflexivity|]. split; [left; reflexivity|exact P].
    - eexists. split; [right; left; reflexivity|]. exists [[1; 2; 3; 4]], [1; 2; 3; 4]. split; [apply (means_fixed _ _ 4); reflexivity|]. split; [left; reflexivity|exact P]. }
  split; [apply adj_of_right, tets_nodup|]. split; [intros c i f F; apply (get_face_at tets c i f tets_nodup F)|]. split.
  { split; [|exact tets_interf_one]. intros c i f (F & _). split; [|split; [|split; discriminate]].
    - unfold tets_owner, tets_interf. tet_case F; reflexivity.
    - tet_case F; apply (means_fixed _ _ 3); reflexivity. }
  split; [reflexivity|]. split; [exact tets_solid|]. split; [exact tets_conforming|]. split.
  { split; [exact Nb|]. split; [apply adj_of_right, Nb|]. intros k es. unfold tets_border. rewrite in_map_iff. split.
    - intros ((c, i) & E & H). injection E as <- <-. exists c, i, (get_face tets (c, i)). split; [apply tets_free; split; [exact H|reflexivity]|]. split; reflexivity.
    - intros (c & i & f & F & -> & ->). apply tets_free in F. destruct F as (F & ->). exists (c, i). split; [reflexivity|exact F]. }
  split; [vm_compute; reflexivity|]. vm_compute. reflexivity.
Qed.
