(** C151, C152: where a part is cut, and a field carried by a selection. *)
From Coq Require Import List Arith Bool Reals Lia.
From Verif Require Import Vec SharedPtr Field FieldSpec Obj ObjSpec ObjProofs Select SelectSpec SelectProofs SelectProps TriProofs DegProps Topo TopoSpec TopoProofs BorderSpec BorderProofs BorderProps Extract ExtractSpec ExtractProps Cut.
Import ListNotations.
Open Scope nat_scope.

(** * C151: the vertices where a part is cut *)

(** The vertices returned are those of the faces between the part and the rest of the geometry, each
    once; so all the border vertices of the part that are not on the border of the geometry are there. *)
Theorem C151_between : forall m part adj adj' face t, NoDup (map fst m) -> NoDup (map fst part) -> adjacent_right m adj -> adjacent_right part adj' -> faces_right part face -> t <> 3 ->
  (forall c fs, In (c, fs) part -> In (c, fs) m) ->
  let l := constrainedBoundary face (extractBoundaryFaceCellID t adj' (map fst part)) (extractBoundaryFaceCellID t adj (map fst m)) in
  NoDup l /\ (forall v, In v l <-> exists c f n, has_face part c f /\ In v f /\ across m c f n /\ forall k, ~ across part c f k) /\
  (forall v c f, free part c f -> In v f -> (forall d h, free m d h -> ~ In v h) -> In v l).
Proof.
  intros m part adj adj' face t N N' A A' F T Sub. cbv zeta.
  set (d := extractBoundaryFaceCellID t adj' (map fst part)). set (mo := extractBoundaryFaceCellID t adj (map fst m)). unfold constrainedBoundary, extractBoundaryVertexID.
  split; [apply NoDup_nodup|].
  assert (Fm : forall c i f, face_at part c i f -> face_at m c i f) by (intros c i f (fs & H & K); exists fs; split; [apply Sub, H|exact K]).
  assert (One : forall c i f f', face_at m c i f -> face_at m c i f' -> f = f').
  { intros c i f f' (fs & H & K) (fs' & H' & K'). assert (fs = fs') by (apply (faces_unique m N c fs fs' H H')). subst fs'. congruence. }
  assert (Sv : forall c i, (exists l, In (c, l) (survivors d mo) /\ In i l) <-> exists f, free_at part c i f /\ ~ free_at m c i f).
  { intros c i. unfold survivors. split.
    - intros (l & H & I). apply in_map_iff in H. destruct H as ((c', l') & E & H). cbn [fst snd] in E.
      assert (c' = c) by (destruct (SharedPtr.find c' mo); congruence). subst c'.
      destruct (SharedPtr.find c mo) as [lm|] eqn:Q.
      + injection E as <-. apply filter_In in I. destruct I as (I & Ng). destruct (proj1 (table_free part adj' N' A' t c i T) (ex_intro _ l' (conj H I))) as (f & Ff). exists f. split; [exact Ff|].
        intros Fr. destruct (proj2 (table_free m adj N A t c i T) (ex_intro _ f Fr)) as (l2 & H2 & I2).
        assert (l2 = lm). { apply (in_find _ c _ l2 (table_nodup m adj N t)) in H2. change (table m adj t) with mo in H2. congruence. } subst l2.
        rewrite negb_true_iff in Ng. assert (existsb (Nat.eqb i) lm = true) by (apply existsb_exists; exists i; split; [exact I2|apply Nat.eqb_refl]). congruence.
      + injection E as <-. destruct (proj1 (table_free part adj' N' A' t c i T) (ex_intro _ l' (conj H I))) as (f & Ff). exists f. split; [exact Ff|].
        intros Fr. destruct (proj2 (table_free m adj N A t c i T) (ex_intro _ f Fr)) as (l2 & H2 & I2).
        apply (in_find _ c _ l2 (table_nodup m adj N t)) in H2. change (table m adj t) with mo in H2. congruence.
    - intros (f & Ff & Nf). destruct (proj2 (table_free part adj' N' A' t c i T) (ex_intro _ f Ff)) as (l' & H & I). fold d in H.
      exists (match SharedPtr.find c mo with Some lm => filter (fun i => negb (existsb (Nat.eqb i) lm)) l' | None => l' end). split.
      + apply in_map_iff. exists (c, l'). split; [|exact H]. cbn [fst snd]. destruct (SharedPtr.find c mo); reflexivity.
      + destruct (SharedPtr.find c mo) as [lm|] eqn:Q; [|exact I]. apply filter_In. split; [exact I|]. rewrite negb_true_iff. destruct (existsb (Nat.eqb i) lm) eqn:X; [|reflexivity]. exfalso.
        apply existsb_exists in X. destruct X as (j & X & Ej). apply Nat.eqb_eq in Ej. subst j. apply Nf. apply find_in in Q.
        destruct (proj1 (table_free m adj N A t c i T) (ex_intro _ lm (conj Q X))) as (f' & Ff'). rewrite (One c i f f' (Fm c i f (proj1 Ff)) (proj1 Ff')). exact Ff'. }
  assert (Has : forall c i f, face_at part c i f -> has_face part c f) by (intros c i f (fs & H & K); exists fs; split; [exact H|apply (nth_error_In _ _ K)]).
  assert (At : forall c f, has_face part c f -> exists i, face_at part c i f) by (intros c f (fs & H & K); apply In_nth_error in K; destruct K as (i & K); exists i, fs; auto).
  assert (Dec : forall c i f, face_at m c i f -> (exists n, across m c f n) \/ forall n, ~ across m c f n).
  { intros c i f H. destruct (sharedb m (c, i)) eqn:E; [left; apply (sharedb_iff m c i f N H), E|]. right. intros n Q. assert (sharedb m (c, i) = true) by (apply (sharedb_iff m c i f N H); exists n; exact Q). congruence. }
  assert (Main : forall v, In v (nodup Nat.eq_dec (flat_map (fun e => flat_map (face (fst e)) (snd e)) (survivors d mo))) <-> exists c f n, has_face part c f /\ In v f /\ across m c f n /\ forall k, ~ across part c f k).
  { intros v. rewrite nodup_In, in_flat_map. split.
    - intros ((c, l) & H & K). cbn [fst snd] in K. apply in_flat_map in K. destruct K as (i & I & V). destruct (proj1 (Sv c i) (ex_intro _ l (conj H I))) as (f & Ff & Nf).
      rewrite (F c i f (proj1 Ff)) in V. destruct (Dec c i f (Fm c i f (proj1 Ff))) as [(n & Q)|Q].
      + exists c, f, n. split; [apply (Has c i f (proj1 Ff))|]. split; [exact V|]. split; [exact Q|exact (proj2 Ff)].
      + destruct Nf. split; [exact (Fm c i f (proj1 Ff))|exact Q].
    - intros (c & f & n & Hf & V & Q & Nq). destruct (At c f Hf) as (i & Fi). destruct (proj2 (Sv c i)) as (l & H & I).
      + exists f. split; [split; assumption|]. intros (_ & X). exact (X n Q).
      + exists (c, l). split; [exact H|]. cbn [fst snd]. apply in_flat_map. exists i. split; [exact I|]. rewrite (F c i f Fi). exact V. }
  split; [exact Main|]. intros v c f (Hf & Nf) V Out. apply Main. destruct (At c f Hf) as (i & Fi). destruct (Dec c i f (Fm c i f Fi)) as [(n & Q)|Q].
  - exists c, f, n. auto.
  - exfalso. apply (Out c f); [|exact V]. split; [|exact Q]. destruct Hf as (fs & H & K). exists fs. split; [apply Sub, H|exact K].
Qed.
Print Assumptions C151_between.

(** It also returns vertices of the border of the geometry: those where the cut meets it.  The
    documentation promises only vertices that are not there: here all the three returned are. *)
Definition one_tet : mesh := firstn 1 tets.
Theorem C151_border_refuted :
  (forall c fs, In (c, fs) one_tet -> In (c, fs) tets) /\ adjacent_right tets (adj_of tets) /\ adjacent_right one_tet (adj_of one_tet) /\ faces_right one_tet tets_face /\
  (let l := constrainedBoundary tets_face (extractBoundaryFaceCellID 2 (adj_of one_tet) [5]) (extractBoundaryFaceCellID 2 (adj_of tets) [5; 8]) in
   length l = 3 /\ forall v, In v l -> exists c f, free tets c f /\ In v f).
Proof.
  split; [intros c fs [H|[]]; left; exact H|]. split; [apply adj_of_right, tets_nodup|]. split; [apply adj_of_right, nodup_check; vm_compute; reflexivity|]. split.
  { intros c i f (fs & H & K). apply (get_face_at tets c i f tets_nodup). exists fs. split; [destruct H as [H|[]]; left; exact H|exact K]. }
  cbv zeta. assert (E : constrainedBoundary tets_face (extractBoundaryFaceCellID 2 (adj_of one_tet) [5]) (extractBoundaryFaceCellID 2 (adj_of tets) [5; 8]) = get_face tets (5, 2)) by (vm_compute; reflexivity).
  rewrite E. split; [vm_compute; reflexivity|].
  assert (Fr : forall c i, In (c, i) (filter (fun x => negb (sharedb tets x)) (places tets)) -> free tets c (get_face tets (c, i))).
  { intros c i H. destruct (proj2 (tets_free c i (get_face tets (c, i))) (conj H eq_refl)) as ((fs & B & Hi) & Q). split; [exists fs; split; [exact B|apply (nth_error_In _ _ Hi)]|exact Q]. }
  intros v H. assert (K : v = 1 \/ v = 2 \/ v = 3) by (vm_compute in H; lia).
  destruct K as [-> | [-> | ->]].
  - exists 5, (get_face tets (5, 0)). split; [apply Fr; vm_compute; tauto|vm_compute; tauto].
  - exists 5, (get_face tets (5, 0)). split; [apply Fr; vm_compute; tauto|vm_compute; tauto].
  - exists 5, (get_face tets (5, 1)). split; [apply Fr; vm_compute; tauto|vm_compute; tauto].
Qed.
Print Assumptions C151_border_refuted.
Example C151_nonvacuous : NoDup (map fst tets) /\ NoDup (map fst one_tet) /\ exists c f n, has_face one_tet c f /\ across tets c f n /\ (forall k, ~ across one_tet c f k) /\ In 2 f.
Proof.
  split; [exact tets_nodup|]. split; [apply nodup_check; vm_compute; reflexivity|]. exists 5, (get_face tets (5, 2)), 8.
  split; [exists (snd (hd (0, []) tets)); split; [left; reflexivity|vm_compute; tauto]|]. split; [|split].
  - split; [discriminate|]. exists (get_face tets (8, 0)). split; [eexists; split; [right; left; reflexivity|vm_compute; tauto]|]. intros v. vm_compute. tauto.
  - intros k (Ne & h & (fs & H & _) & _). destruct H as [H|[]]. injection H as H _. congruence.
  - vm_compute. tauto.
Qed.

(** * C152: a field carried by a selection by box *)

(** The first execution leaves the values of the field on the elements of the part, referred to it. *)
Theorem C152_carried : forall A kind mesh pid pid_list iface_of near g patch (f : fieldv A), sound_field mesh f -> v_geo f = Some g -> geom_ok (mesh patch) -> v_loc f <> LUndef ->
  (kind patch = 3 -> v_loc f = LPoint) ->
  exists r, box_field kind mesh pid pid_list iface_of near (Some g) patch f = Some r /\ portion f r patch (fun id => In id (elements_of (mesh patch) (v_loc f))).
Proof.
  intros A kind mesh pid pid_list iface_of near g patch f Sf G Gk L C. unfold box_field. rewrite G. cbn [same_geometry]. rewrite Nat.eqb_refl.
  assert (E : Nat.eqb (kind patch) 3 && negb (loc_eqb (v_loc f) LPoint) = false).
  { destruct (Nat.eqb_spec (kind patch) 3) as [K|K]; [|reflexivity]. rewrite (C K). reflexivity. }
  rewrite E. destruct (C95_id A kind mesh pid pid_list iface_of near patch f empty_field Sf Gk L) as (r & R & P). exists r. rewrite R. split; [reflexivity|exact P].
Qed.
Print Assumptions C152_carried.
(** The field of the block is replaced by the one extracted: whatever the part selected the next time,
    a second execution raises an exception. *)
Theorem C152_again_refuted : forall A kind mesh pid pid_list iface_of near g patch patch' (f r : fieldv A), patch <> g -> (kind patch = 3 -> v_loc f = LPoint) ->
  box_field kind mesh pid pid_list iface_of near (Some g) patch f = Some r -> box_field kind mesh pid pid_list iface_of near (Some g) patch' r = None.
Proof.
  intros A kind mesh pid pid_list iface_of near g patch patch' f r N C H. unfold box_field in H. destruct (same_geometry (v_geo f) (Some g)); [|discriminate].
  assert (E : Nat.eqb (kind patch) 3 && negb (loc_eqb (v_loc f) LPoint) = false).
  { destruct (Nat.eqb_spec (kind patch) 3) as [K|K]; [|reflexivity]. rewrite (C K). reflexivity. }
  rewrite E in H. destruct (extract _ _ _ _ _ _ ById (Some patch) f empty_field) as [[b r']|] eqn:X; try discriminate. injection H as <-.
  assert (G : v_geo r' = Some patch \/ v_geo r' = None).
  { unfold extract in X. destruct (v_geo f); [|injection X as _ <-; right; reflexivity]. destruct (negb _); [injection X as _ <-; right; reflexivity|]. destruct (extractID _ _ _ _); [|discriminate]. injection X as _ <-. left. reflexivity. }
  unfold box_field. destruct G as [-> | ->]; cbn [same_geometry]; [|reflexivity]. rewrite (proj2 (Nat.eqb_neq patch g) N). reflexivity.
Qed.
Print Assumptions C152_again_refuted.
(** A field with a value on an element its geometry does not have is replaced by an empty one that is
    on no geometry, without an exception. *)
Theorem C152_incoherent_refuted : forall A kind mesh pid pid_list iface_of near g patch id (f : fieldv A), v_geo f = Some g -> kind patch <> 3 ->
  In id (map fst (v_data f)) -> ~ In id (elements_of (mesh g) (v_loc f)) ->
  exists r, box_field kind mesh pid pid_list iface_of near (Some g) patch f = Some r /\ v_data r = [] /\ v_geo r = None.
Proof.
  intros A kind mesh pid pid_list iface_of near g patch id f G K H N. exists empty_field. split; [|split; reflexivity]. unfold box_field. rewrite G. cbn [same_geometry]. rewrite Nat.eqb_refl.
  rewrite (proj2 (Nat.eqb_neq _ _) K). cbn [andb]. rewrite C95_refused; [reflexivity|]. right. right. exists g, id. auto.
Qed.
Print Assumptions C152_incoherent_refuted.
(** A field that is not on points, with a cloud, is left as it is: on the whole geometry. *)
Theorem C152_cloud_refuted : forall A kind mesh pid pid_list iface_of near g patch (f : fieldv A), v_geo f = Some g -> kind patch = 3 -> v_loc f <> LPoint ->
  box_field kind mesh pid pid_list iface_of near (Some g) patch f = Some f.
Proof.
  intros A kind mesh pid pid_list iface_of near g patch f G K L. unfold box_field. rewrite G, K. cbn [same_geometry]. rewrite !Nat.eqb_refl.
  destruct (v_loc f); try reflexivity. contradiction.
Qed.
Print Assumptions C152_cloud_refuted.
Example C152_nonvacuous : exists mesh (f r : fieldv nat), sound_field mesh f /\ v_geo f = Some 0 /\ geom_ok (mesh 1) /\
  box_field (fun _ => 4) mesh (fun _ _ => 0) (fun _ => [0]) (fun _ _ => []) (fun _ _ => []) (Some 0) 1 f = Some r /\ v_data r = [(1, 7); (0, 5)] /\ v_geo r = Some 1.
Proof.
  exists (fun g => match g with 0 => segment 0 1 | _ => segment 1 0 end), {| v_geo := Some 0; v_loc := LPoint; v_name := 0; v_data := [(0, 5); (1, 7)] |}. eexists.
  assert (Ok : forall a b, a <> b -> geom_ok (segment a b)).
  { intros a b Ne. unfold geom_ok, segment. cbn. repeat split; repeat constructor; cbn; intuition. }
  split; [|split; [reflexivity|split; [apply Ok; lia|split; [reflexivity|split; reflexivity]]]].
  split; [cbn; repeat constructor; cbn; lia|]. exists 0. split; [reflexivity|]. split; [apply Ok; lia|]. intros id H. exact H.
Qed.
