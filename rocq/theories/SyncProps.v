(** The statuses of the structures of a geometry (C67, C68, C69). *)
From Coq Require Import List ZArith Bool Lia.
From Verif Require Import Sync SyncSpec SyncProofs SyncWitness.
Import ListNotations.
Open Scope Z_scope.

(** * C67 *)

(** After any sequence of calls on a new geometry, of any type, each structure whose status is SYNC
    describes the geometry as it is. *)
Theorem C67_histories : forall {C} type (ops : list (op C)) s',
  1 <= type <= 4 -> history ops (construct type) s' -> in_sync (fst s') (snd s').
Proof.
  intros C type ops s' T H. apply (history_inv ops (construct type) s' (construct_inv type T) H).
Qed.
Print Assumptions C67_histories.

(** A geometry made from lists, and a copy at the moment it is made, are in sync. *)
Theorem C67_made : forall {C} type (g : geo C) (o : obj C), in_sync g (snd (construct_lists type g)) /\ (in_sync g o -> in_sync g (copied g o)).
Proof.
  intros C type g o. split.
  - constructor; cbn; try discriminate; [destruct (negb (type =? 3)); discriminate|reflexivity].
  - intros [A B D E F G H]. constructor; cbn; try discriminate; auto.
Qed.
Print Assumptions C67_made.

(** Refuted for a copy, which shares the patch: a vertex moved through the other object leaves the
    box of the copy SYNC and old. *)
Theorem C67_copy_refuted : exists (ops : list (op Z)) g o, history ops (construct 1) (g, o) /\ in_sync g o /\ in_sync g (copied g o) /\
  ~ in_sync (fst (modifyVertex 7 99 (g, o))) (copied g o).
Proof.
  exists (story ++ [Update]), (fst told), (snd told). split; [exact told_history|].
  assert (in_sync (fst told) (snd told)) as I by (apply (C67_histories 1 (story ++ [Update]) told); [lia|exact told_history]).
  split; [exact I|]. split; [apply (C67_made 1); exact I|]. intros [_ _ _ _ _ B _]. specialize (B eq_refl). vm_compute in B. discriminate.
Qed.
Print Assumptions C67_copy_refuted.

(** Refuted for the argument of swap: its cells keep the numbering of the other geometry. *)
Theorem C67_swap_refuted : exists (ops ops' : list (op Z)) a x, history ops (construct 1) a /\ history ops' (construct 1) x /\
  in_sync (fst a) (snd a) /\ in_sync (fst x) (snd x) /\
  ~ in_sync (fst (snd (swap a x))) (snd (snd (swap a x))).
Proof.
  exists (story ++ [Update]), [AddVertex 0 1; AddVertex 1 2; AddVertex 2 3; AddCell 0 [0; 1; 2]; BuildPatchInfo; BuildPointConnectivity], told, other.
  split; [exact told_history|]. split; [exact other_history|].
  split; [apply (C67_histories 1 _ _ ltac:(lia) told_history)|]. split; [apply (C67_histories 1 _ _ ltac:(lia) other_history)|].
  intros [_ _ _ _ I _ _]. specialize (I eq_refl). vm_compute in I. discriminate.
Qed.
Print Assumptions C67_swap_refuted.

(** The object swap is called on is in sync. *)
Theorem C67_swap_partial : forall {C} (a x : geo C * obj C), in_sync (fst a) (snd a) -> in_sync (fst x) (snd x) ->
  in_sync (fst (fst (swap a x))) (snd (fst (swap a x))) /\ fst (fst (swap a x)) = fst x /\ fst (snd (swap a x)) = fst a.
Proof.
  intros C [ga oa] [gx ox] _ [A B D E F G H]. cbn in *. split; [|split; reflexivity]. constructor; cbn; auto; discriminate.
Qed.
Print Assumptions C67_swap_partial.

(** Refuted for the clean of a distributed geometry which deletes ghost cells. *)
Theorem C67_clean_refuted : exists (ops : list (op Z)) s (orphans : Z -> bool), history ops (construct 1) s /\
  let s' := fst (cleanGeometry_mpi (fst s) orphans s) in
  g_cells (fst s') <> g_cells (fst s) /\ snd (cleanGeometry_mpi (fst s) orphans s) = false /\ ~ in_sync (fst s') (snd s').
Proof.
  exists [AddVertex 0 1; AddVertex 1 2; AddVertex 2 3; AddCell 0 [0; 1; 2]; AddCell 1 [0; 1; 2]; BuildSkdTree; BuildPatchInfo].
  eexists. exists (fun c => c =? 1). split; [apply run_history; [repeat constructor|vm_compute; reflexivity]|].
  cbn zeta. split; [vm_compute; discriminate|]. split; [reflexivity|].
  intros [_ _ _ _ I _ _]. specialize (I eq_refl). vm_compute in I. discriminate.
Qed.
Print Assumptions C67_clean_refuted.

Example C67_nonvacuous : history (story ++ [Update]) (construct 1) told /\
  o_skdS (snd told) = Synced /\ o_kdS (snd told) = Synced /\ o_adjS (snd told) = Synced /\ o_intS (snd told) = Synced /\
  o_infoS (snd told) = Synced /\ o_bbS (snd told) = Synced /\ o_pcS (snd told) = Synced /\
  o_skd (snd told) = [(3, [10; 25; 30]); (8, [10; 30; 40])].
Proof. split; [exact told_history|]. repeat split. Qed.

(** * C68 *)

(** After an update, each structure which had been built before is SYNC again, and so is the box;
    one never built is left so. The tree of vertices needs a vertex; the adjacencies are also
    built if the interfaces have to be. *)
Theorem C68_update : forall {C} type (ops : list (op C)) g o s', 1 <= type <= 4 ->
  history ops (construct type) (g, o) -> update (g, o) = Some s' ->
  fst s' = g /\ in_sync g (snd s') /\
  refreshed (o_skdS o) (o_skdS (snd s')) /\ (g_verts g <> [] -> refreshed (o_kdS o) (o_kdS (snd s'))) /\
  (o_intS o <> Unsync -> refreshed (o_adjS o) (o_adjS (snd s'))) /\ (o_intS o = Unsync -> o_adjS o <> NotSupported -> o_adjS (snd s') = Synced) /\
  refreshed (o_intS o) (o_intS (snd s')) /\ refreshed (o_infoS o) (o_infoS (snd s')) /\
  o_bbS (snd s') = Synced /\ refreshed (o_pcS o) (o_pcS (snd s')).
Proof.
  intros C type ops g o s' T H U. pose proof (history_inv ops (construct type) (g, o) (construct_inv type T) H) as I. cbn [fst snd] in I.
  destruct (update_chain g o s' I U) as [K F]. destruct (update_refresh g o s' I U) as [A B _ D D' E G J L].
  split; [exact F|]. split; [apply (inv_sync g (snd s') K)|]. repeat (split; [assumption|]). assumption.
Qed.
Print Assumptions C68_update.

(** It ends without error exactly when the vertices of the cells exist, if the tree of cells is to
    be built again, and always otherwise. *)
Theorem C68_total : forall {C} type (ops : list (op C)) g o, 1 <= type <= 4 ->
  history ops (construct type) (g, o) -> clouds_kept ops (construct type) ->
  ((exists s', update (g, o) = Some s') <-> (o_skdS o = Unsync -> well_linked g)).
Proof.
  intros C type ops g o T H K. apply update_total. apply (history_tree ops (construct type) (g, o) K H).
  constructor; unfold isSkdTreeSupported; cbn; [destruct (type =? 3); reflexivity|]. intros N. apply Z.eqb_neq in N. rewrite N. reflexivity.
Qed.
Print Assumptions C68_total.

(** Refuted for the numbering of the cells of a geometry which was emptied: cells added later are
    not numbered, update after update. *)
Theorem C68_numbering_refuted : exists (ops : list (op Z)) g o, history ops (construct 1) (g, o) /\ update (g, o) = Some (g, o) /\
  g_cells g <> [] /\ o_infoS o = NoneS /\ o_info o = [].
Proof.
  exists refill, (fst refilled), (snd refilled). split; [exact refill_history|]. split; [vm_compute; reflexivity|]. split; [discriminate|]. split; reflexivity.
Qed.
Print Assumptions C68_numbering_refuted.

Example C68_nonvacuous : history story (construct 1) story_end /\ update story_end = Some told /\
  o_skdS (snd story_end) = Unsync /\ o_kdS (snd story_end) = Unsync /\ o_adjS (snd story_end) = Unsync /\ o_intS (snd story_end) = Unsync /\
  o_infoS (snd story_end) = Unsync /\ o_bbS (snd story_end) = NoneS /\ o_pcS (snd story_end) = Unsync.
Proof. split; [exact story_history|]. split; [vm_compute; reflexivity|]. repeat split. Qed.

(** * C69 *)

(** The tree of cells is available exactly for the types other than the point cloud, through any
    sequence of calls which does not empty the patch of a point cloud; building it then ends
    without error if the vertices of the cells exist. *)
Theorem C69_supported_partial : forall {C} type (ops : list (op C)) g o, 1 <= type <= 4 ->
  history ops (construct type) (g, o) -> clouds_kept ops (construct type) ->
  (isSkdTreeSupported o = true <-> o_type o <> 3) /\
  (well_linked g -> exists s', buildSkdTree (g, o) = Some s' /\ fst s' = g /\ (o_type o <> 3 -> o_skdS (snd s') = Synced) /\ (o_type o = 3 -> s' = (g, o))).
Proof.
  intros C type ops g o T H K.
  assert (tree_ok o) as I.
  { apply (history_tree ops (construct type) (g, o) K H).
    constructor; unfold isSkdTreeSupported; cbn; [destruct (type =? 3); reflexivity|]. intros N. apply Z.eqb_neq in N. rewrite N. reflexivity. }
  assert (isSkdTreeSupported o = true <-> o_type o <> 3) as S.
  { rewrite (tree_sup o I), negb_true_iff. apply Z.eqb_neq. }
  split; [exact S|]. intros W. unfold buildSkdTree. destruct (isSkdTreeSupported o) eqn:Q.
  - assert (o_type o <> 3) as N by (apply S; reflexivity). rewrite (tree_ptr o I N).
    destruct (proj1 (cell_boxes_ex (g_verts g) (g_cells g)) W) as [t ->].
    destruct (o_skdS o) eqn:Z; eexists; (split; [reflexivity|]); (split; [reflexivity|]); (split; [intros _; try exact Z; reflexivity|intros X; contradiction]).
  - eexists. split; [reflexivity|]. split; [reflexivity|]. split; [intros N; apply S in N; discriminate|reflexivity].
Qed.
Print Assumptions C69_supported_partial.

(** Refuted for geometries made from lists: the other way round, and the tree of a point cloud is
    then built through a null pointer. *)
Theorem C69_lists_refuted : forall {C} type (g : geo C), 1 <= type <= 4 ->
  (isSkdTreeSupported (snd (construct_lists type g)) = true <-> type = 3) /\
  buildSkdTree (construct_lists type g) = if type =? 3 then None else Some (construct_lists type g).
Proof.
  intros C type g T. unfold buildSkdTree, isSkdTreeSupported, construct_lists. cbn [snd o_skdS o_skdp]. destruct (type =? 3) eqn:E; cbn [negb].
  - apply Z.eqb_eq in E. split; [split; auto|reflexivity].
  - apply Z.eqb_neq in E. split; [split; [discriminate|contradiction]|reflexivity].
Qed.
Print Assumptions C69_lists_refuted.

(** Refuted for copies of point clouds, and for point clouds whose patch is emptied. *)
Theorem C69_cloud_refuted : forall {C} (g : geo C) (o : obj C), o_type o = 3 ->
  (isSkdTreeSupported (copied g o) = true /\ buildSkdTree (g, copied g o) = None) /\
  (o_skdS o = NotSupported -> o_skdp o = SkNull ->
   exists s', resetPatch (g, o) = Some s' /\ o_type (snd s') = 3 /\ isSkdTreeSupported (snd s') = true /\ buildSkdTree s' = None).
Proof.
  intros C g o T. split.
  - unfold buildSkdTree, isSkdTreeSupported, copied. cbn. rewrite T. split; reflexivity.
  - intros S P. unfold resetPatch, cleanSkdTree, isSkdTreeSupported. cbn [snd]. rewrite S. eexists. split; [reflexivity|].
    cbn [snd o_type]. split; [exact T|]. split; [reflexivity|]. unfold buildSkdTree, isSkdTreeSupported. cbn [o_skdS o_skdp]. rewrite P. reflexivity.
Qed.
Print Assumptions C69_cloud_refuted.

Example C69_nonvacuous : history story (construct 1) story_end /\ clouds_kept story (construct 1) /\ well_linked (fst story_end) /\
  o_type (snd (@construct Z 3)) = 3 /\ o_skdS (snd (@construct Z 3)) = NotSupported /\ o_skdp (snd (@construct Z 3)) = SkNull.
Proof.
  split; [exact story_history|]. split.
  { assert (forall ops s, Forall (fun a : op Z => a <> ResetPatch) ops -> clouds_kept ops s) as K.
    { induction ops as [|a ops IH]; intros s F; cbn; [exact I|]. inversion F; subst. split; [intros _; assumption|]. intros s1 _. apply IH. assumption. }
    apply K. repeat constructor; discriminate. }
  split; [|repeat split]. unfold well_linked. cbn. intros cell v Hc Hv.
  destruct Hc as [<-|[<-|[]]]; cbn in Hv; repeat (destruct Hv as [<-|Hv]); try destruct Hv; eexists; eauto 8.
Qed.
