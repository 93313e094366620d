(** C80-C82: connectivities, rebuilding a geometry from its lists, lists of vertices and cells. *)
From Coq Require Import String List Arith Bool ZArith Reals Lia Lra.
From Verif Require Import Vec SharedPtr Obj ObjSpec ObjProofs.
Import ListNotations.
Open Scope list_scope.
Open Scope nat_scope.

(** * C80 *)

(** A connectivity has one meaning, and the check accepts the ones that have a meaning for the
    element, polygons having two vertices at least and polyhedra nine entries at least. *)
Theorem C80_coherent : forall t l,
  (checkCellConnCoherence t l = true <-> (exists fs, means t l fs) /\ (t = EPolygon -> 3 <= length l) /\ (t = EPolyhedron -> 9 <= length l)) /\
  (forall fs fs', means t l fs -> means t l fs' -> fs = fs').
Proof. intros t l. split; [apply coherent_iff|]. intros fs fs'. apply means_unique. Qed.
Print Assumptions C80_coherent.

(** A cell is added exactly when its connectivity is not empty and makes sense, and its id is free;
    then the geometry has that cell more, with the id asked for, and nothing else changes;
    otherwise nothing changes at all. *)
Theorem C80_add : forall fr l t p id g, new_ids fr -> int_range p ->
  let g' := snd (addConnectedCell fr l t p id g) in
  match fst (addConnectedCell fr l t p id g) with
  | Some i => ~ In i (map fst (o_cells g)) /\ o_cells g' = o_cells g ++ [(i, Cl t l p)] /\ o_verts g' = o_verts g /\ o_type g' = o_type g /\ o_tol g' = o_tol g /\
              (forall j, id = Some j -> i = j) /\ exists fs, means t l fs
  | None => g' = g
  end /\
  (fst (addConnectedCell fr l t p id g) = None <-> l = [] \/ (exists i, id = Some i /\ In i (map fst (o_cells g))) \/ checkCellConnCoherence t l = false).
Proof.
  intros fr l t p id g F R0. cbv zeta. split.
  - destruct (addConnectedCell_cases fr l t p id g) as [-> | [i [-> [Hl [Co [Hn ->]]]]]]; cbn [fst snd]; [reflexivity|].
    pose proof (pick_new fr id (o_cells g) F Hn) as New. rewrite add_cell_eq by exact New. cbn [o_cells o_verts o_type o_tol]. rewrite to_int_id by exact R0.
    split; [exact New|]. split; [reflexivity|]. split; [reflexivity|]. split; [reflexivity|]. split; [reflexivity|]. split; [intros j ->; reflexivity|].
    apply coherent_iff in Co. exact (proj1 Co).
  - unfold addConnectedCell. destruct l as [|a l]; [split; [left; reflexivity|reflexivity]|].
    destruct (match id with Some i => has i (o_cells g) | None => false end) eqn:E.
    + split; [|reflexivity]. intros _. right. left. destruct id as [i|]; [|discriminate]. exists i. split; [reflexivity|apply has_iff, E].
    + destruct (checkCellConnCoherence t (a :: l)) eqn:Co; cbn [fst]; [|split; [right; right; reflexivity|reflexivity]].
      split; [discriminate|]. intros [H|[[i [-> H]]|H]]; try discriminate. apply has_iff in H. congruence.
Qed.
Print Assumptions C80_add.

(** The constructor: the vertices are the given ones numbered from 0; the cells are the given
    lists that are connectivities of elements of the mesh, in their order, numbered from 0, as
    given; the other lists are skipped. *)
Theorem C80_construct : forall t vs conn, 1 <= t <= 4 -> exists g, construct t vs (Some conn) = Some g /\ o_type g = t /\
  o_verts g = combine (seq 0 (length vs)) vs /\
  (forall k i c, nth_error (o_cells g) k = Some (i, c) -> i = k /\ c_pid c = 0%Z /\ documented t (c_type c) (c_conn c) /\ readable (c_type c) (c_conn c)) /\
  (exists sel, map (fun e => c_conn (snd e)) (o_cells g) = filter sel conn /\ forall l, In l conn -> sel l = true <-> exists e, documented t e l /\ readable e l) /\
  (forall p, In p (o_pids g) <-> p = 0%Z).
Proof.
  intros t vs conn T. destruct (construct_eq t vs conn T) as [g [E [E1 [E2 [E3 E4]]]]]. exists g. split; [exact E|]. split; [exact E1|]. split; [exact E2|].
  assert (K : forall l, In l (kept t conn) -> documented t (desumeElement t l) l /\ readable (desumeElement t l) l).
  { intros l H. apply filter_In in H. destruct H as [_ H]. apply (desume_iff t l _ T). split; [reflexivity|]. intros Q. apply elem_eqb_iff in Q. rewrite Q in H. discriminate. }
  split; [|split; [|exact E4]].
  - intros k i c H. rewrite E3 in H. assert (G : forall (ls : list (list nat)) b k, nth_error (combine (seq b (length ls)) (map (as_cell t) ls)) k = Some (i, c) -> i = b + k /\ exists l, In l ls /\ c = as_cell t l).
    { induction ls as [|l ls IH]; intros b k0 H0; [destruct k0; discriminate|]. destruct k0 as [|k0]; cbn [length seq map combine nth_error] in H0.
      - injection H0 as <- <-. split; [lia|]. exists l. split; [left; reflexivity|reflexivity].
      - destruct (IH (S b) k0 H0) as [Q [l' [Hl' El']]]. split; [lia|]. exists l'. split; [right; exact Hl'|exact El']. }
    destruct (G _ 0 k H) as [Q [l [Hl ->]]]. split; [exact Q|]. split; [reflexivity|]. exact (K l Hl).
  - exists (fun l => negb (elem_eqb (desumeElement t l) EUndefined)). fold (kept t conn). split.
    + rewrite E3. assert (G : forall (ls : list (list nat)) b, map (fun e => c_conn (snd e)) (combine (seq b (length ls)) (map (as_cell t) ls)) = ls).
      { induction ls as [|l ls IH]; intros b; [reflexivity|]. cbn [length seq map combine snd as_cell c_conn]. f_equal. apply IH. }
      apply G.
    + intros l Hl. split.
      * intros H. exists (desumeElement t l). apply K. apply filter_In. split; assumption.
      * intros [e He]. apply (desume_iff t l e T) in He. destruct He as [He Ne]. rewrite He. destruct (elem_eqb e EUndefined) eqn:Q; [|reflexivity]. apply elem_eqb_iff in Q. contradiction.
Qed.
Print Assumptions C80_construct.

(** A polygon of two vertices is accepted. *)
Theorem C80_two_vertices_refuted : exists fr l g, new_ids fr /\ means EPolygon l [tl l] /\ length (tl l) = 2 /\
  fst (addConnectedCell fr l EPolygon 0 None g) <> None.
Proof.
  exists (fun l => S (list_max l)), [2; 0; 1], (new_obj 1). split.
  { intros l H. assert (M : forall l x, In x l -> x <= list_max l).
    { clear. induction l as [|a l IH]; intros x H; [destruct H|]. change (list_max (a :: l)) with (max a (list_max l)).
      destruct H as [->|H]; [lia|specialize (IH x H); lia]. }
    apply M in H. lia. }
  split; [apply (means_polygon [0; 1])|]. split; [reflexivity|discriminate].
Qed.
Print Assumptions C80_two_vertices_refuted.
(** The documentation says that the type of the element is checked against the one of the mesh: a
    tetrahedron goes into a surface. *)
Theorem C80_type_refuted : exists fr l t g, o_type g = 1 /\ ~ of_type 1 t /\ fst (addConnectedCell fr l t 0 None g) <> None.
Proof.
  exists (fun l => S (list_max l)), [0; 1; 2; 3], ETetra, (new_obj 1). split; [reflexivity|]. split; [intros [H|[H|H]]; discriminate|discriminate].
Qed.
Print Assumptions C80_type_refuted.
(** The connectivity documented for a polygon, (3 i1 i2 i3), is read by the constructor as a quad
    whose first vertex is vertex 3. *)
Theorem C80_polygon_refuted : exists t l vs, documented t EPolygon l /\ exists g c, construct t vs (Some [l]) = Some g /\ o_cells g = [(0, c)] /\
  c_type c = EQuad /\ vertex_of c 3 /\ ~ (exists f, means EPolygon l [f] /\ In 3 f).
Proof.
  exists 1, [3; 0; 1; 2], [V3 0 0 0; V3 1 0 0; V3 0 1 0; V3 9 9 9]. split; [split; [right; right; reflexivity|exists [[0; 1; 2]]; apply (means_polygon [0; 1; 2])]|].
  eexists. eexists. split; [reflexivity|]. split; [reflexivity|]. split; [reflexivity|]. split.
  - exists [[3; 0; 1; 2]], [3; 0; 1; 2]. split; [apply (means_fixed EQuad _ 4); reflexivity|]. split; [left; reflexivity|left; reflexivity].
  - intros [f [H I]]. assert (E : [f] = [[0; 1; 2]]) by (apply (means_unique EPolygon [3; 0; 1; 2]); [exact H|apply (means_polygon [0; 1; 2])]). injection E as ->.
    cbn in I. destruct I as [I|[I|[I|[]]]]; discriminate.
Qed.
Print Assumptions C80_polygon_refuted.
(** No connectivity, documented as the way to build a cloud, is a null pointer that is followed. *)
Theorem C80_no_connectivity_refuted : forall t vs, construct t vs None = None.
Proof. intros t vs. unfold construct. destruct (4 <? max t 1); reflexivity. Qed.
Print Assumptions C80_no_connectivity_refuted.

Example C80_nonvacuous : exists g, construct 1 [V3 0 0 0; V3 1 0 0; V3 0 1 0; V3 1 1 0] (Some [[0; 1; 2]; [7; 7]; [4; 0; 1; 3; 2]]) = Some g /\
  o_cells g = [(0, Cl ETriangle [0; 1; 2] 0); (1, Cl EPolygon [4; 0; 1; 3; 2] 0)] /\ fst (addConnectedCell (@length nat) [1; 3; 2] ETriangle 4 None g) = Some 2.
Proof. eexists. split; [reflexivity|]. split; reflexivity. Qed.

(** * C81 *)

(** The coordinates and the compact connectivity of a geometry without polyhedra build an
    equivalent geometry: the same cells in the same order, with vertices at the same places. *)
Theorem C81_rebuild_partial : forall g, well_formed g -> closed g -> 1 <= o_type g <= 4 ->
  (forall id c, In (id, c) (o_cells g) -> documented (o_type g) (c_type c) (c_conn c) /\ readable (c_type c) (c_conn c) /\ c_type c <> EPolyhedron) ->
  exists g', construct (o_type g) (getVerticesCoords g) (Some (getCompactConnectivity (mapDataInv g) g)) = Some g' /\
  o_type g' = o_type g /\ map snd (o_verts g') = map snd (o_verts g) /\ Forall2 (same_cell g g') (map snd (o_cells g)) (map snd (o_cells g')).
Proof.
  intros g [Dv Dc] Cl0 T Ok. destruct (construct_eq (o_type g) (getVerticesCoords g) (getCompactConnectivity (mapDataInv g) g) T) as [g' [E [E1 [E2 [E3 _]]]]].
  exists g'. split; [exact E|]. split; [exact E1|].
  assert (Sn : forall (l : list vec) b, map snd (combine (seq b (length l)) l) = l) by (induction l as [|x l IH]; intros b; [reflexivity|]; cbn [length seq combine map snd]; f_equal; apply IH).
  split; [rewrite E2, Sn; reflexivity|].
  assert (Desume : forall id c, In (id, c) (o_cells g) -> desumeElement (o_type g) (conv_conn (mapDataInv g) (c_type c) (c_conn c)) = c_type c /\ c_type c <> EUndefined).
  { intros id c H. destruct (Ok id c H) as [[O0 [fs M]] [Rd Np]]. destruct (conv_means (mapDataInv g) _ _ _ Np M) as [M' L']. apply (desume_iff _ _ _ T).
    split; [split; [exact O0|exists (map (map (mapDataInv g)) fs); exact M']|]. unfold readable in *. destruct (c_type c); try exact I; try rewrite L'; assumption. }
  assert (Kept : kept (o_type g) (getCompactConnectivity (mapDataInv g) g) = getCompactConnectivity (mapDataInv g) g).
  { unfold kept, getCompactConnectivity. assert (G : forall cs : list (nat * cell), incl cs (o_cells g) ->
      filter (fun l => negb (elem_eqb (desumeElement (o_type g) l) EUndefined)) (map (fun e => conv_conn (mapDataInv g) (c_type (snd e)) (c_conn (snd e))) cs)
      = map (fun e => conv_conn (mapDataInv g) (c_type (snd e)) (c_conn (snd e))) cs).
    { induction cs as [|[i c] cs IH]; intros H; [reflexivity|]. cbn [map filter snd]. destruct (Desume i c (H _ (or_introl eq_refl))) as [-> N].
      destruct (elem_eqb (c_type c) EUndefined) eqn:Q; [apply elem_eqb_iff in Q; contradiction|]. cbn [negb]. f_equal. apply IH. intros x Hx. apply H. right. exact Hx. }
    apply G, incl_refl. }
  rewrite E3, Kept. assert (Sn2 : forall (l : list cell) b n, n = length l -> map snd (combine (seq b n) l) = l)
    by (induction l as [|x l IH]; intros b n ->; [reflexivity|]; cbn [length seq combine map snd]; f_equal; apply IH; reflexivity).
  rewrite Sn2 by (rewrite map_length; reflexivity). unfold getCompactConnectivity. rewrite map_map.
  assert (G : forall cs : list (nat * cell), incl cs (o_cells g) -> Forall2 (same_cell g g') (map snd cs)
    (map (fun e => as_cell (o_type g) (conv_conn (mapDataInv g) (c_type (snd e)) (c_conn (snd e)))) cs)).
  { induction cs as [|[i c] cs IH]; intros H; [constructor|]. cbn [map snd]. constructor; [|apply IH; intros x Hx; apply H; right; exact Hx].
    assert (Hc : In (i, c) (o_cells g)) by (apply H; left; reflexivity). destruct (Ok i c Hc) as [[O0 [fs M]] [Rd Np]]. destruct (conv_means (mapDataInv g) _ _ _ Np M) as [M' _].
    split; [cbn [as_cell c_type]; symmetry; exact (proj1 (Desume i c Hc))|]. exists fs, (map (map (mapDataInv g)) fs). split; [exact M|].
    cbn [as_cell c_type c_conn]. rewrite (proj1 (Desume i c Hc)). split; [exact M'|].
    assert (V : forall f, In f fs -> forall v, In v f -> same_place g g' v (mapDataInv g v)).
    { intros f Hf v Hv. destruct (compact_place g v Dv (Cl0 i c v Hc (ex_intro _ fs (ex_intro _ f (conj M (conj Hf Hv)))))) as [x [Hx Hy]].
      exists x. split; [exact Hx|]. rewrite E2. unfold getVerticesCoords at 1. rewrite map_length. exact Hy. }
    clear -V. induction fs as [|f fs IH]; [constructor|]. cbn [map]. constructor; [|apply IH; intros f' Hf'; apply V; right; exact Hf'].
    specialize (V f (or_introl eq_refl)). clear IH. induction f as [|v f IH]; [constructor|]. cbn [map]. constructor; [apply V; left; reflexivity|apply IH; intros w Hw; apply V; right; exact Hw]. }
  apply G, incl_refl.
Qed.
Print Assumptions C81_rebuild_partial.

(** Polyhedra: the last face is lost, and what is left is not a connectivity at all: the cell is
    missing from the geometry built. *)
Definition tetra_faces : list (list nat) := [[0; 1; 2]; [0; 1; 3]; [0; 2; 3]; [1; 2; 3]].
Definition poly1 : obj := Ob 2 0 [(0, V3 0 0 0); (1, V3 1 0 0); (2, V3 0 1 0); (3, V3 0 0 1)] [(0, Cl EPolyhedron (length tetra_faces :: stream tetra_faces) 0)] [0%Z] [].
Theorem C81_polyhedron_refuted : exists g, well_formed g /\ closed g /\ o_type g = 2 /\
  (forall id c, In (id, c) (o_cells g) -> documented 2 (c_type c) (c_conn c) /\ readable (c_type c) (c_conn c)) /\
  (exists l, getCompactConnectivity (mapDataInv g) g = [l] /\ forall fs, ~ means EPolyhedron l fs) /\
  exists g', construct 2 (getVerticesCoords g) (Some (getCompactConnectivity (mapDataInv g) g)) = Some g' /\ length (o_cells g) = 1 /\ o_cells g' = [].
Proof.
  exists poly1. split; [split; repeat constructor; cbn; intuition discriminate|]. split.
  { intros id c v [H|[]] Hv. injection H as _ <-. destruct Hv as [fs [f [M [Hf Hv]]]]. cbn [c_type c_conn] in M.
    rewrite (means_unique _ _ _ _ M (means_polyhedron tetra_faces)) in Hf. cbn in Hf. cbn. destruct Hf as [<-|[<-|[<-|[<-|[]]]]]; cbn in Hv; tauto. }
  split; [reflexivity|]. split.
  { intros id c [H|[]]. injection H as _ <-. split; [split; [cbn; tauto|exists tetra_faces; exact (means_polyhedron tetra_faces)]|cbn; lia]. }
  split.
  - eexists. split; [reflexivity|]. intros fs H. assert (P : is_polyhedron (hd [] (getCompactConnectivity (mapDataInv poly1) poly1)) = true).
    { apply polyhedron_iff. exists fs. inversion H; [discriminate|]. cbn in *. congruence. }
    vm_compute in P. discriminate.
  - eexists. split; [reflexivity|]. split; reflexivity.
Qed.
Print Assumptions C81_polyhedron_refuted.

(** The other lists: the vertex ids and connectivity of every cell, as they are. *)
Theorem C81_lists : forall g, distinct (o_cells g) ->
  (forall k l, nth_error (getConnectivity g) k = Some l <-> exists id c, nth_error (o_cells g) k = Some (id, c) /\ c_conn c = l) /\
  (forall id c, In (id, c) (o_cells g) -> getCellConnectivity id g = c_conn c) /\
  (forall id, ~ In id (map fst (o_cells g)) -> getCellConnectivity id g = []) /\
  (forall k x, nth_error (getVerticesCoords g) k = Some x <-> exists id, nth_error (o_verts g) k = Some (id, x)).
Proof.
  intros g D. split; [|split; [|split]].
  - intros k l. unfold getConnectivity. rewrite nth_error_map. destruct (nth_error (o_cells g) k) as [[id c]|]; cbn [option_map snd].
    + split; [intros H; injection H as <-; exists id, c; split; reflexivity|intros [i [d [H E]]]; injection H as <- <-; congruence].
    + split; [discriminate|intros [i [d [H _]]]; discriminate].
  - intros id c H. unfold getCellConnectivity. rewrite (in_find _ _ _ _ D H). reflexivity.
  - intros id H. unfold getCellConnectivity. destruct (find id (o_cells g)) as [c|] eqn:E; [|reflexivity]. apply find_in in E. destruct H. apply in_map_iff. exists (id, c). split; [reflexivity|exact E].
  - intros k x. unfold getVerticesCoords. rewrite nth_error_map. destruct (nth_error (o_verts g) k) as [[id y]|]; cbn [option_map snd].
    + split; [intros H; injection H as <-; exists id; reflexivity|intros [i H]; injection H as _ <-; reflexivity].
    + split; [discriminate|intros [i H]; discriminate].
Qed.
Print Assumptions C81_lists.

Definition two_tri : obj := Ob 1 0 [(5, V3 0 0 0); (3, V3 1 0 0); (8, V3 0 1 0); (2, V3 1 1 0)] [(4, Cl ETriangle [5; 3; 8] 0); (1, Cl EPolygon [4; 5; 3; 2; 8] 0)] [0%Z] [].
Example C81_nonvacuous : well_formed two_tri /\ closed two_tri /\
  (forall id c, In (id, c) (o_cells two_tri) -> documented (o_type two_tri) (c_type c) (c_conn c) /\ readable (c_type c) (c_conn c) /\ c_type c <> EPolyhedron) /\
  getCompactConnectivity (mapDataInv two_tri) two_tri = [[0; 1; 2]; [4; 0; 1; 3; 2]].
Proof.
  split; [split; repeat constructor; cbn; intuition discriminate|].
  assert (M1 : means ETriangle [5; 3; 8] [[5; 3; 8]]) by (apply (means_fixed ETriangle _ 3); reflexivity).
  assert (M2 : means EPolygon [4; 5; 3; 2; 8] [[5; 3; 2; 8]]) by apply (means_polygon [5; 3; 2; 8]).
  split; [|split; [|reflexivity]].
  - intros id c v [H|[H|[]]] Hv; injection H as _ <-; destruct Hv as [fs [f [M [Hf Hv]]]]; cbn [c_type c_conn] in M.
    + rewrite (means_unique _ _ _ _ M M1) in Hf. destruct Hf as [<-|[]]. cbn in *. tauto.
    + rewrite (means_unique _ _ _ _ M M2) in Hf. destruct Hf as [<-|[]]. cbn in *. tauto.
  - intros id c [H|[H|[]]]; injection H as _ <-; (split; [split; [cbn; tauto|]|split; [cbn; try lia; exact I|discriminate]]); eexists; eassumption.
Qed.

(** * C82 *)

(** The vertices of a list of cells: those of the cells of the list that exist, once each. *)
Theorem C82_vertices : forall g l, well_formed g -> sound g -> o_type g <> 3 ->
  NoDup (getVertexFromCellList l g) /\
  forall v, In v (getVertexFromCellList l g) <-> exists id c, In id l /\ In (id, c) (o_cells g) /\ vertex_of c v.
Proof.
  intros g l [_ D] Sd T. unfold getVertexFromCellList. apply Nat.eqb_neq in T. rewrite T. split; [apply NoDup_nodup|].
  intros v. rewrite nodup_In, in_flat_map. split.
  - intros [id [Hid H]]. destruct (find id (o_cells g)) as [c|] eqn:E; [|destruct H]. apply find_in in E. exists id, c. split; [exact Hid|]. split; [exact E|].
    apply cell_verts_in; [exact (Sd id c E)|exact H].
  - intros [id [c [Hid [Hc Hv]]]]. exists id. split; [exact Hid|]. rewrite (in_find _ _ _ _ D Hc). apply cell_verts_in; [exact (Sd id c Hc)|exact Hv].
Qed.
Print Assumptions C82_vertices.

(** The cells of a list of vertices: with strict, those all of whose vertices are in the list (and
    that have one); without, those with a vertex in the list; once each. *)
Theorem C82_cells : forall g l, well_formed g -> sound g -> o_type g <> 3 ->
  (forall s, NoDup (getCellFromVertexList l s g)) /\
  (forall id, In id (getCellFromVertexList l true g) <-> exists c, In (id, c) (o_cells g) /\ (exists v, vertex_of c v) /\ forall v, vertex_of c v -> In v l) /\
  (forall id, In id (getCellFromVertexList l false g) <-> exists c, In (id, c) (o_cells g) /\ exists v, vertex_of c v /\ In v l).
Proof.
  intros g l [_ D] Sd T. unfold getCellFromVertexList. apply Nat.eqb_neq in T. rewrite T. split; [intros s; apply nodup_map_filter, D|]. split.
  - intros id. rewrite in_map_iff. split.
    + intros [[i c] [E H]]. cbn [fst] in E. subst i. apply filter_In in H. destruct H as [H K]. cbn [snd] in K. apply check_true in K. exists c. split; [exact H|].
      destruct K as [[_ K]|[Ne K]]; [discriminate|]. pose proof (fun v => cell_verts_in c v (Sd id c H)) as V. split.
      * destruct (cell_verts c) as [|v vs]; [congruence|]. exists v. apply V. left. reflexivity.
      * intros v Hv. apply K, V, Hv.
    + intros [c [H [[v0 Hv0] K]]]. exists (id, c). split; [reflexivity|]. apply filter_In. split; [exact H|]. cbn [snd]. pose proof (fun v => cell_verts_in c v (Sd id c H)) as V.
      apply check_true. right. split; [intros Q; apply V in Hv0; rewrite Q in Hv0; destruct Hv0|]. intros v Hv. apply K, V, Hv.
  - intros id. rewrite in_map_iff. split.
    + intros [[i c] [E H]]. cbn [fst] in E. subst i. apply filter_In in H. destruct H as [H K]. cbn [snd] in K. apply check_false in K. exists c. split; [exact H|].
      destruct K as [[_ K]|[v [Hv Hl]]]; [discriminate|]. exists v. split; [apply (cell_verts_in c v (Sd id c H)), Hv|exact Hl].
    + intros [c [H [v [Hv Hl]]]]. exists (id, c). split; [reflexivity|]. apply filter_In. split; [exact H|]. cbn [snd]. apply check_false. right. exists v.
      split; [apply (cell_verts_in c v (Sd id c H)), Hv|exact Hl].
Qed.
Print Assumptions C82_cells.

(** For a cloud of points, whose cells are vertices, both lists are always empty. *)
Theorem C82_cloud_refuted : exists g id v, o_type g = 3 /\ well_formed g /\ sound g /\ (exists c, In (id, c) (o_cells g) /\ vertex_of c v) /\
  getVertexFromCellList [id] g = [] /\ getCellFromVertexList [v] true g = [] /\ getCellFromVertexList [v] false g = [].
Proof.
  exists (Ob 3 0 [(4, V3 0 0 0)] [(6, Cl EVertex [4] 0)] [0%Z] []), 6, 4.
  assert (M : means EVertex [4] [[4]]) by (apply (means_fixed EVertex _ 1); reflexivity).
  split; [reflexivity|]. split; [split; repeat constructor; intros []|]. split; [intros id c [H|[]]; injection H as _ <-; exists [[4]]; exact M|].
  split; [|split; [reflexivity|split; reflexivity]]. eexists. split; [left; reflexivity|]. exists [[4]], [4]. split; [exact M|]. split; [left; reflexivity|left; reflexivity].
Qed.
Print Assumptions C82_cloud_refuted.

Example C82_nonvacuous : well_formed two_tri /\ sound two_tri /\ getCellFromVertexList [5; 3; 8] true two_tri = [4] /\ getCellFromVertexList [5; 3; 8] false two_tri = [4; 1] /\
  In 2 (getVertexFromCellList [1; 99] two_tri).
Proof.
  split; [split; repeat constructor; cbn; intuition discriminate|]. split; [|split; [reflexivity|split; [reflexivity|cbn; tauto]]].
  intros id c [H|[H|[]]]; injection H as _ <-; eexists; [apply (means_fixed ETriangle _ 3); reflexivity|apply (means_polygon [5; 3; 2; 8])].
Qed.
