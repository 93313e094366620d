(** Lemmas for the selections of a mesh and its boundary. *)
From Coq Require Import String List Arith Bool ZArith Reals Lia.
From Verif Require Import Vec SharedPtr Obj ObjSpec ObjProofs ObjProps Select SelectSpec SelectProofs SelectProps Topo FvSel FvSelSpec.
Import ListNotations.
Open Scope list_scope.
Open Scope nat_scope.

Lemma nin_in (v : nat) l : nin v l = true <-> In v l.
Proof. unfold nin. rewrite existsb_exists. split; [intros (x & H & E); apply Nat.eqb_eq in E; subst x; exact H|intros H; exists v; split; [exact H|apply Nat.eqb_refl]]. Qed.
Lemma nin_not (v : nat) l : nin v l = false <-> ~ In v l.
Proof. rewrite <- nin_in. destruct (nin v l); split; congruence. Qed.

(** a part of a part *)
Lemma delete_cells_of ids g : well_formed g -> sound g -> cells_of g (fun id _ => ~ In id ids) (delete_cells ids g).
Proof.
  intros (Dv & Dc) Sd. unfold delete_cells. cbv zeta. split; [reflexivity|].
  assert (Cells : forall id c, In (id, c) (filter (fun e => negb (nin (fst e) ids)) (o_cells g)) <-> In (id, c) (o_cells g) /\ ~ In id ids).
  { intros id c. rewrite filter_In. cbn [fst]. rewrite negb_true_iff, nin_not. reflexivity. }
  split; [split; unfold distinct; cbn [o_verts o_cells]; apply nodup_map_filter; assumption|]. split; [exact Cells|].
  cbn [o_verts]. intros v x. rewrite filter_In. cbn [fst]. rewrite nin_in, in_flat_map. split.
  - intros (H & (id, c) & K & V). split; [exact H|]. apply Cells in K. destruct K as (K & N). exists id, c. split; [exact K|]. split; [exact N|]. apply (cell_verts_in c v (Sd id c K)), V.
  - intros (H & id & c & K & N & V). split; [exact H|]. exists (id, c). split; [apply Cells; split; assumption|]. apply (cell_verts_in c v (Sd id c K)), V.
Qed.

Lemma part_sound g P r : sound g -> part g P r -> sound r.
Proof. intros Sd (_ & _ & C & _) id c H. apply C in H. apply (Sd id c), H. Qed.
Lemma part_closed g P r : closed g -> part g P r -> closed r.
Proof.
  intros Cd (_ & _ & C & V & _) id c v H K. apply C in H. destruct H as (H & Q). pose proof (Cd id c v H K) as X. apply in_map_iff in X. destruct X as ((w, x) & E & X). cbn [fst] in E. subst w.
  apply in_map_iff. exists (v, x). split; [reflexivity|]. apply V. split; [exact X|]. exists id, c. auto.
Qed.

(** the boundary patch *)
Lemma clean_up_of vol bp P d : sound d -> closed d -> o_type d <> 3 -> part d P bp ->
  cells_of d (fun id c => P id /\ made_of (vertex_in vol) c) (clean_up vol bp) \/
  ((forall id c, In (id, c) (o_cells d) -> P id -> made_of (vertex_in vol) c) /\ clean_up vol bp = bp).
Proof.
  intros Sd Cd T3 Pt. pose proof Pt as (T & W & C & V & _). assert (Sb : sound bp) by exact (part_sound _ _ _ Sd Pt). assert (Cb : closed bp) by exact (part_closed _ _ _ Cd Pt).
  unfold clean_up. cbv zeta.
  set (vs := filter (fun v => nin v (map fst (o_verts vol))) (map fst (o_verts bp))).
  assert (Kept : forall id c, In (id, c) (o_cells bp) -> (In id (getCellFromVertexList vs true bp) <-> made_of (vertex_in vol) c)).
  { intros id c H. assert (Tb : o_type bp <> 3) by congruence. destruct (C82_cells bp vs W Sb Tb) as (_ & K & _). rewrite K. clear K. split.
    - intros (c' & H' & (v0 & V0) & Q). assert (c' = c) by (apply (in_find _ id _ c' (proj2 W)) in H'; apply (in_find _ id _ c (proj2 W)) in H; congruence). subst c'. split; [exists v0; exact V0|]. intros v Hv. specialize (Q v Hv).
      unfold vs in Q. rewrite filter_In, nin_in in Q. destruct Q as (_ & Q). apply in_map_iff in Q. destruct Q as ((w, x) & E & Q). cbn [fst] in E. subst w. exists x. exact Q.
    - intros (E & Q). exists c. split; [exact H|]. split; [exact E|]. intros v Hv. unfold vs. rewrite filter_In, nin_in. split; [exact (Cb id c v H Hv)|].
      destruct (Q v Hv) as (x & X). apply in_map_iff. exists (v, x). split; [reflexivity|exact X]. }
  destruct (filter _ (map fst (o_cells bp))) as [|i del] eqn:E.
  - right. split; [|reflexivity]. intros id c H Q. assert (K : In (id, c) (o_cells bp)) by (apply C; split; assumption). apply (Kept id c K).
    destruct (nin id (getCellFromVertexList vs true bp)) eqn:N; [apply nin_in, N|]. exfalso.
    assert (X : In id (filter (fun i => negb (nin i (getCellFromVertexList vs true bp))) (map fst (o_cells bp)))).
    { apply filter_In. split; [apply in_map_iff; exists (id, c); auto|]. rewrite N. reflexivity. }
    rewrite E in X. destruct X.
  - left. rewrite <- E. set (dl := filter _ _). destruct (delete_cells_of dl bp W Sb) as (D1 & D2 & D3 & D4).
    assert (In_dl : forall id c, In (id, c) (o_cells bp) -> (~ In id dl <-> made_of (vertex_in vol) c)).
    { intros id c H. unfold dl. rewrite filter_In, negb_true_iff, nin_not, (Kept id c H). split.
      - intros N. destruct (nin id (getCellFromVertexList vs true bp)) eqn:Q; [apply nin_in in Q; apply (Kept id c H), Q|]. exfalso. apply N. split; [apply in_map_iff; exists (id, c); auto|].
        intros M. apply (Kept id c H) in M. apply nin_not in Q. contradiction.
      - intros M (_ & N). contradiction. }
    split; [congruence|]. split; [exact D2|]. split.
    + intros id c. rewrite D3. split.
      * intros (H & N). pose proof (proj1 (In_dl id c H) N). apply C in H. tauto.
      * intros (H & Q & M). assert (K : In (id, c) (o_cells bp)) by (apply C; tauto). split; [exact K|]. apply (In_dl id c K), M.
    + intros v x. rewrite D4. split.
      * intros (H & id & c & K & N & Vc). pose proof (proj1 (In_dl id c K) N). apply V in H. apply C in K. split; [tauto|]. exists id, c. tauto.
      * intros (H & id & c & K & (Q & M) & Vc). assert (Kb : In (id, c) (o_cells bp)) by (apply C; tauto). split; [|exists id, c; split; [exact Kb|split; [apply (In_dl id c Kb), M|exact Vc]]].
        apply V. split; [exact H|]. exists id, c. tauto.
Qed.
Lemma clean_up_ok vol bp P d : sound d -> closed d -> o_type d <> 3 -> part d P bp ->
  cells_of d (fun id c => P id /\ made_of (vertex_in vol) c) (clean_up vol bp).
Proof.
  intros Sd Cd T3 Pt. destruct (clean_up_of vol bp P d Sd Cd T3 Pt) as [H|(A & ->)]; [exact H|]. destruct Pt as (T & W & C & V & _).
  split; [exact T|]. split; [exact W|]. split.
  - intros id c. rewrite C. split; [intros (H & Q); split; [exact H|]; split; [exact Q|exact (A id c H Q)]|tauto].
  - intros v x. rewrite V. split; intros (H & id & c & K & Q & X); (split; [exact H|]); exists id, c; [split; [exact K|split; [split; [exact Q|exact (A id c K Q)]|exact X]]|tauto].
Qed.
