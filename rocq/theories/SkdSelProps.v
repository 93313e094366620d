(** C97: the cells of a geometry selected near another one. *)
From Coq Require Import List Arith Bool Reals Lia Lra.
From Verif Require Import Vec SkdSel SkdSelSpec SkdSelProofs.
Import ListNotations.
Open Scope nat_scope.

(** The descent of the two trees selects the cells of the target leaves within the tolerance of a leaf
    of the selection, and no other. *)
Theorem C97_select : forall selection target tol, bounding selection -> bounding target -> (0 <= tol)%R ->
  NoDup (selectByPatch selection target tol) /\ forall id, In id (selectByPatch selection target tol) <-> near_cell selection target tol id.
Proof.
  intros selection target tol Bs Bt T. unfold selectByPatch. split.
  { unfold extractTarget. destruct (leaf_boxes selection (tbox target) tol); [constructor|]. cbn [app]. apply NoDup_nodup. }
  intros id. rewrite (extract_in target _ [] tol id Bt). set (sel := leaf_boxes selection (tbox target) tol).
  assert (M : forall s, In s sel -> intersectBoxBox s (tbox target) tol = true) by (intros s I; apply leaf_boxes_in in I; apply I).
  assert (E : filter (fun s => intersectBoxBox s (tbox target) tol) sel = sel).
  { clearbody sel. induction sel as [|s l IH]; [reflexivity|]. cbn [filter]. rewrite (M s (or_introl eq_refl)), IH; [reflexivity|]. intros s' I. apply M. right. exact I. }
  rewrite E. split.
  - intros [[] | (N & c & H & F)]. apply (found_met tol target sel c Bt N M) in F. destruct F as (b & cs & s & -> & L & I & Q). apply leaf_boxes_in in I. destruct I as ((cs' & L') & _).
    exists b, cs, s, cs'. split; [exact L|]. split; [exact H|]. split; [exact L'|]. apply meet_iff; [exact T|apply (bounding_leaf selection Bs s cs' L')|apply (bounding_leaf target Bt b cs L)|exact Q].
  - intros (b & cs & s & cs' & L & H & L' & Q). destruct (bounding_leaf target Bt b cs L) as (Nb & W). destruct (bounding_leaf selection Bs s cs' L') as (Ns & _).
    apply (meet_iff s b tol T Ns Nb) in Q.
    assert (I : In s sel) by (apply leaf_boxes_in; split; [exists cs'; exact L'|apply (meet_within s b (tbox target) tol Nb W Q)]).
    right. assert (N : sel <> []) by (intros X; rewrite X in I; exact I). split; [exact N|]. exists (Node b cs []). split; [exact H|]. apply (found_met tol target sel _ Bt N M). exists b, cs, s. auto.
Qed.

(** No near cell is missed: a cell of the target with a point within the tolerance of a point of a cell
    of the selection is selected. *)
Theorem C97_complete : forall selection target tol on_sel on_tgt id id' p q, bounding selection -> bounding target ->
  bounds selection on_sel -> bounds target on_tgt -> cell_of target id -> cell_of selection id' -> on_tgt id p -> on_sel id' q -> (norm (vsub p q) <= tol)%R ->
  In id (selectByPatch selection target tol).
Proof.
  intros selection target tol on_sel on_tgt id id' p q Bs Bt Ps Pt (b & cs & L & I) (b' & cs' & L' & I') Hp Hq D.
  assert (T : (0 <= tol)%R) by (eapply Rle_trans; [apply sqrt_pos|exact D]).
  apply C97_select; [assumption..|]. exists b, cs, b', cs'. split; [exact L|]. split; [exact I|]. split; [exact L'|]. exists q, p.
  split; [apply (Ps b' cs' id' q L' I' Hq)|]. split; [apply (Pt b cs id p L I Hp)|].
  assert (X : forall x r, (0 <= r -> Rabs x <= sqrt (x * x + r))%R).
  { intros x r R0. rewrite <- sqrt_Rsqr_abs. apply sqrt_le_1_alt. unfold Rsqr. lra. }
  unfold norm, dot, vsub in D. cbn [vx vy vz] in D. set (a := (vx p - vx q)%R) in *. set (b0 := (vy p - vy q)%R) in *. set (c := (vz p - vz q)%R) in *.
  pose proof (Rle_0_sqr a) as A0. pose proof (Rle_0_sqr b0) as B0. pose proof (Rle_0_sqr c) as C0. unfold Rsqr in *.
  split; [|split]; rewrite Rabs_minus_sym.
  - eapply Rle_trans; [apply (X a (b0 * b0 + c * c)%R); lra|]. rewrite <- Rplus_assoc. exact D.
  - eapply Rle_trans; [apply (X b0 (a * a + c * c)%R); lra|]. replace (b0 * b0 + (a * a + c * c))%R with (a * a + b0 * b0 + c * c)%R by lra. exact D.
  - eapply Rle_trans; [apply (X c (a * a + b0 * b0)%R); lra|]. replace (c * c + (a * a + b0 * b0))%R with (a * a + b0 * b0 + c * c)%R by lra. exact D.
Qed.

(** On several processes: the cells of the target of the process near a leaf of the selection of any
    process. *)
Theorem C97_global : forall big trees selection target tol, Forall (fun st => bounding (fst st)) trees -> In (selection, target) trees -> bounding target -> (0 <= tol)%R ->
  NoDup (selectByGlobalPatch big trees target tol) /\
  forall id, In id (selectByGlobalPatch big trees target tol) <-> exists st, In st trees /\ near_cell (fst st) target tol id.
Proof.
  intros big trees selection target tol Bs Hin Bt T. unfold selectByGlobalPatch. cbv zeta. rewrite received. set (sel := concat (map (fun st => leaf_boxes (fst st) (tbox target) tol) trees)). split.
  { unfold extractTarget_boxes. destruct sel; [constructor|]. cbn [app]. apply NoDup_nodup. }
  assert (Is : forall s, In s sel <-> exists st, In st trees /\ In s (leaf_boxes (fst st) (tbox target) tol)).
  { intros s. unfold sel. rewrite in_concat. split.
    - intros (l & Hl & Hs). apply in_map_iff in Hl. destruct Hl as (st & <- & H). eauto.
    - intros (st & H & Hs). exists (leaf_boxes (fst st) (tbox target) tol). split; [apply in_map_iff; eauto|exact Hs]. }
  intros id. rewrite (extract_boxes_in target sel [] tol id Bt).
  assert (One : forall s c, In s sel -> (found tol target [s] c <-> exists b cs s0, c = Node b cs [] /\ leaf_of target b cs /\ In s0 [s] /\ intersectBoxBox s0 b tol = true)).
  { intros s c I. apply (found_met tol target [s] c Bt); [discriminate|]. intros s' [<- | []]. apply Is in I. destruct I as (st & _ & I). apply leaf_boxes_in in I. apply I. }
  split.
  - intros [[] | (s & c & I & H & F)]. apply (One s c I) in F. destruct F as (b & cs & s0 & -> & L & [<- | []] & Q). apply Is in I. destruct I as (st & Hst & I). apply leaf_boxes_in in I. destruct I as ((cs' & L') & _).
    exists st. split; [exact Hst|]. exists b, cs, s, cs'. split; [exact L|]. split; [exact H|]. split; [exact L'|].
    apply meet_iff; [exact T|apply (bounding_leaf (fst st) (proj1 (Forall_forall _ _) Bs st Hst) s cs' L')|apply (bounding_leaf target Bt b cs L)|exact Q].
  - intros (st & Hst & b & cs & s & cs' & L & H & L' & Q). destruct (bounding_leaf target Bt b cs L) as (Nb & W). destruct (bounding_leaf (fst st) (proj1 (Forall_forall _ _) Bs st Hst) s cs' L') as (Ns & _).
    apply (meet_iff s b tol T Ns Nb) in Q.
    assert (I : In s sel) by (apply Is; exists st; split; [exact Hst|]; apply leaf_boxes_in; split; [exists cs'; exact L'|apply (meet_within s b (tbox target) tol Nb W Q)]).
    right. exists s, (Node b cs []). split; [exact I|]. split; [exact H|]. apply (One s _ I). exists b, cs, s. split; [reflexivity|]. split; [exact L|]. split; [left; reflexivity|exact Q].
Qed.

(** extractTarget adds to what it is given, and takes the leaves within the tolerance of one of the
    boxes, when the target has more than one node. *)
Theorem C97_extract : forall target sel old tol, bounding target -> (0 <= tol)%R -> (forall s, In s sel -> exists p, inside s p) -> tkids target <> [] ->
  exists new, extractTarget target sel old tol = old ++ new /\ NoDup new /\
    forall id, In id new <-> exists b cs s, leaf_of target b cs /\ In id cs /\ In s sel /\ reach tol s b.
Proof.
  intros target sel old tol Bt T Ns K. exists (extractTarget target sel [] tol). split; [|split].
  - unfold extractTarget. destruct sel; [rewrite app_nil_r; reflexivity|reflexivity].
  - unfold extractTarget. destruct sel; [constructor|]. cbn [app]. apply NoDup_nodup.
  - intros id. rewrite (extract_in target sel [] tol id Bt). split.
    + intros [[] | (N & c & H & F)]. apply (found_node _ _ _ _ K) in F. destruct F as (b & cs & s & -> & L & I & Q). apply filter_In in I. exists b, cs, s.
      split; [exact L|]. split; [exact H|]. split; [apply I|]. apply meet_iff; [exact T|apply Ns, I|apply (bounding_leaf target Bt b cs L)|exact Q].
    + intros (b & cs & s & L & H & I & Q). destruct (bounding_leaf target Bt b cs L) as (Nb & W). apply (meet_iff s b tol T (Ns s I) Nb) in Q. right. split; [intros E; rewrite E in I; exact I|].
      exists (Node b cs []). split; [exact H|]. apply (found_node _ _ _ _ K). exists b, cs, s. split; [reflexivity|]. split; [exact L|]. split; [|exact Q]. apply filter_In. split; [exact I|]. apply (meet_within s b (tbox target) tol Nb W Q).
Qed.

Definition cube (a b : R) : sbox := {| bmin := V3 a 0 0; bmax := V3 b 1 1 |}.
Lemma cube_ok : forall a b, (a <= b)%R -> exists p, inside (cube a b) p.
Proof. intros a b H. exists (V3 a 0 0). unfold inside. cbn. lra. Qed.
Lemma cube_within : forall a b c d, (c <= a)%R -> (b <= d)%R -> within (cube a b) (cube c d).
Proof. intros a b c d A B p. unfold inside. cbn. lra. Qed.
Lemma cube_meet : forall a b c d tol, (0 <= tol)%R -> intersectBoxBox (cube a b) (cube c d) tol = true <-> (c <= b + tol /\ a - tol <= d)%R.
Proof. intros a b c d tol T. unfold intersectBoxBox. rewrite !andb_true_iff, !axis_iff. cbn. split; [tauto|]. intros H. split; [split; [exact H|]|]; lra. Qed.

(** Called on a target of a single node, extractTarget takes its cells whatever the distance. *)
Theorem C97_root_refuted : exists target sel tol id, bounding target /\ (forall s, In s sel -> exists p, inside s p) /\ (0 <= tol)%R /\
  In id (extractTarget target sel [] tol) /\ forall b cs s, leaf_of target b cs -> In s sel -> ~ reach tol s b.
Proof.
  exists (Node (cube 0 1) [4] []), [cube 10 11], 0%R, 4.
  assert (B : bounding (Node (cube 0 1) [4] [])) by (constructor; [apply cube_ok; lra|intros k []|intros k []]).
  split; [exact B|]. split; [intros s [<- | []]; apply cube_ok; lra|]. split; [lra|]. split.
  - apply extract_in; [exact B|]. right. split; [discriminate|]. exists (Node (cube 0 1) [4] []). split; [left; reflexivity|]. apply found_leaf; reflexivity.
  - intros b cs s L [<- | []] Q. apply leaf_inv in L. destruct L as [(_ & -> & _) | (k & [] & _)].
    apply meet_iff in Q; [|lra|apply cube_ok; lra|apply cube_ok; lra]. apply cube_meet in Q; lra.
Qed.

(** The cells selected are not those within the tolerance of a box of the selection: the other cells of
    a leaf are taken with them. *)
Theorem C97_exact_refuted : exists selection target tol (on : nat -> vec -> Prop) id, bounding selection /\ bounding target /\ bounds target on /\ (0 <= tol)%R /\
  In id (selectByPatch selection target tol) /\ (exists p, on id p) /\ forall p b cs q, on id p -> leaf_of selection b cs -> inside b q -> (tol < norm (vsub p q))%R.
Proof.
  assert (Bs : bounding (Node (cube 11 12) [0] [])) by (constructor; [apply cube_ok; lra|intros k []|intros k []]).
  assert (Bt : bounding (Node (cube 0 11) [4; 5] [])) by (constructor; [apply cube_ok; lra|intros k []|intros k []]).
  exists (Node (cube 11 12) [0] []), (Node (cube 0 11) [4; 5] []), 0%R, (fun c p => match c with 4 => inside (cube 0 1) p | _ => inside (cube 10 11) p end), 4.
  split; [exact Bs|]. split; [exact Bt|]. split.
  { intros b cs c p L I O. apply leaf_inv in L. destruct L as [(_ & -> & ->) | (k & [] & _)]. destruct I as [<- | [<- | []]]; (eapply cube_within; [| |exact O]); lra. }
  split; [lra|]. split; [|split; [apply cube_ok; lra|]].
  - apply C97_select; [exact Bs|exact Bt|lra|]. exists (cube 0 11), [4; 5], (cube 11 12), [0]. split; [constructor|]. split; [left; reflexivity|]. split; [constructor|].
    apply meet_iff; [lra|apply cube_ok; lra|apply cube_ok; lra|]. apply cube_meet; lra.
  - intros p b cs q O L Q. apply leaf_inv in L. destruct L as [(_ & -> & _) | (k & [] & _)]. apply sqrt_lt_R0. unfold dot, vsub. cbn [vx vy vz].
    unfold inside in O, Q. cbn in O, Q. pose proof (Rle_0_sqr (vy p - vy q)) as A. pose proof (Rle_0_sqr (vz p - vz q)) as B. unfold Rsqr in *.
    assert (C : (0 < (vx p - vx q) * (vx p - vx q))%R) by (replace ((vx p - vx q) * (vx p - vx q))%R with ((vx q - vx p) * (vx q - vx p))%R by lra; apply Rmult_lt_0_compat; lra). lra.
Qed.

(** A target of two leaves, one of them near. *)
Definition two_leaves : tree := Node (cube 0 20) [1; 2] [Node (cube 0 1) [1] []; Node (cube 19 20) [2] []].
Example C97_nonvacuous : bounding two_leaves /\ bounding (Node (cube 2 3) [7] []) /\ selectByPatch (Node (cube 2 3) [7] []) two_leaves 1 = [1] /\ selectByPatch (Node (cube 40 41) [7] []) two_leaves 1 = [].
Proof.
  assert (Bl : forall a b c, (a <= b)%R -> bounding (Node (cube a b) c [])) by (intros a b c H; constructor; [apply cube_ok; exact H|intros k []|intros k []]).
  split; [|split; [apply Bl; lra|]].
  - constructor; [apply cube_ok; lra| |].
    + intros k [<- | [<- | []]]; apply cube_within; lra.
    + intros k [<- | [<- | []]]; apply Bl; lra.
  - assert (T : forall a b c d, (c <= b + 1 /\ a - 1 <= d)%R -> intersectBoxBox (cube a b) (cube c d) 1 = true) by (intros; apply cube_meet; lra).
    assert (F : forall a b c d, ~ (c <= b + 1 /\ a - 1 <= d)%R -> intersectBoxBox (cube a b) (cube c d) 1 = false).
    { intros a b c d H. destruct (intersectBoxBox (cube a b) (cube c d) 1) eqn:E; [|reflexivity]. destruct H. apply (cube_meet a b c d 1) in E; [exact E|lra]. }
    unfold selectByPatch, leaf_boxes, two_leaves. cbn [nodes app filter isLeaf tkids tbox andb]. split.
    + rewrite (T 2%R 3%R 0%R 20%R) by lra. cbn [map tbox extractTarget filter]. rewrite (T 2%R 3%R 0%R 20%R) by lra. cbn [nodes app length descend isLeaf tkids push_kids filter tbox].
      rewrite (T 2%R 3%R 0%R 1%R), (F 2%R 3%R 19%R 20%R) by lra. cbn [descend push_kids isLeaf tkids app collect flat_map tcells nodup in_dec]. reflexivity.
    + rewrite (F 40%R 41%R 0%R 20%R) by lra. reflexivity.
Qed.

Print Assumptions C97_select.
Print Assumptions C97_complete.
Print Assumptions C97_global.
Print Assumptions C97_extract.
Print Assumptions C97_root_refuted.
Print Assumptions C97_exact_refuted.
