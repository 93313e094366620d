(** Proofs about the selection of near cells. *)
From Coq Require Import List Arith Bool Reals Lia Lra.
From Verif Require Import Vec SkdSel SkdSelSpec.
Import ListNotations.
Open Scope nat_scope.

Fixpoint total_nodes (l : list tree) : nat := match l with [] => 0 | t :: r => length (nodes t) + total_nodes r end.
Lemma nodes_eq : forall b c ks, nodes (Node b c ks) = Node b c ks :: flat_map nodes ks.
Proof. reflexivity. Qed.
Lemma length_nodes : forall t, length (nodes t) = S (total_nodes (tkids t)).
Proof. intros [b c ks]. rewrite nodes_eq. cbn [tkids length]. f_equal. induction ks as [|k r IH]; cbn; [reflexivity|]. rewrite app_length, IH. reflexivity. Qed.

Lemma tree_ind' : forall P : tree -> Prop, (forall b c ks, (forall k, In k ks -> P k) -> P (Node b c ks)) -> forall t, P t.
Proof.
  intros P H. fix self 1. intros [b c ks]. apply H. induction ks as [|k r IH]; [intros k []|]. intros k' [<- | I]; [apply self|exact (IH k' I)].
Qed.

Lemma leaf_inv : forall b cs ks b' cs', leaf_of (Node b cs ks) b' cs' <-> (ks = [] /\ b' = b /\ cs' = cs) \/ exists k, In k ks /\ leaf_of k b' cs'.
Proof.
  intros. split.
  - intros L. inversion L; subst; [left; auto|right; eauto].
  - intros [(-> & -> & ->) | (k & I & L)]; [constructor|eapply leaf_below; eassumption].
Qed.
Lemma leaf_nodes : forall t b cs, leaf_of t b cs <-> In (Node b cs []) (nodes t).
Proof.
  intros t. induction t as [b0 c0 ks IH] using tree_ind'. intros b cs. rewrite leaf_inv, nodes_eq. cbn [In]. rewrite in_flat_map. split.
  - intros [(-> & -> & ->) | (k & I & L)]; [left; reflexivity|right]. exists k. split; [exact I|]. apply IH; assumption.
  - intros [E | (k & I & L)]; [left; injection E as -> -> ->; auto|right]. exists k. split; [exact I|]. apply IH; assumption.
Qed.
Lemma leaf_exists : forall t, exists b cs, leaf_of t b cs.
Proof.
  intros t. induction t as [b c ks IH] using tree_ind'. destruct ks as [|k r]; [exists b, c; constructor|].
  destruct (IH k (or_introl eq_refl)) as (b' & c' & L). exists b', c'. eapply leaf_below; [left; reflexivity|exact L].
Qed.

(** ** Boxes *)
Section Boxes.
  Open Scope R_scope.
  Lemma axis_iff : forall a1 a2 b1 b2 t, axis_meet a1 a2 b1 b2 t = true <-> b1 <= a2 + t /\ a1 - t <= b2.
  Proof. intros. unfold axis_meet. destruct (Rlt_dec (a2 + t) b1) as [H|H]; [split; [discriminate|lra]|]. destruct (Rlt_dec b2 (a1 - t)) as [H'|H']; split; try discriminate; lra. Qed.
  Lemma axis_points : forall a1 a2 b1 b2 t, 0 <= t -> a1 <= a2 -> b1 <= b2 -> b1 <= a2 + t -> a1 - t <= b2 ->
    exists p q, a1 <= p <= a2 /\ b1 <= q <= b2 /\ Rabs (p - q) <= t.
  Proof.
    intros a1 a2 b1 b2 t T A B H1 H2. destruct (Rle_lt_dec b1 a2) as [L|L].
    - destruct (Rle_lt_dec a1 b2) as [M|M].
      + destruct (Rle_lt_dec a1 b1) as [K|K].
        * exists b1, b1. split; [lra|]. split; [lra|]. rewrite Rminus_diag_eq, Rabs_R0; lra.
        * exists a1, a1. split; [lra|]. split; [lra|]. rewrite Rminus_diag_eq, Rabs_R0; lra.
      + exists a1, b2. split; [lra|]. split; [lra|]. rewrite Rabs_right; lra.
    - exists a2, b1. split; [lra|]. split; [lra|]. rewrite Rabs_left; lra.
  Qed.
  Lemma axis_back : forall a1 a2 b1 b2 t p q, a1 <= p <= a2 -> b1 <= q <= b2 -> Rabs (p - q) <= t -> b1 <= a2 + t /\ a1 - t <= b2.
  Proof. intros a1 a2 b1 b2 t p q A B H. pose proof (Rle_abs (p - q)). pose proof (Rle_abs (- (p - q))). rewrite Rabs_Ropp in *. lra. Qed.
  Lemma nonempty : forall b, (exists p, inside b p) -> vx (bmin b) <= vx (bmax b) /\ vy (bmin b) <= vy (bmax b) /\ vz (bmin b) <= vz (bmax b).
  Proof. intros b (p & A & B & C). lra. Qed.
  Lemma meet_iff : forall a b t, 0 <= t -> (exists p, inside a p) -> (exists p, inside b p) -> intersectBoxBox a b t = true <-> reach t a b.
  Proof.
    intros a b t T Na Nb. apply nonempty in Na, Nb. unfold intersectBoxBox. rewrite !andb_true_iff, !axis_iff. split.
    - intros ((X & Y) & Z). destruct (axis_points _ _ _ _ t T (proj1 Na) (proj1 Nb) (proj1 X) (proj2 X)) as (px & qx & X1 & X2 & X3).
      destruct (axis_points _ _ _ _ t T (proj1 (proj2 Na)) (proj1 (proj2 Nb)) (proj1 Y) (proj2 Y)) as (py & qy & Y1 & Y2 & Y3).
      destruct (axis_points _ _ _ _ t T (proj2 (proj2 Na)) (proj2 (proj2 Nb)) (proj1 Z) (proj2 Z)) as (pz & qz & Z1 & Z2 & Z3).
      exists (V3 px py pz), (V3 qx qy qz). unfold inside. cbn [vx vy vz]. tauto.
    - intros (p & q & (A1 & A2 & A3) & (B1 & B2 & B3) & X & Y & Z). split; [split|]; eapply axis_back; eassumption.
  Qed.
  Lemma meet_within : forall s a b t, (exists p, inside a p) -> within a b -> intersectBoxBox s a t = true -> intersectBoxBox s b t = true.
  Proof.
    intros s a b t N W. unfold intersectBoxBox. rewrite !andb_true_iff, !axis_iff.
    assert (C : inside b (bmin a) /\ inside b (bmax a)). { apply nonempty in N. split; apply W; unfold inside; lra. }
    destruct C as (C1 & C2). unfold inside in C1, C2. intros ((X & Y) & Z). lra.
  Qed.
End Boxes.

Lemma bounding_inv : forall t, bounding t -> (exists p, inside (tbox t) p) /\ (forall k, In k (tkids t) -> within (tbox k) (tbox t)) /\ (forall k, In k (tkids t) -> bounding k).
Proof. intros t H. destruct H; cbn; auto. Qed.
Lemma bounding_leaf : forall t, bounding t -> forall b cs, leaf_of t b cs -> (exists p, inside b p) /\ within b (tbox t).
Proof.
  intros t. induction t as [b0 c0 ks IH] using tree_ind'. intros H b cs L. apply bounding_inv in H. cbn [tbox tkids] in *. destruct H as (N & W & B). apply leaf_inv in L.
  destruct L as [(-> & -> & ->) | (k & I & L)]; [split; [exact N|intros p Q; exact Q]|]. destruct (IH k I (B k I) b cs L) as (A1 & A2). split; [exact A1|]. intros p Q. apply (W k I), A2, Q.
Qed.

(** ** The descent *)
(** a candidate: a leaf below an entry of the stack, meeting one of its boxes (for the entry of a leaf,
    whatever its boxes) *)
Definition found (tol : R) (t : tree) (sel : list sbox) (c : tree) : Prop :=
  match tkids t with
  | [] => c = t
  | _ => exists b cs s, c = Node b cs [] /\ leaf_of t b cs /\ In s sel /\ intersectBoxBox s b tol = true
  end.

Lemma push_in : forall tol sel ks stack e, In e (push_kids tol sel ks stack) <->
  In e stack \/ exists k, In k ks /\ e = (k, filter (fun s => intersectBoxBox s (tbox k) tol) sel) /\ snd e <> [].
Proof.
  induction ks as [|k r IH]; intros stack e; cbn [push_kids]; [split; [auto|intros [H | (k & [] & _)]; exact H]|].
  rewrite IH. clear IH. destruct (filter (fun s => intersectBoxBox s (tbox k) tol) sel) as [|s l] eqn:E.
  - split; [intros [H | (k' & I & Q)]; [auto|right; exists k'; split; [right; exact I|exact Q]]|].
    intros [H | (k' & [<- | I] & Q & N)]; [auto| |right; eauto]. destruct N. rewrite Q. exact E.
  - split.
    + intros [[H | H] | (k' & I & Q)]; [right; exists k; split; [left; reflexivity|]; rewrite E; split; [auto|rewrite <- H; discriminate]|auto|right; exists k'; split; [right; exact I|exact Q]].
    + intros [H | (k' & [<- | I] & Q & N)]; [left; right; exact H|left; left; rewrite Q, E; reflexivity|right; eauto].
Qed.
Lemma push_size : forall tol sel ks stack, total_nodes (map fst (push_kids tol sel ks stack)) <= total_nodes ks + total_nodes (map fst stack).
Proof.
  induction ks as [|k r IH]; intros stack; cbn [push_kids total_nodes]; [lia|]. specialize (IH (match filter (fun s => intersectBoxBox s (tbox k) tol) sel with [] => stack | _ => (k, filter (fun s => intersectBoxBox s (tbox k) tol) sel) :: stack end)).
  destruct (filter (fun s => intersectBoxBox s (tbox k) tol) sel); cbn [map fst total_nodes] in *; lia.
Qed.

(** what an entry gives is what its children give *)
Lemma found_leaf : forall tol t sel c, tkids t = [] -> (found tol t sel c <-> c = t).
Proof. intros tol t sel c E. unfold found. rewrite E. reflexivity. Qed.
Lemma found_node : forall tol t sel c, tkids t <> [] -> (found tol t sel c <-> exists b cs s, c = Node b cs [] /\ leaf_of t b cs /\ In s sel /\ intersectBoxBox s b tol = true).
Proof. intros tol t sel c E. unfold found. destruct (tkids t); [destruct (E eq_refl)|reflexivity]. Qed.
Lemma kids_dec : forall t, tkids t = [] \/ tkids t <> [].
Proof. intros t. destruct (tkids t); [left; reflexivity|right; discriminate]. Qed.
Lemma some_in : forall (A : Type) (l : list A), l <> [] -> exists x, In x l.
Proof. intros A [|x l] H; [destruct (H eq_refl)|]. exists x. left. reflexivity. Qed.

Lemma found_step : forall tol t sel c, bounding t -> tkids t <> [] ->
  (found tol t sel c <-> exists k, In k (tkids t) /\ filter (fun s => intersectBoxBox s (tbox k) tol) sel <> [] /\ found tol k (filter (fun s => intersectBoxBox s (tbox k) tol) sel) c).
Proof.
  intros tol t sel c B N. rewrite (found_node tol t sel c N). destruct (bounding_inv t B) as (_ & _ & Bk). split.
  - intros (b & cs & s & -> & L & I & M). destruct t as [b0 c0 ks]. cbn [tkids] in *. apply leaf_inv in L. destruct L as [(E & _) | (k & Ik & L)]; [destruct (N E)|].
    destruct (bounding_leaf k (Bk k Ik) b cs L) as (Nb & W).
    assert (F : In s (filter (fun s => intersectBoxBox s (tbox k) tol) sel)) by (apply filter_In; split; [exact I|apply (meet_within s b (tbox k) tol Nb W M)]).
    exists k. split; [exact Ik|]. split; [intros E; rewrite E in F; exact F|]. destruct (kids_dec k) as [E|E].
    + apply (found_leaf _ _ _ _ E). destruct k as [bk ck kk]. cbn [tkids] in E. subst kk. apply leaf_inv in L. destruct L as [(_ & -> & ->) | (k' & [] & _)]. reflexivity.
    + apply (found_node _ _ _ _ E). exists b, cs, s. auto.
  - intros (k & Ik & F & H). destruct (kids_dec k) as [E|E].
    + apply (found_leaf _ _ _ _ E) in H. subst c. destruct (some_in _ _ F) as (s & Hs). apply filter_In in Hs. destruct k as [bk ck kk]. cbn [tkids tbox] in *. subst kk.
      exists bk, ck, s. split; [reflexivity|]. split; [|exact Hs]. destruct t as [b0 c0 ks]. eapply leaf_below; [exact Ik|constructor].
    + apply (found_node _ _ _ _ E) in H. destruct H as (b & cs & s & -> & L & Hs & M). apply filter_In in Hs. exists b, cs, s. split; [reflexivity|].
      split; [destruct t as [b0 c0 ks]; eapply leaf_below; [exact Ik|exact L]|]. split; [apply Hs|exact M].
Qed.

Lemma isLeaf_iff : forall t, isLeaf t = true <-> tkids t = [].
Proof. intros t. unfold isLeaf. destruct (tkids t); split; congruence. Qed.

Lemma descend_ok : forall tol fuel stack cands c, total_nodes (map fst stack) <= fuel -> Forall (fun e => bounding (fst e)) stack ->
  (In c (descend fuel tol stack cands) <-> In c cands \/ exists t sel, In (t, sel) stack /\ found tol t sel c).
Proof.
  intros tol. induction fuel as [|n IH]; intros stack cands c Hn B; destruct stack as [|(t, sel) r]; cbn [descend].
  - split; [auto|intros [H | (t & sel & [] & _)]; exact H].
  - cbn [map fst total_nodes] in Hn. rewrite length_nodes in Hn. lia.
  - split; [auto|intros [H | (t & sel & [] & _)]; exact H].
  - cbn [map fst total_nodes] in Hn. rewrite length_nodes in Hn. destruct (proj1 (Forall_cons_iff _ _ _) B) as (Bt & Br). cbn [fst] in Bt.
    destruct (bounding_inv t Bt) as (_ & _ & Bk). rewrite IH.
    + destruct (isLeaf t) eqn:El.
      * apply isLeaf_iff in El. rewrite El. cbn [push_kids]. rewrite in_app_iff. cbn [In]. split.
        -- intros [[H | [<- | []]] | (t' & sel' & I & F)]; [auto| |right; exists t', sel'; split; [right; exact I|exact F]]. right. exists t, sel. split; [left; reflexivity|]. apply found_leaf; [exact El|reflexivity].
        -- intros [H | (t' & sel' & [E | I] & F)]; [auto| |right; eauto]. injection E as <- <-. apply (found_leaf _ _ _ _ El) in F. subst c. left. right. left. reflexivity.
      * assert (N : tkids t <> []) by (intros E; apply isLeaf_iff in E; congruence). pose proof (found_step tol t sel c Bt N) as Fs. split.
        -- intros [H | (t' & sel' & I & F)]; [auto|]. right. apply push_in in I. destruct I as [I | (k & Ik & E & Ne)]; [exists t', sel'; split; [right; exact I|exact F]|].
           injection E as -> ->. exists t, sel. split; [left; reflexivity|]. apply Fs. exists k. split; [exact Ik|]. split; [exact Ne|exact F].
        -- intros [H | (t' & sel' & [E | I] & F)]; [auto| |right; exists t', sel'; split; [apply push_in; left; exact I|exact F]]. injection E as <- <-. apply Fs in F. destruct F as (k & Ik & Ne & F).
           right. exists k, (filter (fun s => intersectBoxBox s (tbox k) tol) sel). split; [|exact F]. apply push_in. right. exists k. split; [exact Ik|]. split; [reflexivity|exact Ne].
    + pose proof (push_size tol sel (tkids t) r). lia.
    + apply Forall_forall. intros e I. apply push_in in I. destruct I as [I | (k & Ik & -> & _)]; [apply (proj1 (Forall_forall _ _) Br e I)|]. apply (Bk k Ik).
Qed.

Lemma sweep_ok : forall tol s fuel queue cands c, total_nodes queue <= fuel -> Forall bounding queue ->
  (In c (sweep_queue fuel tol s queue cands) <-> In c cands \/ exists t, In t queue /\ found tol t [s] c).
Proof.
  intros tol s. assert (Ta : forall a b, total_nodes (a ++ b) = total_nodes a + total_nodes b) by (induction a as [|t a IHa]; intros b; cbn [app total_nodes]; [reflexivity|rewrite IHa; lia]).
  assert (Tf : forall p a, total_nodes (filter p a) <= total_nodes a) by (intros p; induction a as [|t a IHa]; cbn [filter total_nodes]; [lia|destruct (p t); cbn [total_nodes]; lia]).
  induction fuel as [|n IH]; intros queue cands c Hn B; destruct queue as [|t r]; cbn [sweep_queue].
  - split; [auto|intros [H | (t & [] & _)]; exact H].
  - cbn [total_nodes] in Hn. rewrite length_nodes in Hn. lia.
  - split; [auto|intros [H | (t & [] & _)]; exact H].
  - cbn [total_nodes] in Hn. rewrite length_nodes in Hn. destruct (proj1 (Forall_cons_iff _ _ _) B) as (Bt & Br). destruct (bounding_inv t Bt) as (_ & _ & Bk). rewrite IH.
    + destruct (isLeaf t) eqn:El.
      * apply isLeaf_iff in El. rewrite El. cbn [filter]. rewrite app_nil_r, in_app_iff. cbn [In]. split.
        -- intros [[H | [<- | []]] | (t' & I & F)]; [auto| |right; exists t'; split; [right; exact I|exact F]]. right. exists t. split; [left; reflexivity|]. apply found_leaf; [exact El|reflexivity].
        -- intros [H | (t' & [<- | I] & F)]; [auto| |right; eauto]. apply (found_leaf _ _ _ _ El) in F. subst c. left. right. left. reflexivity.
      * assert (N : tkids t <> []) by (intros E; apply isLeaf_iff in E; congruence). pose proof (found_step tol t [s] c Bt N) as Fs. cbn [filter] in Fs. split.
        -- intros [H | (t' & I & F)]; [auto|]. right. apply in_app_iff in I. destruct I as [I | I]; [exists t'; split; [right; exact I|exact F]|]. apply filter_In in I. destruct I as (I & M).
           exists t. split; [left; reflexivity|]. apply Fs. exists t'. rewrite M. split; [exact I|]. split; [discriminate|exact F].
        -- intros [H | (t' & [<- | I] & F)]; [auto| |right; exists t'; split; [apply in_app_iff; left; exact I|exact F]]. apply Fs in F. destruct F as (k & Ik & Ne & F).
           destruct (intersectBoxBox s (tbox k) tol) eqn:M; [|destruct (Ne eq_refl)]. right. exists k. split; [|exact F]. apply in_app_iff. right. apply filter_In. auto.
    + rewrite Ta. pose proof (Tf (fun k => intersectBoxBox s (tbox k) tol) (tkids t)). lia.
    + apply Forall_forall. intros e I. apply in_app_iff in I. destruct I as [I | I]; [apply (proj1 (Forall_forall _ _) Br e I)|]. apply filter_In in I. apply (Bk e (proj1 I)).
Qed.

Lemma collect_in : forall l id, In id (collect l) <-> exists t, In t l /\ In id (tcells t).
Proof. intros l id. unfold collect. rewrite nodup_In, in_flat_map. reflexivity. Qed.

(** ** Whole calls *)
Lemma extract_in : forall target sel old tol id, bounding target ->
  (In id (extractTarget target sel old tol) <-> In id old \/ (sel <> [] /\ exists c, In id (tcells c) /\ found tol target (filter (fun s => intersectBoxBox s (tbox target) tol) sel) c)).
Proof.
  intros target sel old tol id B. unfold extractTarget. destruct sel as [|s0 r0]; [split; [auto|intros [H | (N & _)]; [exact H|destruct (N eq_refl)]]|]. set (sel := s0 :: r0). rewrite in_app_iff, collect_in. split.
  - intros [H | (c & I & H)]; [auto|]. right. split; [discriminate|]. apply descend_ok in I; [|cbn; lia|apply Forall_cons; [exact B|constructor]].
    destruct I as [[] | (t & l & [E | []] & F)]. injection E as <- <-. exists c. auto.
  - intros [H | (_ & c & H & F)]; [auto|]. right. exists c. split; [|exact H]. apply descend_ok; [cbn; lia|apply Forall_cons; [exact B|constructor]|]. right. eexists. eexists. split; [left; reflexivity|exact F].
Qed.
Lemma extract_boxes_in : forall target sel old tol id, bounding target ->
  (In id (extractTarget_boxes target sel old tol) <-> In id old \/ exists s c, In s sel /\ In id (tcells c) /\ found tol target [s] c).
Proof.
  intros target sel old tol id B. unfold extractTarget_boxes. destruct sel as [|s0 r0]; [split; [auto|intros [H | (s & c & [] & _)]; exact H]|]. set (sel := s0 :: r0). clearbody sel.
  assert (Fo : forall l cands c, In c (fold_left (fun c s => sweep_queue (length (nodes target)) tol s [target] c) l cands) <-> In c cands \/ exists s, In s l /\ found tol target [s] c).
  { induction l as [|s l IH]; intros cands c; cbn [fold_left]; [split; [auto|intros [H | (s & [] & _)]; exact H]|]. rewrite IH. rewrite sweep_ok; [|cbn; lia|apply Forall_cons; [exact B|constructor]]. split.
    - intros [[H | (t & [<- | []] & F)] | (s' & I & F)]; [auto|right; exists s; split; [left; reflexivity|exact F]|right; exists s'; split; [right; exact I|exact F]].
    - intros [H | (s' & [<- | I] & F)]; [auto|left; right; exists target; split; [left; reflexivity|exact F]|right; eauto]. }
  rewrite in_app_iff, collect_in. split.
  - intros [H | (c & I & H)]; [auto|]. right. apply Fo in I. destruct I as [[] | (s & Is & F)]. exists s, c. auto.
  - intros [H | (s & c & Is & H & F)]; [auto|]. right. exists c. split; [|exact H]. apply Fo. right. eauto.
Qed.

Lemma leaf_boxes_in : forall sel b tol s, In s (leaf_boxes sel b tol) <-> (exists cs, leaf_of sel s cs) /\ intersectBoxBox s b tol = true.
Proof.
  intros sel b tol s. unfold leaf_boxes. rewrite in_map_iff. split.
  - intros (n & <- & I). apply filter_In in I. destruct I as (I & H). apply andb_true_iff in H. destruct H as (L & M). split; [|exact M]. apply isLeaf_iff in L. destruct n as [bn cn kn]. cbn [tkids tbox] in *. subst kn. exists cn. apply leaf_nodes. exact I.
  - intros ((cs & L) & M). exists (Node s cs []). split; [reflexivity|]. apply filter_In. split; [apply leaf_nodes; exact L|]. cbn. exact M.
Qed.

(** when the boxes given meet the root, the candidates are the leaves meeting one of them *)
Lemma found_met : forall tol t sel c, bounding t -> sel <> [] -> (forall s, In s sel -> intersectBoxBox s (tbox t) tol = true) ->
  (found tol t sel c <-> exists b cs s, c = Node b cs [] /\ leaf_of t b cs /\ In s sel /\ intersectBoxBox s b tol = true).
Proof.
  intros tol t sel c B N M. destruct (kids_dec t) as [E|E]; [|apply found_node; exact E]. rewrite (found_leaf _ _ _ _ E). destruct t as [b0 c0 ks]. cbn [tkids tbox] in *. subst ks. split.
  - intros ->. destruct (some_in _ _ N) as (s & I). exists b0, c0, s. split; [reflexivity|]. split; [constructor|]. split; [exact I|exact (M s I)].
  - intros (b & cs & s & -> & L & _). apply leaf_inv in L. destruct L as [(_ & -> & ->) | (k & [] & _)]. reflexivity.
Qed.

(** ** Communication *)
Lemma write_here : forall (A : Type) (pre d buf : list A), length d <= length buf -> write_at (length pre) d (pre ++ buf) = pre ++ d ++ skipn (length d) buf.
Proof. induction pre as [|x pre IH]; intros d buf H; cbn [length app write_at]; [destruct buf; reflexivity|]. rewrite IH; [reflexivity|exact H]. Qed.
Lemma pack_length : forall l, length (pack l) = length l * 6.
Proof. induction l as [|b l IH]; [reflexivity|]. cbn [pack flat_map app length Nat.mul Nat.add]. fold (pack l). rewrite IH. reflexivity. Qed.
Lemma gather_ok : forall sends pre buf, length buf = 6 * fold_right Nat.add 0 (map (@length sbox) sends) ->
  gatherv (map pack sends) (displs (length pre) (map (@length sbox) sends)) (pre ++ buf) = pre ++ flat_map pack sends.
Proof.
  unfold gatherv. induction sends as [|l r IH]; intros pre buf H; cbn [map fold_right displs combine fold_left flat_map fst snd] in *.
  - destruct buf; [reflexivity|discriminate].
  - rewrite write_here; [|rewrite pack_length; lia]. rewrite <- pack_length, <- app_length, (app_assoc pre). rewrite IH; [rewrite <- app_assoc; reflexivity|]. rewrite skipn_length, pack_length. lia.
Qed.
Lemma unpack_pack : forall l, unpack (length l) (pack l) = l.
Proof. induction l as [|b l IH]; [reflexivity|]. cbn [pack flat_map app length unpack]. fold (pack l). rewrite IH. destruct b as [[a1 a2 a3] [b1 b2 b3]]. reflexivity. Qed.
Lemma pack_concat : forall ls, flat_map pack ls = pack (concat ls).
Proof. induction ls as [|l r IH]; [reflexivity|]. cbn [flat_map concat]. rewrite IH. unfold pack. rewrite flat_map_app. reflexivity. Qed.
Lemma length_total : forall ls : list (list sbox), fold_right Nat.add 0 (map (@length sbox) ls) = length (concat ls).
Proof. induction ls as [|l r IH]; [reflexivity|]. cbn [map fold_right concat]. rewrite IH, app_length. reflexivity. Qed.
Lemma received : forall big sends, unpack (fold_right Nat.add 0 (map (@length sbox) sends)) (gatherv (map pack sends) (displs 0 (map (@length sbox) sends)) (repeat big (6 * fold_right Nat.add 0 (map (@length sbox) sends)))) = concat sends.
Proof.
  intros big sends. pose proof (gather_ok sends [] (repeat big (6 * fold_right Nat.add 0 (map (@length sbox) sends)))) as H. cbn [length app] in H. rewrite H; [|apply repeat_length].
  rewrite pack_concat, length_total. apply unpack_pack.
Qed.
