(** Properties of OpenFOAM cases. *)
From Coq Require Import Reals List Arith Bool Lia Lra Permutation Sorted.
From Verif Require Import Vec Foam FoamSpec.
Import ListNotations.
Open Scope R_scope.

(** ** Cases *)
(** C138: reads of one directory give what is in it. *)
Theorem C138_one_partial : forall path (disk : path -> case) p n, reads disk None (repeat p n) = repeat (disk p) n.
Proof.
  intros path disk p n. destruct n as [|n]; [reflexivity|]. cbn. f_equal. induction n as [|n IH]; [reflexivity|]. cbn. f_equal. exact IH.
Qed.
Print Assumptions C138_one_partial.
(** C138 refuted: once a directory is read, reads of any others give what was in the first. *)
Theorem C138_second_refuted : forall path (disk : path -> case) p ps, reads disk None (p :: ps) = repeat (disk p) (S (length ps)).
Proof. intros path disk p ps. cbn. f_equal. induction ps as [|q ps IH]; [reflexivity|]. cbn. f_equal. exact IH. Qed.
Print Assumptions C138_second_refuted.
Example C138_nonvacuous : let c n := Case (repeat vzero n) [] (fun _ => 0%nat) [] [] (fun _ => (Other, [])) [] in
  map (fun c => length (c_points c)) (reads c None [3; 3]%nat) = [3; 3]%nat /\ map (fun c => length (c_points c)) (reads c None [3; 5]%nat) = [3; 3]%nat.
Proof. split; reflexivity. Qed.

(** ** Cells *)
(** C139: a cell that is no elementary shape is the polyhedron of its faces, each with its normal out of the cell. *)
Theorem C139_polyhedra : forall c i l, owned c -> c_shapes c i = (Other, l) -> convert c i = (POLYHEDRON, stream (map (outward c i) (nth i (c_cells c) []))).
Proof.
  intros c i l (ON & OC) E. unfold convert. rewrite E. f_equal. unfold poly_conn, stream. rewrite map_length. f_equal. assert (T : forall f, In f (nth i (c_cells c) []) -> turned c i f = outward c i f).
  { intros f I. unfold turned, outward, face. destruct (OC i f I) as [O|(B & N)].
    - destruct (Nat.eq_dec (c_owner c f) i) as [_|X]; [|contradiction]. destruct (Nat.leb_spec (length (c_neigh c)) f) as [_|B]; [reflexivity|]. rewrite O, Nat.eqb_refl. specialize (ON f B). rewrite O in ON.
      rewrite (proj2 (Nat.ltb_lt _ _) ON). reflexivity.
    - specialize (ON f B). rewrite N in ON. destruct (Nat.leb_spec (length (c_neigh c)) f); [lia|]. destruct (Nat.eq_dec (c_owner c f) i); [lia|]. destruct (Nat.eqb_spec i (c_owner c f)); [lia|]. destruct (Nat.ltb_spec i (c_owner c f)); [lia|reflexivity]. }
  induction (nth i (c_cells c) []) as [|f fs IH]; [reflexivity|]. cbn [flat_map map]. rewrite IH by (intros; apply T; right; assumption). rewrite (T f) by (left; reflexivity). f_equal. f_equal.
  unfold outward, face. destruct (Nat.eq_dec _ _); [reflexivity|rewrite rev_length; reflexivity].
Qed.
Print Assumptions C139_polyhedra.
(** C139: an elementary shape keeps its vertices. *)
Theorem C139_shapes : forall c i s l, c_shapes c i = (s, l) -> s <> Other -> length l = corners s -> Permutation (snd (convert c i)) l.
Proof.
  intros c i s l E N L. unfold convert. rewrite E.
  assert (K : forall is, Permutation is (seq 0 (length l)) -> Permutation (pick l is) l).
  { intros is P. unfold pick. rewrite (Permutation_map (fun k => nth k l 0%nat) P). clear. apply eq_ind with (P := fun x => Permutation x l) (x := l); [reflexivity|].
    induction l as [|x l IH]; [reflexivity|]. cbn [length seq map nth]. f_equal. rewrite <- seq_shift, map_map. exact IH. }
  destruct s; try contradiction; cbn [snd map_conn]; apply K; rewrite L; cbn [corners seq]; apply NoDup_Permutation; try (repeat constructor; cbn; lia); intro x; cbn; lia.
Qed.
Print Assumptions C139_shapes.
(** C139: the faces of an elementary shape are those it had. *)
Theorem C139_faces : forall c i s l, c_shapes c i = (s, l) -> length l = corners s ->
  forall f, In f (sides s) -> exists g, In g (sides s) /\ same_loop (map (fun k => nth k l 0%nat) g) (map (fun k => nth k (snd (convert c i)) 0%nat) f).
Proof.
  assert (K : forall a b : list nat, existsb (fun k => if list_eq_dec Nat.eq_dec b (skipn k a ++ firstn k a) then true else if list_eq_dec Nat.eq_dec b (rev (skipn k a ++ firstn k a)) then true else false) [0; 1; 2; 3]%nat = true -> same_loop a b).
  { intros a b H. apply existsb_exists in H. destruct H as (k & _ & H). exists k. destruct (list_eq_dec _ _ _) as [E|_]; [left; exact E|]. destruct (list_eq_dec _ _ _) as [E|_]; [right; exact E|discriminate]. }
  assert (M : forall (h : nat -> nat) a b, same_loop a b -> same_loop (map h a) (map h b)).
  { intros h a b (k & [-> | ->]); exists k; [left|right]; rewrite ?map_rev, ?map_app, ?skipn_map, ?firstn_map; reflexivity. }
  intros c i s l E L f I. unfold convert. rewrite E. set (is := match s with Tet => [2; 1; 3; 0] | Hex => [0; 3; 7; 4; 1; 2; 6; 5] | Prism => [0; 2; 1; 3; 5; 4] | Pyr => [3; 2; 1; 0; 4] | Other => [] end%nat).
  assert (J : exists g, In g (sides s) /\ same_loop g (map (fun k => nth k is 0%nat) f)).
  { assert (T : forallb (fun f => existsb (fun g => existsb (fun k => if list_eq_dec Nat.eq_dec (map (fun k => nth k is 0%nat) f) (skipn k g ++ firstn k g) then true else if list_eq_dec Nat.eq_dec (map (fun k => nth k is 0%nat) f) (rev (skipn k g ++ firstn k g)) then true else false) [0; 1; 2; 3]%nat) (sides s)) (sides s) = true) by (unfold is; destruct s; vm_compute; reflexivity).
    rewrite forallb_forall in T. specialize (T f I). apply existsb_exists in T. destruct T as (g & G & T). exists g. split; [exact G|]. apply K, T. }
  destruct J as (g & G & S0). exists g. split; [exact G|]. apply (M (fun k => nth k l 0%nat)) in S0. rewrite map_map in S0. assert (Q : map (fun k => nth k (snd match s with Hex => (HEXAHEDRON, map_conn Hex l) | Tet => (TETRA, map_conn Tet l) | Prism => (WEDGE, map_conn Prism l) | Pyr => (PYRAMID, map_conn Pyr l) | Other => (POLYHEDRON, poly_conn c i) end) 0%nat) f = map (fun x => nth (nth x is 0%nat) l 0%nat) f).
  { apply map_ext_in. intros x X. assert (B : (x < corners s)%nat) by (clear - I X; destruct s; cbn in I; repeat (destruct I as [<- |I]; [cbn in X; cbn; lia|]); destruct I).
    destruct s; cbn [corners] in B; do 9 (try (destruct x as [|x]; [reflexivity|])); lia. }
  rewrite Q. exact S0.
Qed.
Print Assumptions C139_faces.
(** C139: tetrahedra and hexahedra keep their orientation; in wedges and pyramids it is the opposite.
    Missing: that it is the one of bitpit, that is not in the sources. *)
Theorem C139_orientation_partial : forall (at_ : nat -> vec) c i p0 p1 p2 p3 p4 p5 p6 p7,
  (c_shapes c i = (Tet, [p0; p1; p2; p3]) -> exists q0 q1 q2 q3, convert c i = (TETRA, [q0; q1; q2; q3]) /\ volume at_ q0 q1 q2 q3 = volume at_ p0 p1 p2 p3) /\
  (c_shapes c i = (Hex, [p0; p1; p2; p3; p4; p5; p6; p7]) ->
     exists q0 q1 q2 q3 q4 q5 q6 q7, convert c i = (HEXAHEDRON, [q0; q1; q2; q3; q4; q5; q6; q7]) /\ volume at_ q0 q1 q3 q4 = volume at_ p0 p1 p3 p4) /\
  (c_shapes c i = (Prism, [p0; p1; p2; p3; p4; p5]) -> exists q0 q1 q2 q3 q4 q5, convert c i = (WEDGE, [q0; q1; q2; q3; q4; q5]) /\ volume at_ q0 q1 q2 q3 = - volume at_ p0 p1 p2 p3) /\
  (c_shapes c i = (Pyr, [p0; p1; p2; p3; p4]) -> exists q0 q1 q2 q3 q4, convert c i = (PYRAMID, [q0; q1; q2; q3; q4]) /\ volume at_ q0 q1 q3 q4 = - volume at_ p3 p0 p2 p4).
Proof.
  intros at_ c i p0 p1 p2 p3 p4 p5 p6 p7. unfold convert. repeat split; intros ->; cbn [map_conn pick map nth]; repeat eexists; unfold volume, dot, cross, vsub; cbn; ring.
Qed.
Print Assumptions C139_orientation_partial.
Example C139_nonvacuous : let c := Case [] [[0; 1; 2]; [2; 3; 4]; [5; 6; 7; 8]]%nat (fun f => if Nat.eqb f 2 then 1%nat else 0%nat) [1]%nat [[0; 1]; [0; 2]]%nat (fun _ => (Other, [])) [] in
  owned c /\ convert c 0 = (POLYHEDRON, [2; 3; 0; 1; 2; 3; 2; 3; 4])%nat /\ convert c 1 = (POLYHEDRON, [2; 3; 2; 1; 0; 4; 5; 6; 7; 8])%nat.
Proof.
  cbn zeta. split; [|split; reflexivity]. split.
  - intros f H. cbn in H. assert (f = 0%nat) by lia. subst. cbn. lia.
  - intros i f I. cbn in *. destruct i as [|[|[|i]]]; cbn in I; intuition (subst; cbn; auto).
Qed.

(** ** Faces *)
Lemma insert_perm : forall x l, Permutation (insert x l) (x :: l).
Proof. induction l as [|y l IH]; [reflexivity|]. cbn. destruct (Nat.leb x y); [reflexivity|]. rewrite IH. apply perm_swap. Qed.
Lemma sort_perm : forall l, Permutation (sort l) l.
Proof. induction l as [|x l IH]; [reflexivity|]. cbn. rewrite insert_perm. apply perm_skip, IH. Qed.
Lemma insert_sorted : forall x l, StronglySorted le l -> StronglySorted le (insert x l).
Proof.
  induction l as [|y l IH]; intro H; [repeat constructor|]. cbn. inversion H as [|? ? H1 H2]; subst. destruct (Nat.leb_spec x y) as [L|L].
  - constructor; [exact H|]. constructor; [exact L|]. eapply Forall_impl; [|exact H2]. cbn. intros. lia.
  - constructor; [apply IH; exact H1|]. rewrite Forall_forall in *. intros z Z. apply (Permutation_in _ (insert_perm x l)) in Z. destruct Z as [<- |Z]; [lia|auto].
Qed.
Lemma sort_sorted : forall l, StronglySorted le (sort l).
Proof. induction l as [|x l IH]; [constructor|]. cbn. apply insert_sorted, IH. Qed.
Lemma sorted_unique : forall a b, StronglySorted le a -> StronglySorted le b -> Permutation a b -> a = b.
Proof.
  induction a as [|x a IH]; intros b A B P; [apply Permutation_nil in P; congruence|]. destruct b as [|y b]; [apply Permutation_sym, Permutation_nil in P; discriminate|].
  inversion A as [|? ? A1 A2]; inversion B as [|? ? B1 B2]; subst. rewrite Forall_forall in A2, B2. assert (E : x = y).
  { assert (X : In x (y :: b)) by (apply (Permutation_in _ P); left; reflexivity). assert (Y : In y (x :: a)) by (apply (Permutation_in _ (Permutation_sym P)); left; reflexivity).
    destruct X as [X|X]; [congruence|]. destruct Y as [Y|Y]; [congruence|]. specialize (A2 _ Y). specialize (B2 _ X). lia. }
  subst y. f_equal. apply IH; try assumption. apply Permutation_cons_inv in P. exact P.
Qed.
Lemma sort_same : forall a b, Permutation a b -> sort a = sort b.
Proof. intros a b P. apply sorted_unique; try apply sort_sorted. rewrite !sort_perm. exact P. Qed.
Lemma sort_id : forall l, StronglySorted lt l -> sort l = l.
Proof.
  intros l H. apply sorted_unique; [apply sort_sorted| |apply sort_perm]. induction H as [|x l H IH F]; constructor; [exact IH|]. eapply Forall_impl; [|exact F]. cbn. intros. lia.
Qed.
Lemma std_same : forall a b, std_equal a (a ++ b) = Some true.
Proof. induction a as [|x a IH]; intro b; [reflexivity|]. cbn. rewrite Nat.eqb_refl. apply IH. Qed.
Lemma std_past : forall a x b, std_equal (a ++ x :: b) a = None.
Proof. induction a as [|y a IH]; intros x b; [reflexivity|]. cbn. rewrite Nat.eqb_refl. apply IH. Qed.
Lemma shared_perm : forall v v' w w', Permutation v v' -> Permutation w w' -> shared v w = shared v' w'.
Proof.
  intros v v' w w' V W. unfold shared. rewrite (filter_ext _ (fun x => if in_dec Nat.eq_dec x w' then true else false)).
  - induction V; cbn; repeat match goal with |- context [in_dec ?a ?b ?c] => destruct (in_dec a b c) end; cbn; congruence.
  - intro x. destruct (in_dec Nat.eq_dec x w) as [I|I], (in_dec Nat.eq_dec x w') as [J|J]; try reflexivity; exfalso; [apply J, (Permutation_in _ W), I|apply I, (Permutation_in _ (Permutation_sym W)), J].
Qed.
Lemma std_differ : forall v f, (3 <= length v)%nat -> (3 <= length f)%nat -> (shared v f <= 2)%nat -> std_equal (sort v) (sort f) = Some false.
Proof.
  intros v f L M S0. rewrite (shared_perm v (sort v) f (sort f)) in S0 by (symmetry; apply sort_perm). rewrite <- (Permutation_length (sort_perm v)) in L. rewrite <- (Permutation_length (sort_perm f)) in M.
  destruct (sort v) as [|x [|y [|z a]]]; cbn in L; try lia. destruct (sort f) as [|x' [|y' [|z' b]]]; cbn in M; try lia. cbn [std_equal].
  destruct (Nat.eqb_spec x x') as [<- |]; [|reflexivity]. destruct (Nat.eqb_spec y y') as [<- |]; [|reflexivity]. destruct (Nat.eqb_spec z z') as [<- |]; [|reflexivity]. exfalso.
  unfold shared in S0. cbn [filter] in S0. repeat match goal with H : context [in_dec ?a ?b ?c] |- _ => destruct (in_dec a b c) as [?|N]; [|exfalso; apply N; cbn; tauto] end. cbn in S0. lia.
Qed.
(** the interfaces of the mesh: for each face, the owner has one with its vertices, and any other shares two vertices with it at most *)
Definition matched (c : case) (ifs : nat -> list (nat * list nat)) (i : nat -> nat) : Prop := forall f, (f < length (c_faces c))%nat ->
  let v := nth f (c_faces c) [] in (3 <= length v)%nat /\ (exists w, In (i f, w) (ifs (c_owner c f))) /\
  forall j w, In (j, w) (ifs (c_owner c f)) -> (j = i f /\ Permutation w v) \/ (j <> i f /\ (3 <= length w)%nat /\ (shared w v <= 2)%nat).
Lemma find_matched : forall ifs v i, (3 <= length v)%nat -> (exists w, In (i, w) ifs) ->
  (forall j w, In (j, w) ifs -> (j = i /\ Permutation w v) \/ (j <> i /\ (3 <= length w)%nat /\ (shared w v <= 2)%nat)) -> find_interface ifs v = Some (Some i).
Proof.
  induction ifs as [|[j w] ifs IH]; intros v i L (u & I) H; [destruct I|]. cbn [find_interface]. destruct (H j w (or_introl eq_refl)) as [(-> & P)|(N & L' & S0)].
  - rewrite (sort_same _ _ P). replace (std_equal (sort v) (sort v)) with (Some true); [reflexivity|]. symmetry. rewrite <- (app_nil_r (sort v)) at 2. apply std_same.
  - rewrite std_differ by assumption. apply IH; [exact L| |intros; apply H; right; assumption]. destruct I as [I|I]; [injection I as I _; congruence|exists u; exact I].
Qed.
Lemma map_insert_other : forall m f i g, g <> f -> map_insert m f i g = m g.
Proof. intros m f i g N. unfold map_insert. destruct (Nat.eqb_spec g f); [contradiction|reflexivity]. Qed.
Lemma map_faces_keep : forall c ifs fs m m' f x, map_faces c ifs fs m = Some m' -> m f = Some x -> m' f = Some x.
Proof.
  intros c ifs. induction fs as [|g fs IH]; intros m m' f x E M; cbn in E; [congruence|]. destruct (find_interface _ _) as [i|]; [|discriminate]. apply (IH _ _ _ _ E).
  unfold map_insert. destruct (Nat.eqb_spec f g) as [<- |]; [rewrite M; reflexivity|exact M].
Qed.
(** C140: the faces are mapped to the interfaces with their vertices. *)
Theorem C140_faces : forall c ifs i, matched c ifs i -> exists m, faces_map c ifs (fun _ => None) = Some m /\
  (forall f, (f < length (c_faces c))%nat -> m f = Some (Some (i f))) /\ (forall f, (length (c_faces c) <= f)%nat -> m f = None).
Proof.
  intros c ifs i M. unfold faces_map. assert (G : forall n s m, (s + n <= length (c_faces c))%nat -> (forall f, (s <= f)%nat -> m f = None) ->
    exists m', map_faces c ifs (seq s n) m = Some m' /\ (forall f, (s <= f < s + n)%nat -> m' f = Some (Some (i f))) /\ (forall f, (s + n <= f)%nat -> m' f = None)).
  { induction n as [|n IH]; intros s m B H; [exists m; split; [reflexivity|split; [intros; lia|intros; apply H; lia]]|]. cbn [seq map_faces]. destruct (M s ltac:(lia)) as (L & E & U). fold (face c s) in *.
    rewrite (find_matched _ _ (i s) L E U). destruct (IH (S s) (map_insert m s (Some (i s)))) as (m' & E' & I1 & I2); [lia| |].
    { intros f F. rewrite map_insert_other by lia. apply H. lia. }
    exists m'. split; [exact E'|]. split; [|intros f F; apply I2; lia]. intros f F. destruct (Nat.eq_dec f s) as [-> |N]; [|apply I1; lia]. apply (map_faces_keep _ _ _ _ _ _ _ E'). unfold map_insert. rewrite Nat.eqb_refl, H by lia. reflexivity. }
  destruct (G (length (c_faces c)) 0%nat (fun _ => None) ltac:(lia) ltac:(reflexivity)) as (m & E & I1 & I2). exists m. split; [exact E|]. split; [intros f F; apply I1; lia|intros f F; apply I2; lia].
Qed.
Print Assumptions C140_faces.
Lemma fold_pids : forall m (i : nat -> nat) p n s g x, (forall f, (s <= f < s + n)%nat -> m f = Some (Some (i f))) ->
  fold_left (fun g f => set_pid g (at_ m f) p) (seq s n) g x = if in_dec Nat.eq_dec x (map i (seq s n)) then p else g x.
Proof.
  intros m i p. induction n as [|n IH]; intros s g x H; [reflexivity|]. cbn [seq fold_left map]. rewrite IH by (intros; apply H; lia). unfold at_. rewrite (H s) by lia. cbn [set_pid].
  destruct (in_dec Nat.eq_dec x (map i (seq (S s) n))) as [I|I], (in_dec Nat.eq_dec x (i s :: map i (seq (S s) n))) as [J|J], (Nat.eqb_spec x (i s)) as [E|E]; subst; try reflexivity; exfalso; cbn in J; tauto || (destruct J; congruence || contradiction).
Qed.
(** C140: the cells of the boundary have the number of the patch of their face, from one, and zero if they are of none. *)
Theorem C140_patches : forall m patches (i : nat -> nat), (forall k f, in_patch patches k f -> m f = Some (Some (i f))) -> apart patches ->
  (forall k k' f g, in_patch patches k f -> in_patch patches k' g -> i f = i g -> f = g) ->
  (forall k f, in_patch patches k f -> pids m patches (i f) = S k) /\ (forall x, (forall k f, in_patch patches k f -> i f <> x) -> pids m patches x = 0%nat).
Proof.
  intros m patches i. unfold pids. enough (G : forall base g0, (forall k f, in_patch patches k f -> m f = Some (Some (i f))) -> apart patches ->
    (forall k k' f g, in_patch patches k f -> in_patch patches k' g -> i f = i g -> f = g) ->
    (forall k f, in_patch patches k f -> set_pids m base patches g0 (i f) = S (base + k)) /\ (forall x, (forall k f, in_patch patches k f -> i f <> x) -> set_pids m base patches g0 x = g0 x)) by (intros; apply (G 0%nat); assumption).
  induction patches as [|[s n] ps IH]; intros base g0 M A J.
  - split; [intros k f (a & b & E & _); destruct k; discriminate|reflexivity].
  - assert (UP : forall k f, in_patch ps k f -> in_patch ((s, n) :: ps) (S k) f) by (intros k f (a & b & E & B); exists a, b; split; [exact E|exact B]).
    assert (HD : forall f, (s <= f < s + n)%nat -> in_patch ((s, n) :: ps) 0 f) by (intros f B; exists s, n; split; [reflexivity|exact B]).
    cbn [set_pids]. set (g1 := fold_left _ _ g0). assert (G1 : forall x, g1 x = if in_dec Nat.eq_dec x (map i (seq s n)) then S base else g0 x) by (intro x; apply fold_pids; intros f B; apply (M 0%nat), HD, B).
    destruct (IH (S base) g1) as (I1 & I2).
    { intros k f H. exact (M _ _ (UP _ _ H)). }
    { intros k k' f H H'. pose proof (A _ _ _ (UP _ _ H) (UP _ _ H')). lia. }
    { intros k k' f g H H'. exact (J _ _ _ _ (UP _ _ H) (UP _ _ H')). }
    split.
    + intros k f H. destruct k as [|k].
      * destruct H as (a & b & E & B). injection E as <- <-. rewrite I2.
        { rewrite G1, Nat.add_0_r. destruct (in_dec Nat.eq_dec (i f) (map i (seq s n))) as [_|N]; [reflexivity|]. exfalso. apply N, in_map, in_seq. exact B. }
        intros k g H Q. pose proof (J _ _ _ _ (UP _ _ H) (HD f B) Q). subst g. pose proof (A _ _ _ (UP _ _ H) (HD f B)). lia.
      * assert (H' : in_patch ps k f) by (destruct H as (a & b & E & B); exists a, b; split; [exact E|exact B]). rewrite (I1 _ _ H'). lia.
    + intros x H. rewrite I2 by (intros k f F; exact (H _ _ (UP _ _ F))). rewrite G1. destruct (in_dec Nat.eq_dec x (map i (seq s n))) as [I|_]; [|reflexivity]. exfalso. apply in_map_iff in I. destruct I as (f & E & I). apply in_seq in I. exact (H _ _ (HD f I) E).
Qed.
Print Assumptions C140_patches.
(** C140 refuted: an interface with the first of the vertices of a face is taken for it. *)
Theorem C140_first_vertices_refuted : forall w x r j rest, StronglySorted lt (w ++ x :: r) -> find_interface ((j, w) :: rest) (w ++ x :: r) = Some (Some j) /\ ~ Permutation w (w ++ x :: r).
Proof.
  intros w x r j rest H. split.
  - cbn. rewrite (sort_id (w ++ x :: r)) by exact H. rewrite sort_id, std_same; [reflexivity|]. clear - H. induction w as [|a w IH]; [constructor|]. cbn in H. inversion H as [|? ? H1 H2]; subst. constructor; [apply IH; exact H1|]. apply Forall_app in H2. apply H2.
  - intro P. apply Permutation_length in P. rewrite app_length in P. cbn in P. lia.
Qed.
Print Assumptions C140_first_vertices_refuted.
(** C140 refuted: a face with the first of the vertices of an interface is read past its end. *)
Theorem C140_past_end_refuted : forall f x r j rest, StronglySorted lt (f ++ x :: r) -> find_interface ((j, f ++ x :: r) :: rest) f = None.
Proof.
  intros f x r j rest H. cbn. rewrite (sort_id (f ++ x :: r)) by exact H. rewrite sort_id, std_past; [reflexivity|]. clear - H. induction f as [|a w IH]; [constructor|]. cbn in H. inversion H as [|? ? H1 H2]; subst. constructor; [apply IH; exact H1|]. apply Forall_app in H2. apply H2.
Qed.
Print Assumptions C140_past_end_refuted.
(** C140 refuted: what the map has from before stays. *)
Theorem C140_old_map_refuted : forall c ifs m m' f x, m f = Some x -> faces_map c ifs m = Some m' -> m' f = Some x.
Proof. intros c ifs m m' f x M E. exact (map_faces_keep _ _ _ _ _ _ _ E M). Qed.
Print Assumptions C140_old_map_refuted.
Example C140_nonvacuous : let c := Case [] [[0; 1; 2]; [3; 1; 0]]%nat (fun _ => 0%nat) [] [[0; 1]]%nat (fun _ => (Other, [])) [(0, 1); (1, 1)]%nat in
  let ifs := fun _ : nat => [(7, [3; 0; 1]); (5, [2; 1; 0])]%nat in let i := fun f => match f with O => 5 | _ => 7 end%nat in
  matched c ifs i /\ apart (c_patches c) /\ in_patch (c_patches c) 1 1 /\ (forall k k' f g, in_patch (c_patches c) k f -> in_patch (c_patches c) k' g -> i f = i g -> f = g) /\
  exists m, faces_map c ifs (fun _ => None) = Some m /\ pids m (c_patches c) 7 = 2%nat /\ pids m (c_patches c) 4 = 0%nat.
Proof.
  cbn zeta. assert (IP : forall k f, in_patch [(0, 1); (1, 1)]%nat k f -> (k = f /\ f < 2)%nat).
  { intros k f (a & b & E & B). destruct k as [|[|k]]; cbn in E; [injection E as <- <-; lia|injection E as <- <-; lia|destruct k; discriminate]. }
  split; [|split; [|split; [|split]]].
  - intros f B. cbn in B. destruct f as [|[|f]]; [| |lia]; cbn; (split; [lia|]); (split; [eexists; auto|]); intros j w [E|[E|[]]]; injection E as <- <-.
    + right. split; [discriminate|]. split; [cbn; lia|]. vm_compute. lia.
    + left. split; [reflexivity|]. apply NoDup_Permutation; [repeat constructor; cbn; lia|repeat constructor; cbn; lia|cbn; lia].
    + left. split; [reflexivity|]. apply NoDup_Permutation; [repeat constructor; cbn; lia|repeat constructor; cbn; lia|cbn; lia].
    + right. split; [discriminate|]. split; [cbn; lia|]. vm_compute. lia.
  - intros k k' f H H'. apply IP in H, H'. lia.
  - exists 1%nat, 1%nat. split; [reflexivity|lia].
  - intros k k' f g H H'. apply IP in H, H'. destruct f as [|[|f]], g as [|[|g]]; try lia; discriminate.
  - eexists. split; [vm_compute; reflexivity|]. split; reflexivity.
Qed.

(** ** Points *)
(** C141: the points written to a case of as many are those of the vertices, by their ids; the rest of the case stays. *)
Theorem C141_points : forall c coords internal, let n := length (c_points c) in
  exists c', write_points c (points_of false (seq 0 n) coords internal) = Some c' /\ length (c_points c') = n /\ (forall i, (i < n)%nat -> nth i (c_points c') vzero = coords i) /\
  c_faces c' = c_faces c /\ c_cells c' = c_cells c /\ c_patches c' = c_patches c.
Proof.
  intros c coords internal n. unfold write_points, points_of. rewrite map_length, seq_length. unfold n at 1. rewrite Nat.eqb_refl. eexists. split; [reflexivity|]. cbn. rewrite map_length, seq_length. split; [reflexivity|]. split; [|auto].
  intros i B. rewrite (nth_indep _ vzero (coords 0%nat)) by (rewrite map_length, seq_length; exact B). rewrite map_nth, seq_nth by exact B. reflexivity.
Qed.
Print Assumptions C141_points.
Lemma sort_seq : forall l n, NoDup l -> (forall v, In v l <-> (v < n)%nat) -> sort l = seq 0 n.
Proof.
  intros l n D H. apply sorted_unique; [apply sort_sorted| |].
  - generalize 0%nat. clear. induction n as [|n IH]; intro s; [constructor|]. cbn. constructor; [apply IH|]. apply Forall_forall. intros x I. apply in_seq in I. lia.
  - rewrite sort_perm. apply NoDup_Permutation; [exact D|apply seq_NoDup|]. intro v. rewrite H, in_seq. lia.
Qed.
(** C141: so it is with more processes, whatever the ghosts, when each point is of an internal cell. *)
Theorem C141_processes_partial : forall ids coords internal n, (forall v, (v < n)%nat <-> exists cell, In cell internal /\ In v cell) ->
  points_of true ids coords internal = points_of false (seq 0 n) coords internal.
Proof.
  intros ids coords internal n H. unfold points_of. f_equal. apply sort_seq; [apply NoDup_nodup|]. intro v. unfold remove_double. rewrite nodup_In, in_concat, H. reflexivity.
Qed.
Print Assumptions C141_processes_partial.
(** C141 refuted: with more processes, nothing is written to a case with a point that is of no cell. *)
Theorem C141_free_point_refuted : forall c ids coords internal v, (v < length (c_points c))%nat -> (forall cell, In cell internal -> ~ In v cell) ->
  (forall cell w, In cell internal -> In w cell -> (w < length (c_points c))%nat) -> write_points c (points_of true ids coords internal) = None.
Proof.
  intros c ids coords internal v B N U. unfold write_points, points_of. rewrite map_length, (Permutation_length (sort_perm _)). set (l := remove_double (concat internal)).
  assert (L : (length (v :: l) <= length (seq 0 (length (c_points c))))%nat).
  { apply NoDup_incl_length.
    - constructor; [|apply NoDup_nodup]. unfold l, remove_double. rewrite nodup_In, in_concat. intros (cell & I & J). exact (N cell I J).
    - intros w [<- |I]; apply in_seq; [lia|]. unfold l, remove_double in I. rewrite nodup_In, in_concat in I. destruct I as (cell & I & J). specialize (U cell w I J). lia. }
  rewrite seq_length in L. cbn in L. destruct (Nat.eqb_spec (length (c_points c)) (length l)); [lia|reflexivity].
Qed.
Print Assumptions C141_free_point_refuted.
Example C141_nonvacuous : (forall v, (v < 4)%nat <-> exists cell, In cell [[0; 1; 2]; [3; 1; 2]]%nat /\ In v cell) /\
  points_of true [9; 0; 1; 2; 3]%nat (fun i => V3 (INR i) 0 0) [[0; 1; 2]; [3; 1; 2]]%nat = [V3 (INR 0) 0 0; V3 (INR 1) 0 0; V3 (INR 2) 0 0; V3 (INR 3) 0 0].
Proof.
  split; [|reflexivity]. intro v. split.
  - intro B. destruct (Nat.eq_dec v 3) as [-> |N]; [exists [3; 1; 2]%nat|exists [0; 1; 2]%nat]; (split; [cbn; tauto|cbn; lia]).
  - intros (cell & I & J). cbn in I. destruct I as [<- |[<- |[]]]; cbn in J; lia.
Qed.

(** ** Fields *)
(** C142: the values of a field are given to the cells in their order; values in excess are left. *)
Theorem C142_bulk : forall V cells (vals : list V), NoDup cells -> (length cells <= length vals)%nat ->
  exists f, read_bulk V cells vals = Some f /\ forall k i x, nth_error cells k = Some i -> nth_error vals k = Some x -> value V f i = Some x.
Proof.
  intros V. induction cells as [|c cells IH]; intros vals D L; [exists []; split; [reflexivity|intros [|k] i x E; discriminate]|]. destruct vals as [|v vals]; [cbn in L; lia|]. inversion D; subst.
  destruct (IH vals) as (f & E & H); [assumption|cbn in L; lia|]. cbn [read_bulk]. rewrite E. exists ((c, v) :: f). split; [reflexivity|]. intros [|k] i x I X; cbn in I, X; unfold value; cbn.
  - injection I as <-. injection X as <-. rewrite Nat.eqb_refl. reflexivity.
  - destruct (Nat.eqb_spec i c) as [-> |N]; [exfalso; apply H1; exact (nth_error_In _ _ I)|]. exact (H k i x I X).
Qed.
Print Assumptions C142_bulk.
(** C142 refuted: with fewer values than cells, as for a field of the other type, they are read past their end. *)
Theorem C142_past_end_refuted : forall V cells (vals : list V), (length vals < length cells)%nat -> read_bulk V cells vals = None.
Proof. intros V. induction cells as [|c cells IH]; intros vals L; [cbn in L; lia|]. destruct vals as [|v vals]; [reflexivity|]. cbn. rewrite IH by (cbn in L; lia). reflexivity. Qed.
Print Assumptions C142_past_end_refuted.
Section Boundary.
  Variables (V : Type) (zero : V).
  Lemma has_iff : forall f i, has V f i = true <-> In i (map fst f).
  Proof. intros f i. unfold has. rewrite existsb_exists, in_map_iff. split; [intros (e & I & E); apply Nat.eqb_eq in E; exists e; auto|intros (e & E & I); exists e; split; [exact I|apply Nat.eqb_eq; auto]]. Qed.
  Lemma put_new : forall f i v, ~ In i (map fst f) -> put V f i v = Some (f ++ [(i, v)]).
  Proof. intros f i v N. unfold put. destruct (has V f i) eqn:E; [exfalso; apply N, has_iff, E|reflexivity]. Qed.
  Lemma put_zero_run : forall cells acc, NoDup cells -> (forall i, In i cells -> ~ In i (map fst acc)) -> put_zero V zero cells acc = Some (acc ++ map (fun c => (c, zero)) cells).
  Proof.
    induction cells as [|c cells IH]; intros acc D H; [cbn; rewrite app_nil_r; reflexivity|]. inversion D; subst. cbn [put_zero]. rewrite put_new by (apply H; left; reflexivity). rewrite IH; [rewrite <- app_assoc; reflexivity|assumption|].
    intros i I. rewrite map_app, in_app_iff. intros [J|[J|[]]]; [exact (H i (or_intror I) J)|cbn in J; subst; contradiction].
  Qed.
  Lemma put_missing_run : forall cells acc, NoDup cells -> (forall i, In i cells -> ~ In i (map fst acc)) -> put_missing V zero cells acc = Some (acc ++ map (fun c => (c, zero)) cells).
  Proof.
    induction cells as [|c cells IH]; intros acc D H; [cbn; rewrite app_nil_r; reflexivity|]. inversion D; subst. cbn [put_missing]. destruct (has V acc c) eqn:E; [exfalso; apply (H c); [left; reflexivity|apply has_iff, E]|].
    rewrite put_new by (apply H; left; reflexivity). rewrite IH; [rewrite <- app_assoc; reflexivity|assumption|].
    intros i I. rewrite map_app, in_app_iff. intros [J|[J|[]]]; [exact (H i (or_intror I) J)|cbn in J; subst; contradiction].
  Qed.
  Lemma put_patch_run : forall m (g : nat -> nat) vals f acc, (forall j, (f <= j < f + length vals)%nat -> m j = Some (Some (g j))) -> NoDup (map g (seq f (length vals))) ->
    (forall i, In i (map g (seq f (length vals))) -> ~ In i (map fst acc)) -> put_patch V m f vals acc = Some (acc ++ combine (map g (seq f (length vals))) vals).
  Proof.
    intros m g. induction vals as [|v vals IH]; intros f acc M D H; [cbn; rewrite app_nil_r; reflexivity|]. cbn [length seq map] in D, H. inversion D; subst. cbn [put_patch]. unfold at_. rewrite (M f) by (cbn; lia).
    rewrite put_new by (apply H; left; reflexivity). rewrite IH; [rewrite <- app_assoc; reflexivity| |assumption|].
    - intros j B. apply M. cbn. lia.
    - intros i I. rewrite map_app, in_app_iff. intros [J|[J|[]]]; [exact (H i (or_intror I) J)|cbn in J; subst; contradiction].
  Qed.
  Lemma value_in : forall f i v, NoDup (map fst f) -> In (i, v) f -> value V f i = Some v.
  Proof.
    intros f i v D I. unfold value. induction f as [|[j w] f IH]; [destruct I|]. cbn in D. inversion D; subst. cbn. destruct (Nat.eqb_spec i j) as [-> |N].
    - destruct I as [I|I]; [injection I as ->; reflexivity|]. exfalso. apply H1, in_map_iff. exists (j, v). auto.
    - destruct I as [I|I]; [injection I as -> ->; contradiction|]. exact (IH H2 I).
  Qed.
  Lemma value_out : forall f i, ~ In i (map fst f) -> value V f i = None.
  Proof. intros f i N. unfold value. destruct (find _ f) as [[j w]|] eqn:E; [|reflexivity]. exfalso. apply find_some in E. destruct E as (I & E). apply Nat.eqb_eq in E. cbn in E. subst. apply N, in_map_iff. exists (j, w). auto. Qed.
End Boundary.
(** what is known of the boundary when it has been read with the mesh: the cells of a patch are the interfaces of its faces *)
Definition of_patches {V} (m : nat -> option (option nat)) (patches : list (nat * nat)) (cells : list (nat * nat)) (vals : nat -> list V) (g : nat -> nat) : Prop :=
  NoDup (map fst cells) /\ forall k, vals k <> [] -> exists start, nth_error patches k = Some (start, length (vals k)) /\
  (forall f, (start <= f < start + length (vals k))%nat -> m f = Some (Some (g f)) /\ In (g f, S k) cells) /\ NoDup (map g (seq start (length (vals k)))).
(** C142: on the boundary, the cells of a patch have the values of their faces, or zero if there are none; with scalar fields the cells of
    no patch have zero, with vector ones they have nothing. *)
Theorem C142_boundary : forall V zero scalar m patches cells (vals : nat -> list V) g ps, of_patches m patches cells vals g -> NoDup ps ->
  exists f, read_boundary V zero scalar m patches cells vals ps [] = Some f /\
  (forall k start size j x, In (S k) ps -> nth_error patches k = Some (start, size) -> nth_error (vals k) j = Some x -> value V f (g (start + j)%nat) = Some x) /\
  (forall k i, In (S k) ps -> vals k = [] -> In (i, S k) cells -> value V f i = Some zero) /\
  (forall i, In 0%nat ps -> In (i, 0%nat) cells -> value V f i = if scalar then Some zero else None).
Proof.
  intros V zero scalar m patches cells vals g ps (DC & OP) DP.
  set (mine := fun p => map fst (filter (fun c : nat * nat => Nat.eqb (snd c) p) cells)).
  set (blk := fun p => match p with O => if scalar then map (fun c => (c, zero)) (mine 0%nat) else [] | S k => match vals k with [] => map (fun c => (c, zero)) (mine (S k)) | _ => combine (map g (seq (fst (nth k patches (0, 0)%nat)) (length (vals k)))) (vals k) end end).
  assert (MI : forall p i, In i (mine p) <-> In (i, p) cells).
  { intros p i. unfold mine. rewrite in_map_iff. split; [intros ([a b] & E & I); apply filter_In in I; destruct I as (I & Q); cbn in *; apply Nat.eqb_eq in Q; subst; exact I|intro I; exists (i, p); split; [reflexivity|apply filter_In; split; [exact I|apply Nat.eqb_refl]]]. }
  assert (MD : forall p, NoDup (mine p)).
  { intro p. unfold mine. clear - DC. induction cells as [|[a b] l IH]; [constructor|]. cbn in DC. inversion DC; subst. cbn. destruct (Nat.eqb b p); [|auto]. cbn. constructor; [|auto]. intro I. apply H1. apply in_map_iff in I. destruct I as (e & E & I). apply filter_In in I. apply in_map_iff. exists e. tauto. }
  assert (ONE : forall i p q, In (i, p) cells -> In (i, q) cells -> p = q).
  { clear - DC. induction cells as [|[a b] l IH]; intros i p q P Q; [destruct P|]. cbn in DC. inversion DC; subst. destruct P as [P|P], Q as [Q|Q]; [congruence| | |eapply IH; eassumption]; exfalso; apply H1; apply in_map_iff; [injection P as <- <-; exists (a, q); auto|injection Q as <- <-; exists (a, p); auto]. }
  assert (ST : forall k, vals k <> [] -> exists start, nth k patches (0, 0)%nat = (start, length (vals k)) /\ nth_error patches k = Some (start, length (vals k)) /\
     (forall f, (start <= f < start + length (vals k))%nat -> m f = Some (Some (g f)) /\ In (g f, S k) cells) /\ NoDup (map g (seq start (length (vals k))))).
  { intros k NV. destruct (OP k NV) as (s & E & H). exists s. split; [|tauto]. apply (nth_error_nth _ _ (0, 0)%nat) in E. exact E. }
  assert (BK : forall p, NoDup (map fst (blk p)) /\ (forall i, In i (map fst (blk p)) -> In (i, p) cells)).
  { assert (Z : forall l, map fst (map (fun c : nat => (c, zero)) l) = l) by (intro l; rewrite map_map; apply map_id).
    intros [|k]; unfold blk.
    - destruct scalar; [rewrite Z; split; [apply MD|intros i I; apply MI; exact I]|split; [constructor|intros i []]].
    - destruct (vals k) as [|v0 r0] eqn:E; [rewrite Z; split; [apply MD|intros i I; apply MI; exact I]|]. rewrite <- E. destruct (ST k ltac:(congruence)) as (s & N & _ & HF & HD). rewrite N. cbn [fst].
      assert (ML : map fst (combine (map g (seq s (length (vals k)))) (vals k)) = map g (seq s (length (vals k)))).
      { clear. generalize s. induction (vals k) as [|v l IH]; intro s0; [reflexivity|]. cbn. f_equal. apply IH. }
      rewrite ML. split; [exact HD|]. intros i I. apply in_map_iff in I. destruct I as (f & <- & I). apply in_seq in I. exact (proj2 (HF f I)). }
  assert (RUN : forall ps acc, NoDup ps -> (forall i p, In i (map fst acc) -> In p ps -> ~ In (i, p) cells) -> read_boundary V zero scalar m patches cells vals ps acc = Some (acc ++ flat_map blk ps)).
  { clear ps DP. induction ps as [|p ps IH]; intros acc D H; [cbn; rewrite app_nil_r; reflexivity|]. inversion D; subst. cbn [read_boundary]. fold (mine p).
    assert (DJ : forall i, In (i, p) cells -> ~ In i (map fst acc)) by (intros i I J; exact (H i p J (or_introl eq_refl) I)).
    match goal with |- match ?x with _ => _ end = _ => assert (STEP : x = Some (acc ++ blk p)) end.
    { destruct p as [|k]; unfold blk.
      - destruct scalar; [|rewrite app_nil_r; reflexivity]. apply put_missing_run; [apply MD|]. intros i I. apply DJ, MI, I.
      - destruct (vals k) as [|v0 r0] eqn:E; [apply put_zero_run; [apply MD|intros i I; apply DJ, MI, I]|]. rewrite <- E. destruct (ST k ltac:(congruence)) as (s & N & _ & HF & HD). rewrite N. cbn [fst].
        apply put_patch_run; [intros j B; apply HF; exact B|exact HD|]. intros i I. apply DJ. apply in_map_iff in I. destruct I as (f & <- & I). apply in_seq in I. exact (proj2 (HF f I)). }
    rewrite STEP. rewrite IH; [cbn [flat_map]; rewrite <- app_assoc; reflexivity|assumption|]. intros i q I Q. rewrite map_app, in_app_iff in I. destruct I as [I|I]; [exact (H i q I (or_intror Q))|].
    intro C. apply (proj2 (BK p)) in I. pose proof (ONE _ _ _ I C). subst q. contradiction. }
  exists (flat_map blk ps). split; [apply (RUN ps []); [exact DP|intros i p []]|].
  assert (ND : NoDup (map fst (flat_map blk ps))).
  { clear - DP BK ONE. induction ps as [|p ps IH]; [constructor|]. inversion DP; subst. cbn [flat_map]. rewrite map_app.
    assert (AP : forall a b : list nat, NoDup a -> NoDup b -> (forall x, In x a -> ~ In x b) -> NoDup (a ++ b)).
    { clear. induction a as [|x a IH]; intros b A B H; [exact B|]. inversion A; subst. cbn. constructor; [rewrite in_app_iff; intros [I|I]; [contradiction|exact (H x (or_introl eq_refl) I)]|]. apply IH; auto. intros y Y. apply H. right. exact Y. }
    apply AP; [apply BK|auto|]. intros i I J. apply in_map_iff in J. destruct J as (e & E & J). apply in_flat_map in J. destruct J as (q & Q & J). apply (proj2 (BK p)) in I. assert (C : In (i, q) cells) by (apply (proj2 (BK q)), in_map_iff; exists e; auto). pose proof (ONE _ _ _ I C). subst q. contradiction. }
  split; [|split].
  - intros k s z j x I PT X. apply value_in; [exact ND|]. apply in_flat_map. exists (S k). split; [exact I|]. unfold blk. destruct (vals k) as [|v0 r0] eqn:E; [destruct j; discriminate|]. rewrite <- E in *. destruct (ST k ltac:(congruence)) as (s' & N & N' & HF & HD).
    rewrite PT in N'. injection N' as <- ->. rewrite N. cbn [fst]. clear - X. revert s j X. induction (vals k) as [|v l IH]; intros s j X; [destruct j; discriminate|]. destruct j as [|j]; cbn in X |- *.
    + injection X as <-. left. rewrite Nat.add_0_r. reflexivity.
    + right. replace (s + S j)%nat with (S s + j)%nat by lia. apply IH. exact X.
  - intros k i I E C. apply value_in; [exact ND|]. apply in_flat_map. exists (S k). split; [exact I|]. unfold blk. rewrite E. apply in_map_iff. exists i. split; [reflexivity|apply MI; exact C].
  - intros i I C. destruct scalar.
    + apply value_in; [exact ND|]. apply in_flat_map. exists 0%nat. split; [exact I|]. unfold blk. apply in_map_iff. exists i. split; [reflexivity|apply MI; exact C].
    + apply value_out. intro J. apply in_map_iff in J. destruct J as (e & E & J). apply in_flat_map in J. destruct J as (q & Q & J). assert (C' : In (i, q) cells) by (apply (proj2 (BK q)), in_map_iff; exists e; auto). pose proof (ONE _ _ _ C C'). subst q. unfold blk in J. destruct J.
Qed.
Print Assumptions C142_boundary.
(** C142 refuted: a cell without value, as those of no patch for vector fields, makes the interpolation fail in all the vertices. *)
Theorem C142_no_value_refuted : forall V zero add scale f cs c w a v, In (c, w, a) cs -> value V f c = None -> interpolate V zero add scale f cs v = None.
Proof.
  intros V zero add scale f cs c w a v I N. unfold interpolate. assert (E : forall acc, sum_up V add scale f cs v acc = None); [|rewrite E; reflexivity].
  induction cs as [|[[c' w'] a'] cs IH]; intro acc; [destruct I|]. cbn. destruct I as [I|I]; [injection I as -> -> ->; rewrite N; reflexivity|]. destruct (value V f c'); [apply IH; exact I|reflexivity].
Qed.
Print Assumptions C142_no_value_refuted.
(** C142 refuted: without the map of the faces, that is no mandatory input, a patch of two faces or more is an exception. *)
Theorem C142_no_map_refuted : forall V f x y (vals : list V) acc, put_patch V (fun _ => None) f (x :: y :: vals) acc = None.
Proof.
  intros V f x y vals acc. cbn. unfold put at 1. destruct (has V acc 0); [reflexivity|]. unfold put. replace (has V (acc ++ [(0%nat, x)]) 0) with true; [reflexivity|]. symmetry. apply has_iff. rewrite map_app, in_app_iff. right. left. reflexivity.
Qed.
Print Assumptions C142_no_map_refuted.
Lemma sum_up_run : forall f cs v s t (x : nat -> R), (forall c w a, In (c, w, a) cs -> value R f c = Some (x c)) ->
  sum_up R Rplus Rmult f cs v (s, t) = Some (s + total (map (fun e => snd e * x (fst e)) (around cs v)), t + total (map snd (around cs v))).
Proof.
  intros f cs v. induction cs as [|[[c w] a] cs IH]; intros s t x H; [cbn; f_equal; f_equal; ring|]. cbn [sum_up]. rewrite (H c w a) by (left; reflexivity). unfold around. cbn [filter fst snd]. destruct (Nat.eqb w v).
  - rewrite (IH _ _ x) by (intros; apply (H _ w0 a0); right; assumption). cbn. unfold around, total. f_equal. f_equal; ring.
  - rewrite (IH _ _ x) by (intros; apply (H _ w0 a0); right; assumption). reflexivity.
Qed.
Lemma total_pos : forall l, (forall x, In x l -> 0 < x) -> l <> [] -> 0 < total l.
Proof.
  intros l H N. destruct l as [|x l]; [contradiction|]. clear N. cbn. assert (0 < x) by (apply H; left; reflexivity). enough (0 <= total l) by (unfold total in *; lra). assert (H' : forall y, In y l -> 0 < y) by (intros; apply H; right; assumption). clear - H'.
  induction l as [|y l IH]; [cbn; lra|]. assert (0 < y) by (apply H'; left; reflexivity). specialize (IH ltac:(intros; apply H'; right; assumption)). unfold total in *. cbn. lra.
Qed.
(** C142: the value in a vertex is the average of those of the cells around it, weighted by the angles, so it is between them. *)
Theorem C142_average : forall f cs v (x : nat -> R), (forall c w a, In (c, w, a) cs -> value R f c = Some (x c) /\ 0 < a) -> around cs v <> [] ->
  exists y, interpolate R 0 Rplus Rmult f cs v = Some y /\ y * total (map snd (around cs v)) = total (map (fun e => snd e * x (fst e)) (around cs v)) /\
  forall lo hi, (forall c a, In (c, a) (around cs v) -> lo <= x c <= hi) -> lo <= y <= hi.
Proof.
  intros f cs v x H N. assert (AP : forall c a, In (c, a) (around cs v) -> 0 < a).
  { intros c a I. unfold around in I. apply in_map_iff in I. destruct I as ([[c' w'] a'] & E & I). apply filter_In in I. injection E as <- <-. exact (proj2 (H _ _ _ (proj1 I))). }
  assert (TP : 0 < total (map snd (around cs v))).
  { apply total_pos; [|destruct (around cs v); [contradiction|discriminate]]. intros z Z. apply in_map_iff in Z. destruct Z as ([c a] & <- & Z). exact (AP c a Z). }
  unfold interpolate. rewrite (sum_up_run f cs v 0 0 x) by (intros c w a I; exact (proj1 (H c w a I))). rewrite !Rplus_0_l. destruct (Req_EM_T _ 0) as [E|_]; [lra|]. eexists. split; [reflexivity|]. split; [field; lra|].
  intros lo hi B. set (T := total (map snd (around cs v))) in *. set (W := total (map _ (around cs v))).
  assert (Q : lo * T <= W <= hi * T).
  { unfold T, W. clear - AP B. induction (around cs v) as [|[c a] l IH]; [cbn; lra|]. assert (A : 0 < a) by (apply (AP c); left; reflexivity). assert (X : lo <= x c <= hi) by (apply (B c a); left; reflexivity).
    destruct IH as (I1 & I2); [intros; apply (AP c0); right; assumption|intros; apply (B c0 a0); right; assumption|]. unfold total in *. cbn. split; nra. }
  split; apply (Rmult_le_reg_r T); try assumption; replace (/ T * W * T) with W by (field; lra); lra.
Qed.
Print Assumptions C142_average.
Lemma sum_up_h : forall V (add : V -> V -> V) scale (h : V -> R) f cs v acc, (forall x y, h (add x y) = h x + h y) -> (forall a x, h (scale a x) = a * h x) ->
  sum_up R Rplus Rmult (map (fun e => (fst e, h (snd e))) f) cs v (h (fst acc), snd acc) = match sum_up V add scale f cs v acc with Some (s, t) => Some (h s, t) | None => None end.
Proof.
  intros V add scale h f cs v acc HA HS. assert (VL : forall c, value R (map (fun e => (fst e, h (snd e))) f) c = option_map h (value V f c)).
  { intro c. unfold value. induction f as [|[j w] f IH]; [reflexivity|]. cbn. destruct (Nat.eqb c j); [reflexivity|exact IH]. }
  revert acc. induction cs as [|[[c w] a] cs IH]; intros [s t]; [reflexivity|]. cbn [sum_up fst snd]. rewrite VL. destruct (value V f c) as [x|]; [|reflexivity]. cbn [option_map]. rewrite <- IH. destruct (Nat.eqb w v); [|reflexivity]. cbn [fst snd]. rewrite HA, HS. reflexivity.
Qed.
(** C142: vectors are interpolated by their components. *)
Theorem C142_components : forall f cs v (h : vec -> R), h = vx \/ h = vy \/ h = vz ->
  interpolate R 0 Rplus Rmult (map (fun e => (fst e, h (snd e))) f) cs v = option_map h (interpolate vec vzero vadd vscale f cs v).
Proof.
  intros f cs v h H. assert (HA : forall x y, h (vadd x y) = h x + h y) by (intros [] []; destruct H as [-> |[-> | ->]]; reflexivity). assert (HS : forall a x, h (vscale a x) = a * h x) by (intros a []; destruct H as [-> |[-> | ->]]; reflexivity).
  assert (HZ : h vzero = 0) by (destruct H as [-> |[-> | ->]]; reflexivity). unfold interpolate. pose proof (sum_up_h vec vadd vscale h f cs v (vzero, 0) HA HS) as E. cbn [fst snd] in E. rewrite HZ in E. rewrite E.
  destruct (sum_up vec vadd vscale f cs v (vzero, 0)) as [[s t]|]; [|reflexivity]. destruct (Req_EM_T t 0); [reflexivity|]. cbn. rewrite HS. reflexivity.
Qed.
Print Assumptions C142_components.
Example C142_nonvacuous : let m := fun f : nat => Some (Some (f + 10)%nat) in let cells := [(10, 1); (11, 1); (12, 2); (13, 0)]%nat in let vals := fun k : nat => if Nat.eqb k 0 then [5; 6] else @nil R in
  of_patches m [(0, 2); (2, 1)]%nat cells vals (fun f => (f + 10)%nat) /\ NoDup [1; 0; 2]%nat /\
  read_boundary R 0 true m [(0, 2); (2, 1)]%nat cells vals [1; 0; 2]%nat [] = Some [(10%nat, 5); (11%nat, 6); (13%nat, 0); (12%nat, 0)] /\
  around [(10%nat, 3%nat, 1); (11%nat, 3%nat, 2); (11%nat, 4%nat, 1)] 3 <> [].
Proof.
  cbn zeta. split; [|split; [|split; [reflexivity|discriminate]]].
  - split; [cbn; repeat constructor; cbn; lia|]. intros k N. destruct k as [|k]; [|cbn in N; contradiction]. exists 0%nat. split; [reflexivity|]. split; [|cbn; repeat constructor; cbn; lia].
    intros f B. cbn in B. split; [reflexivity|]. destruct f as [|[|f]]; [left; reflexivity|right; left; reflexivity|lia].
  - repeat constructor; cbn; lia.
Qed.

(** ** Options *)
(** C143: what is written in XML is read from it. *)
Theorem C143_options_partial : forall o, o_points_only o = true -> absorb (defaults (o_write o)) (fst (flush o)) (snd (flush o)) = o.
Proof. intros [w p v] H. cbn in H. subst. reflexivity. Qed.
Print Assumptions C143_options_partial.
(** C143 refuted: to ask that only points are written, with nothing about overwriting (by default, no), is to ask to overwrite. *)
Theorem C143_overwrite_refuted : forall w, o_overwrite (absorb (defaults w) (Some true) None) = true /\ o_overwrite (absorb (defaults w) None None) = false.
Proof. split; reflexivity. Qed.
Print Assumptions C143_overwrite_refuted.
(** C143 refuted: what is written as WritePointsOnly is the other option, and WritePointsOnly is never read: it is true again. *)
Theorem C143_points_only_refuted : forall w v, fst (flush (Options w (negb v) v)) = Some v /\ forall a b, o_points_only (absorb (defaults w) a b) = true.
Proof. intros w v. split; [reflexivity|]. intros [a|] [b|]; reflexivity. Qed.
Print Assumptions C143_points_only_refuted.
(** C143: meshes are accepted in pairs: of a volume and of a surface, or of a surface and of a curve; two null ones are refused. *)
Theorem C143_pairs_partial : construct None None = Some false /\ forall a b, construct (Some a) (Some b) = Some true <-> (a = 2%nat /\ b = 1%nat) \/ (a = 1%nat /\ b = 4%nat).
Proof.
  split; [reflexivity|]. intros a b. cbn. split.
  - intro E. injection E as E. apply orb_true_iff in E. destruct E as [E|E]; apply andb_true_iff in E; destruct E as (E & F); apply Nat.eqb_eq in E, F; auto.
  - intros [(-> & ->)|(-> & ->)]; reflexivity.
Qed.
Print Assumptions C143_pairs_partial.
(** C143 refuted: one null mesh of the two is dereferenced. *)
Theorem C143_null_refuted : forall a, construct (Some a) None = None /\ construct None (Some a) = None.
Proof. split; reflexivity. Qed.
Print Assumptions C143_null_refuted.
(** C143: the name of a patch is given by its place, the empty one for places past the next. *)
Theorem C143_names_partial : forall A (names : list A) k, (forall n, nth_error names k = Some n -> patch_name names k = Some (Some n)) /\ ((length names < k)%nat -> patch_name names k = Some None).
Proof.
  intros A names k. unfold patch_name. split.
  - intros n E. assert (B : (k < length names)%nat) by (apply nth_error_Some; congruence). destruct (Nat.ltb_spec (length names) k); [lia|]. rewrite E. reflexivity.
  - intro B. rewrite (proj2 (Nat.ltb_lt _ _) B). reflexivity.
Qed.
Print Assumptions C143_names_partial.
(** C143 refuted: the place after the last is out of bounds. *)
Theorem C143_last_name_refuted : forall A (names : list A), patch_name names (length names) = None.
Proof. intros A names. unfold patch_name. rewrite Nat.ltb_irrefl. destruct (nth_error names (length names)) eqn:E; [|reflexivity]. exfalso. assert (H : nth_error names (length names) <> None) by congruence. apply nth_error_Some in H. lia. Qed.
Print Assumptions C143_last_name_refuted.
Example C143_nonvacuous : o_points_only (Options true true true) = true /\ patch_name [5; 6]%nat 1 = Some (Some 6%nat).
Proof. split; reflexivity. Qed.
