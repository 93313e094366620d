(** Lemmas on the triangulation of surfaces. *)
From Coq Require Import String List Arith Bool ZArith Reals Lia Lra Permutation.
From Verif Require Import Vec Obj ObjSpec ObjProofs Select SelectProofs Tri TriSpec.
Import ListNotations.
Open Scope list_scope.
Open Scope nat_scope.

Definition above {A} (n : nat) (l : list (nat * A)) : Prop := forall i, In i (map fst l) -> i < n.
Definition tri_of (p : Z) (n : nat) (ts : list (list nat)) : list (nat * cell) := combine (seq n (length ts)) (map (fun t => Cl ETriangle t p) ts).
Definition registered (p : Z) (g : obj) : Prop := In p (o_pids g) /\ In p (keys (o_names g)).

Lemma zadd_same p l : In p l -> zadd p l = l.
Proof. intros H. unfold zadd. rewrite (proj2 (zin_iff p l) H). reflexivity. Qed.
Lemma nadd_same p s l : In p (keys l) -> nadd p s l = l.
Proof. intros H. unfold nadd. apply keys_iff in H. destruct (nfind p l); [reflexivity|destruct (H eq_refl)]. Qed.

Lemma tri_cells_ok p : int_range p -> forall ts n g, Forall (fun t => length t = 3) ts -> above n (o_cells g) -> registered p g ->
  tri_cells ts p n g = (n + length ts, Ob (o_type g) (o_tol g) (o_verts g) (o_cells g ++ tri_of p n ts) (o_pids g) (o_names g)).
Proof.
  intros Rp. induction ts as [|t ts IH]; intros n g L A [R1 R2].
  - cbn [tri_cells]. unfold tri_of. cbn [length seq map combine]. rewrite app_nil_r, Nat.add_0_r. destruct g; reflexivity.
  - inversion L as [|? ? Lt Lr E1]; clear E1. cbn [tri_cells].
    assert (N : ~ In n (map fst (o_cells g))) by (intros K; specialize (A n K); lia).
    assert (E : snd (addConnectedCell (@length nat) t ETriangle p (Some n) g) = Ob (o_type g) (o_tol g) (o_verts g) (o_cells g ++ [(n, Cl ETriangle t p)]) (o_pids g) (o_names g)).
    { unfold addConnectedCell. destruct t as [|a t]; [discriminate|]. rewrite (proj2 (has_false _ n (o_cells g)) N). cbn [checkCellConnCoherence]. rewrite Lt. cbn [Nat.eqb pick_id snd].
      rewrite add_cell_eq by exact N. rewrite to_int_id by exact Rp. rewrite zadd_same by exact R1. rewrite nadd_same by exact R2. reflexivity. }
    rewrite E, IH; [|exact Lr| |split; assumption].
    + cbn [o_type o_tol o_verts o_cells o_pids o_names length]. rewrite <- app_assoc. f_equal. lia.
    + intros i. cbn [o_cells]. rewrite map_app, in_app_iff. intros [K|[<-|[]]]; [specialize (A i K); lia|cbn [fst]; lia].
Qed.
Lemma tri_of_ids p n ts : map fst (tri_of p n ts) = seq n (length ts).
Proof.
  unfold tri_of. revert n. induction ts as [|t ts IH]; intros n; cbn [length seq map combine fst]; [reflexivity|]. rewrite IH. reflexivity.
Qed.
Lemma tri_of_snd p n ts : map snd (tri_of p n ts) = map (fun t => Cl ETriangle t p) ts.
Proof. unfold tri_of. revert n. induction ts as [|t ts IH]; intros n; cbn [length seq map combine snd]; [reflexivity|]. rewrite IH. reflexivity. Qed.
Lemma quad_tris_eq a b c d : quad_tris [a; b; c; d] = [[a; b; c]; [a; c; d]].
Proof. reflexivity. Qed.
Lemma fan_tris_eq v l : fan_tris v (length l :: l) = map (fun s => [v; fst s; snd s]) (sides l).
Proof.
  unfold fan_tris. cbn [length]. rewrite Nat.sub_succ, Nat.sub_0_r. destruct l as [|a r]; [reflexivity|]. cbn [sides]. set (n := length (a :: r)).
  apply nth_ext with (d := []) (d' := []); [rewrite !map_length, seq_length, combine_length, app_length; cbn [length]; unfold n; cbn [length]; lia|].
  rewrite map_length, seq_length. intros i Hi.
  rewrite (nth_indep (map (fun i0 => _) _) [] ((fun i0 => [v; nth (1 + i0 mod n) (n :: a :: r) 0; nth (1 + (i0 + 1) mod n) (n :: a :: r) 0]) 0)) by (rewrite map_length, seq_length; exact Hi).
  rewrite (map_nth (fun i0 => [v; nth (1 + i0 mod n) (n :: a :: r) 0; nth (1 + (i0 + 1) mod n) (n :: a :: r) 0])), seq_nth by exact Hi.
  assert (Ln : length (r ++ [a]) = n) by (rewrite app_length; unfold n; cbn [length]; lia).
  rewrite (nth_indep (map _ (combine _ _)) [] ((fun s => [v; fst s; snd s]) (0, 0))) by (rewrite map_length, combine_length, Ln; fold n; lia).
  rewrite (map_nth (fun s => [v; fst s; snd s])), combine_nth by (rewrite Ln; reflexivity). cbn [fst snd plus]. rewrite Nat.mod_small by exact Hi. cbn [nth].
  f_equal. f_equal. f_equal. destruct (Nat.eq_dec (i + 1) n) as [E|N].
  - rewrite E, Nat.mod_same by lia. cbn [nth]. rewrite app_nth2 by (unfold n in E; cbn [length] in E; lia). replace (i - length r) with 0 by (unfold n in E; cbn [length] in E; lia). reflexivity.
  - rewrite Nat.mod_small by lia. rewrite Nat.add_1_r. cbn [nth]. rewrite app_nth1 by (unfold n in *; cbn [length] in *; lia). reflexivity.
Qed.

(** cells outside a list of ids *)
Definition others (ids : list nat) (cs : list (nat * cell)) : list (nat * cell) := filter (fun e => negb (nin (fst e) ids)) cs.
Lemma nin_iff v l : nin v l = true <-> In v l.
Proof. unfold nin. rewrite existsb_exists. split; [intros [x [H E]]; apply Nat.eqb_eq in E; subst; exact H|intros H; exists v; split; [exact H|apply Nat.eqb_refl]]. Qed.
Lemma nin_false v l : nin v l = false <-> ~ In v l.
Proof. rewrite <- nin_iff. destruct (nin v l); split; congruence. Qed.
Lemma filter_filter A (f h : A -> bool) l : filter f (filter h l) = filter (fun x => h x && f x) l.
Proof. induction l as [|a l IH]; cbn [filter]; [reflexivity|]. destruct (h a); cbn [filter andb]; rewrite IH; reflexivity. Qed.
Lemma others_delete id ids g : others ids (o_cells (deleteCell id g)) = others (id :: ids) (o_cells g).
Proof.
  unfold others, deleteCell. cbn [with_cells o_cells]. rewrite filter_filter. apply filter_ext. intros [i c]. unfold nin. cbn [fst existsb]. rewrite negb_orb. reflexivity.
Qed.
Lemma others_app ids a b : others ids (a ++ b) = others ids a ++ others ids b.
Proof. apply filter_app. Qed.
Lemma others_all ids cs : (forall i, In i (map fst cs) -> ~ In i ids) -> others ids cs = cs.
Proof.
  intros H. unfold others. induction cs as [|e cs IH]; cbn [filter]; [reflexivity|]. rewrite (proj2 (nin_false (fst e) ids)) by (apply H; left; reflexivity). cbn [negb].
  rewrite IH; [reflexivity|]. intros i Hi. apply H. right. exact Hi.
Qed.
Lemma others_none ids cs : (forall i, In i (map fst cs) -> In i ids) -> others ids cs = [].
Proof.
  intros H. unfold others. induction cs as [|e cs IH]; cbn [filter]; [reflexivity|]. rewrite (proj2 (nin_iff (fst e) ids)) by (apply H; left; reflexivity). cbn [negb].
  apply IH. intros i Hi. apply H. right. exact Hi.
Qed.
Lemma others_cons id c ids cs : distinct cs -> In (id, c) cs -> ~ In id ids -> Permutation (others ids cs) ((id, c) :: others (id :: ids) cs).
Proof.
  intros D H N. induction cs as [|[i d] cs IH]; [destruct H|]. unfold distinct in D. cbn [map fst] in D. apply NoDup_cons_iff in D. destruct D as [D1 D2]. destruct H as [E|H].
  - injection E as -> ->. unfold others. cbn [filter fst]. rewrite (proj2 (nin_false id ids) N). replace (nin id (id :: ids)) with true by (symmetry; apply nin_iff; left; reflexivity). cbn [negb].
    apply perm_skip. replace (filter (fun e => negb (nin (fst e) ids)) cs) with (filter (fun e => negb (nin (fst e) (id :: ids))) cs); [reflexivity|].
    apply filter_ext_in. intros [j e] Hj. cbn [fst]. unfold nin. cbn [existsb]. replace (Nat.eqb j id) with false; [reflexivity|]. symmetry. apply Nat.eqb_neq. intros ->. apply D1. apply in_map_iff. exists (id, e). split; [reflexivity|exact Hj].
  - assert (Q : i <> id) by (intros ->; apply D1; apply in_map_iff; exists (id, c); split; [reflexivity|exact H]). specialize (IH D2 H). unfold others in *. cbn [filter fst].
    replace (nin i (id :: ids)) with (nin i ids) by (unfold nin; cbn [existsb]; rewrite (proj2 (Nat.eqb_neq _ _) Q); reflexivity).
    destruct (negb (nin i ids)); [|exact IH]. rewrite IH. apply perm_swap.
Qed.

Lemma nodup_app A (a b : list A) : NoDup a -> NoDup b -> (forall x, In x a -> In x b -> False) -> NoDup (a ++ b).
Proof.
  intros Ha Hb H. induction a as [|x a IH]; [exact Hb|]. cbn [List.app]. apply NoDup_cons_iff in Ha. destruct Ha as [H1 H2]. constructor.
  - rewrite in_app_iff. intros [K|K]; [exact (H1 K)|]. exact (H x (or_introl eq_refl) K).
  - apply IH; [exact H2|]. intros y Hy. apply H. right. exact Hy.
Qed.
Lemma perm_filter A (f : A -> bool) l l' : Permutation l l' -> Permutation (filter f l) (filter f l').
Proof.
  intros H. induction H as [|x l l' H IH|x y l|l l' l'' H1 IH1 H2 IH2]; cbn [filter]; [constructor|destruct (f x); [constructor|]; exact IH| |exact (perm_trans IH1 IH2)].
  destruct (f x), (f y); [apply perm_swap|reflexivity|reflexivity|reflexivity].
Qed.
Lemma split_more g r r' at_ e es : (forall x, In x (o_verts r) -> In x (o_verts r')) -> split g r at_ e es -> split g r' at_ e es.
Proof. intros H K. destruct K; econstructor; eauto. Qed.
Lemma forall2_tri v p ts n : Forall2 (fun s e => triangle [v; fst s; snd s] p e) ts (tri_of p n (map (fun s => [v; fst s; snd s]) ts)).
Proof. revert n. induction ts as [|[a b] ts IH]; intros n; unfold tri_of; cbn [map length seq combine]; constructor; [reflexivity|apply IH]. Qed.
Definition is_polygon (e : nat * cell) : bool := match c_type (snd e) with EPolygon => true | _ => false end.

(** what the loop needs of a cell to visit *)
Definition visitable (g0 g : obj) (id : nat) : Prop :=
  exists c, In (id, c) (o_cells g) /\ flat c /\ sound_cell c /\ int_range (c_pid c) /\ registered (c_pid c) g /\ (forall v, vertex_of c v -> In v (map fst (o_verts g0))).
Definition looped (at_ : cell -> vec) (g0 g : obj) (ids : list nat) (nid : nat) (r : obj) : Prop :=
  exists cs pieces, map fst cs = ids /\ (forall e, In e cs -> In e (o_cells g)) /\ Forall2 (split g0 r at_) cs pieces /\
  Permutation (o_cells r) (concat pieces ++ others ids (o_cells g)) /\ distinct (o_cells r) /\ distinct (o_verts r) /\
  (exists new, o_verts r = o_verts g ++ new /\ length new = length (filter is_polygon cs)) /\
  (forall i, In i (map fst (o_cells r)) -> (exists c, In (i, c) (o_cells g) /\ In (i, c) (o_cells r)) \/ nid <= i) /\
  o_type r = o_type g /\ o_tol r = o_tol g /\ o_pids r = o_pids g /\ o_names r = o_names g.

(** replacing cell [id] by triangles, possibly after a new vertex *)
Lemma loop_step at_ g0 g g2 ids id c p ts nid nnew r :
  distinct (o_cells g) -> above nid (o_cells g) -> In (id, c) (o_cells g) -> ~ In id ids -> (forall j, In j ids -> j < nid) ->
  g2 = Ob (o_type g) (o_tol g) (o_verts g ++ nnew) (o_cells (deleteCell id g) ++ tri_of p nid ts) (o_pids g) (o_names g) ->
  length nnew = length (filter is_polygon [(id, c)]) ->
  looped at_ g0 g2 ids (nid + length ts) r -> (forall r', (forall x, In x (o_verts g ++ nnew) -> In x (o_verts r')) -> split g0 r' at_ (id, c) (tri_of p nid ts)) ->
  looped at_ g0 g (id :: ids) nid r.
Proof.
  intros D A H N B E2 En [cs [pieces [H1 [H2 [H3 [H4 [H5 [H6 [[new [H7 H8]] [H9 [T1 [T2 [T3 T4]]]]]]]]]]]]] Sp.
  rewrite E2 in *. cbn [o_type o_tol o_verts o_cells o_pids o_names] in *.
  assert (Nt : forall i, In i (map fst (tri_of p nid ts)) -> nid <= i) by (intros i; rewrite tri_of_ids, in_seq; lia).
  assert (Dl : forall i d, In (i, d) (o_cells (deleteCell id g)) -> In (i, d) (o_cells g)) by (intros i d; cbn [deleteCell with_cells o_cells]; rewrite filter_In; intros [K _]; exact K).
  exists ((id, c) :: cs), (tri_of p nid ts :: pieces). split; [cbn [map fst]; rewrite H1; reflexivity|]. split; [|split; [|split; [|split; [exact H5|split; [exact H6|split; [|split; [|repeat split; assumption]]]]]]].
  - intros e [<-|K]; [exact H|]. assert (Ki : In (fst e) ids) by (rewrite <- H1; apply in_map, K). apply H2 in K. apply in_app_iff in K. destruct e as [i d]. destruct K as [K|K]; [exact (Dl i d K)|].
    assert (nid <= i) by (apply Nt; apply in_map_iff; exists (i, d); split; [reflexivity|exact K]). specialize (B _ Ki). cbn [fst] in B. lia.
  - constructor; [|exact H3]. apply Sp. intros x K. rewrite H7, in_app_iff. left. exact K.
  - rewrite H4. rewrite others_app, others_delete, (others_all ids (tri_of p nid ts)) by (intros i Hi K; specialize (Nt i Hi); specialize (B i K); lia).
    cbn [concat]. rewrite <- app_assoc. rewrite Permutation_app_comm, <- app_assoc. rewrite (Permutation_app_comm _ (tri_of p nid ts ++ concat pieces)), <- app_assoc. reflexivity.
  - exists (nnew ++ new). split; [rewrite H7, app_assoc; reflexivity|]. rewrite app_length, En, H8. cbn [filter]. destruct (is_polygon (id, c)); reflexivity.
  - intros i Hi. destruct (H9 i Hi) as [[d [K1 K2]]|K]; [|right; lia]. apply in_app_iff in K1. destruct K1 as [K1|K1]; [left; exists d; split; [exact (Dl i d K1)|exact K2]|].
    right. apply Nt. apply in_map_iff. exists (i, d). split; [reflexivity|exact K1].
Qed.
Lemma tri_loop_ok centroid g0 : local centroid -> forall ids nid nvid g, NoDup ids -> distinct (o_cells g) -> distinct (o_verts g) -> (forall j, In j ids -> visitable g0 g j) ->
  above nid (o_cells g) -> above nvid (o_verts g) -> (exists more, o_verts g = o_verts g0 ++ more) ->
  exists r, tri_loop centroid ids nid nvid g = Some r /\ looped (centroid (o_verts g0)) g0 g ids nid r.
Proof.
  intros Lc. induction ids as [|id ids IH]; intros nid nvid g Nd D Dv V A Av [more Em].
  - exists g. split; [reflexivity|]. exists [], []. split; [reflexivity|]. split; [intros e []|]. split; [constructor|]. split; [cbn [concat List.app]; rewrite others_all; [reflexivity|intros i _ []]|].
    split; [exact D|]. split; [exact Dv|]. split; [exists []; split; [rewrite app_nil_r; reflexivity|reflexivity]|]. split; [|repeat split].
    intros i Hi. left. apply in_map_iff in Hi. destruct Hi as [[j c] [<- Hc]]. exists c. split; exact Hc.
  - apply NoDup_cons_iff in Nd. destruct Nd as [N1 N2]. destruct (V id (or_introl eq_refl)) as [c [Hc [F [Sd [Rp [Rg Hv]]]]]]. cbn [tri_loop]. rewrite (in_find _ id (o_cells g) c D Hc).
    assert (B : forall j, In j ids -> j < nid). { intros j Hj. destruct (V j (or_intror Hj)) as [d [Hd _]]. apply A. apply in_map_iff. exists (j, d). split; [reflexivity|exact Hd]. }
    assert (Ad : above nid (o_cells (deleteCell id g))) by (intros i Hi; apply A; cbn [deleteCell with_cells o_cells] in Hi; apply in_map_iff in Hi; destruct Hi as [e [<- He]]; apply filter_In in He; apply in_map, He).
    (* the object after the replacement *)
    assert (Step : forall nnew ts nvid', Forall (fun t => length t = 3) ts -> length nnew = length (filter is_polygon [(id, c)]) ->
      above nvid' (o_verts g ++ nnew) -> distinct (o_verts g ++ nnew) ->
      (forall r', (forall x, In x (o_verts g ++ nnew) -> In x (o_verts r')) -> split g0 r' (centroid (o_verts g0)) (id, c) (tri_of (c_pid c) nid ts)) ->
      exists r, (let '(nid, g) := tri_cells ts (c_pid c) nid (deleteCell id (with_verts g (o_verts g ++ nnew))) in tri_loop centroid ids nid nvid' g) = Some r /\ looped (centroid (o_verts g0)) g0 g (id :: ids) nid r).
    { intros nnew ts nvid' L3 Ln Av' Dv' Sp. rewrite tri_cells_ok; [|exact Rp|exact L3|exact Ad|exact Rg]. cbn [deleteCell with_cells with_verts o_type o_tol o_verts o_cells o_pids o_names].
      set (g2 := Ob _ _ _ _ _ _). destruct (IH (nid + length ts) nvid' g2) as [r [E L]].
      - exact N2.
      - unfold distinct, g2. cbn [o_cells]. rewrite map_app. apply nodup_app; [apply nodup_map_filter, D|rewrite tri_of_ids; apply seq_NoDup|].
        intros i Hi Ki. rewrite tri_of_ids, in_seq in Ki. apply Ad in Hi. lia.
      - exact Dv'.
      - intros j Hj. destruct (V j (or_intror Hj)) as [d [Hd Rest]]. exists d. split; [|exact Rest]. unfold g2. cbn [o_cells]. apply in_app_iff. left. apply filter_In. split; [exact Hd|].
        cbn [fst]. apply negb_true_iff, Nat.eqb_neq. intros ->. exact (N1 Hj).
      - intros i. unfold g2. cbn [o_cells]. rewrite map_app, in_app_iff, tri_of_ids, in_seq. intros [K|K]; [specialize (Ad i K); lia|lia].
      - exact Av'.
      - unfold g2. cbn [o_verts]. exists (more ++ nnew). rewrite Em, app_assoc. reflexivity.
      - exists r. split; [exact E|]. exact (loop_step _ g0 g g2 ids id c (c_pid c) ts nid nnew r D A Hc N1 B eq_refl Ln L Sp). }
    assert (W : with_verts g (o_verts g ++ []) = g) by (rewrite app_nil_r; destruct g; reflexivity).
    destruct F as [F|[F|[F|F]]]; rewrite F.
    + (* triangle *)
      destruct (IH nid nvid g N2 D Dv) as [r [E [cs [pieces [H1 [H2 [H3 [H4 [H5 [H6 [[new [H7 H8]] [H9 T]]]]]]]]]]]]; [intros j Hj; apply V; right; exact Hj|exact A|exact Av|exists more; exact Em|].
      exists r. split; [exact E|]. exists ((id, c) :: cs), ([(id, c)] :: pieces). split; [cbn [map fst]; rewrite H1; reflexivity|]. split; [intros e [<-|K]; [exact Hc|exact (H2 e K)]|].
      split; [constructor; [apply split_triangle, F|exact H3]|]. split; [|split; [exact H5|split; [exact H6|split; [|split; [exact H9|exact T]]]]].
      * rewrite H4, (others_cons id c ids (o_cells g) D Hc N1). cbn [concat List.app]. symmetry. apply Permutation_middle.
      * exists new. split; [exact H7|]. cbn [filter]. unfold is_polygon at 1. cbn [snd]. rewrite F. exact H8.
    + destruct c as [t l p]. cbn [c_type c_conn c_pid] in *. subst t. destruct Sd as [fs M]. inversion M as [t' l' n Fx Ln E1 E2 E3| |]. cbn [c_conn c_type] in *. injection Fx as <-.
      destruct l as [|a [|b [|c0 [|d [|? ?]]]]]; try discriminate. rewrite quad_tris_eq. destruct (Step [] [[a; b; c0]; [a; c0; d]] nvid) as [r K]; [repeat constructor|reflexivity|rewrite app_nil_r; exact Av|rewrite app_nil_r; exact Dv| |].
      * intros r' _. apply split_quad; reflexivity.
      * rewrite W in K. exists r. exact K.
    + destruct c as [t l p]. cbn [c_type c_conn c_pid] in *. subst t. destruct Sd as [fs M]. inversion M as [t' l' n Fx Ln E1 E2 E3| |]. cbn [c_conn c_type] in *. injection Fx as <-.
      destruct l as [|a [|b [|c0 [|d [|? ?]]]]]; try discriminate. rewrite quad_tris_eq. destruct (Step [] [[a; b; c0]; [a; c0; d]] nvid) as [r K]; [repeat constructor|reflexivity|rewrite app_nil_r; exact Av|rewrite app_nil_r; exact Dv| |].
      * intros r' _. apply split_pixel; reflexivity.
      * rewrite W in K. exists r. exact K.
    + destruct c as [t l p]. cbn [c_type c_conn c_pid] in *. subst t. destruct Sd as [fs M]. inversion M as [t' l' n Fx Ln E1 E2 E3|l' E1 E2|]; [discriminate|]. cbn [c_conn c_type] in *. subst l. clear M.
      assert (Nv : ~ In nvid (map fst (o_verts g))) by (intros K; specialize (Av _ K); lia).
      unfold addVertex. rewrite (proj2 (has_false _ nvid (o_verts g)) Nv). cbn [snd]. rewrite fan_tris_eq.
      assert (Ec : centroid (o_verts g) (Cl EPolygon (length l' :: l') p) = centroid (o_verts g0) (Cl EPolygon (length l' :: l') p)) by (rewrite Em; apply Lc, Hv). rewrite Ec.
      apply Step.
      * apply Forall_forall. intros t Ht. apply in_map_iff in Ht. destruct Ht as [s [<- _]]. reflexivity.
      * reflexivity.
      * intros i. rewrite map_app, in_app_iff. intros [K|[<-|[]]]; [specialize (Av i K); lia|cbn [fst]; lia].
      * unfold distinct. rewrite map_app. apply nodup_app; [exact Dv|repeat constructor; intros []|]. intros x Hx [<-|[]]. exact (Nv Hx).
      * intros r' Hr. apply split_polygon with (v := nvid).
        -- intros K. apply Nv. rewrite Em, map_app, in_app_iff. left. exact K.
        -- apply Hr. apply in_app_iff. right. left. reflexivity.
        -- apply forall2_tri.
Qed.

(** a check of the hypotheses on concrete geometries *)
Fixpoint nodup_b (l : list nat) : bool := match l with [] => true | x :: r => negb (nin x r) && nodup_b r end.
Lemma nodup_check l : nodup_b l = true -> NoDup l.
Proof. induction l as [|x l IH]; intros H; [constructor|]. cbn [nodup_b] in H. apply andb_true_iff in H. destruct H as [H1 H2]. constructor; [apply nin_false, negb_true_iff, H1|exact (IH H2)]. Qed.
Definition usable_b (vs : list nat) (cs : list (nat * cell)) : bool :=
  nodup_b vs && nodup_b (map fst cs) && forallb (fun e => checkCellConnCoherence (c_type (snd e)) (c_conn (snd e)) && forallb (fun v => nin v vs) (cell_verts (snd e))) cs.
Lemma usable_check g : usable_b (map fst (o_verts g)) (o_cells g) = true -> well_formed g /\ sound g /\ closed g.
Proof.
  intros H. unfold usable_b in H. apply andb_true_iff in H. destruct H as [H H3]. apply andb_true_iff in H. destruct H as [H1 H2].
  split; [split; apply nodup_check; assumption|]. rewrite forallb_forall in H3.
  assert (Sd : sound g). { intros i c Hc. specialize (H3 _ Hc). cbn [snd] in H3. apply andb_true_iff in H3. destruct H3 as [K _]. apply coherent_iff in K. exact (proj1 K). }
  split; [exact Sd|]. intros i c v Hc Hv. pose proof (H3 _ Hc) as K. cbn [snd] in K. apply andb_true_iff in K. destruct K as [_ K]. rewrite forallb_forall in K. apply nin_iff, K. apply cell_verts_in; [exact (Sd i c Hc)|exact Hv].
Qed.
