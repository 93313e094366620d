(** Lemmas on degenerate elements. *)
From Coq Require Import String List Arith Bool ZArith Reals Lia Permutation.
From Verif Require Import Vec SharedPtr Obj ObjSpec ObjProofs Select SelectProofs Tri TriSpec TriProofs.
Import ListNotations.
Open Scope list_scope.
Open Scope nat_scope.

Lemma find_place vs v : In v (map fst vs) -> find v vs = Some (place vs v).
Proof.
  induction vs as [|[w x] vs IH]; cbn [map fst In find place]; [intros []|]. intros H. destruct (Nat.eqb_spec w v) as [|N]; [reflexivity|]. apply IH. destruct H as [H|H]; [destruct (N H)|exact H].
Qed.
Lemma thinned_in A (l l' : list A) : thinned l l' -> forall x, In x l' <-> In x l.
Proof.
  intros H. induction H as [|x l l' N H IH|x l l' I H IH]; intros y; [reflexivity| |].
  - rewrite !in_app_iff, IH. reflexivity.
  - rewrite in_app_iff, IH. split; [left; assumption|]. intros [K|[<-|[]]]; assumption.
Qed.
Lemma thinned_nodup A (l l' : list A) : thinned l l' -> NoDup l'.
Proof.
  intros H. induction H as [|x l l' N H IH|x l l' I H IH]; [constructor| |exact IH]. apply nodup_app; [exact IH|repeat constructor; intros []|]. intros y Hy [<-|[]]. apply N. apply (thinned_in _ _ _ H), Hy.
Qed.
Lemma thinned_length A (l l' : list A) : thinned l l' -> length l' <= length l /\ (length l' = length l -> l' = l).
Proof.
  intros H. induction H as [|x l l' N H [I1 I2]|x l l' I H [I1 I2]]; rewrite ?app_length; cbn [length]; [split; [lia|reflexivity]| |].
  - split; [lia|]. intros E. rewrite I2 by lia. reflexivity.
  - split; [lia|]. intros E. lia.
Qed.
Lemma thinned_same A (l : list A) : NoDup l -> thinned l l.
Proof.
  induction l as [|x l IH] using rev_ind; intros H; [constructor|]. apply NoDup_remove in H. rewrite app_nil_r in H. destruct H as [H1 H2]. apply th_new; [exact H2|exact (IH H1)].
Qed.
Lemma thinned_inv A (l b : list A) x : thinned (l ++ [x]) b -> (~ In x l /\ exists b', thinned l b' /\ b = b' ++ [x]) \/ (In x l /\ thinned l b).
Proof.
  intros K. remember (l ++ [x]) as m eqn:E. destruct K as [|y m m' Ny K|y m m' Iy K].
  - symmetry in E. apply app_eq_nil in E. destruct E as [_ E]. discriminate.
  - apply app_inj_tail in E. destruct E as [-> ->]. left. split; [exact Ny|]. exists m'. split; [exact K|reflexivity].
  - apply app_inj_tail in E. destruct E as [-> ->]. right. split; assumption.
Qed.
Lemma thinned_nil A (b : list A) : thinned [] b -> b = [].
Proof. intros K. remember (@nil A) as m eqn:E. destruct K as [|y m m' Ny K|y m m' Iy K]; [reflexivity| |]; apply app_eq_nil in E; destruct E; discriminate. Qed.
Lemma thinned_fun A (l a b : list A) : thinned l a -> thinned l b -> a = b.
Proof.
  intros H. revert b. induction H as [|x l l' N H IH|x l l' I H IH]; intros b K; [symmetry; apply thinned_nil, K| |]; apply thinned_inv in K; destruct K as [[N' [b' [K ->]]]|[I' K]]; try contradiction.
  - rewrite (IH b' K). reflexivity.
  - exact (IH b K).
Qed.

Definition collapses (vs : list (nat * vec)) (vm : list (nat * nat)) : Prop := forall k w, In (k, w) vm -> In w (map fst vs) /\ place vs w = place vs k.
Lemma collapse_insert vs k w vm : In w (map fst vs) -> place vs w = place vs k -> collapses vs vm -> collapses vs (map_insert k w vm).
Proof.
  intros H E C0. unfold map_insert. destruct (has k vm); [exact C0|]. intros a b K. apply in_app_iff in K. destruct K as [K|[K|[]]]; [exact (C0 a b K)|]. injection K as <- <-. split; assumption.
Qed.
Lemma renumber_place vs vm v : collapses vs vm -> In v (map fst vs) -> In (renumber vm v) (map fst vs) /\ place vs (renumber vm v) = place vs v.
Proof. intros C0 H. unfold renumber. destruct (find v vm) as [w|] eqn:E; [|split; [exact H|reflexivity]]. apply (C0 v w). exact (find_in _ v vm w E). Qed.
Section Exact.
Variable eqv : vec -> vec -> bool.
Hypothesis Ex : exact eqv.
Lemma first_equal_some x kept w : first_equal eqv x kept = Some w -> In (w, x) kept.
Proof.
  induction kept as [|[k y] kept IH]; cbn [first_equal]; [discriminate|]. destruct (eqv y x) eqn:E; intros H; [|right; exact (IH H)]. apply Ex in E. injection H as ->. subst y. left. reflexivity.
Qed.
Lemma first_equal_none x kept : first_equal eqv x kept = None -> ~ In x (map snd kept).
Proof.
  induction kept as [|[k y] kept IH]; cbn [first_equal map snd In]; [intros _ []|]. destruct (eqv y x) eqn:E; intros H; [discriminate|]. intros [K|K]; [|exact (IH H K)]. subst y. rewrite (proj2 (Ex x x) eq_refl) in E. discriminate.
Qed.
Lemma unique_ok vs : distinct vs -> forall l kept vm seen, (forall v, In v l -> In v (map fst vs)) -> (forall e, In e kept -> In (fst e) (map fst vs) /\ snd e = place vs (fst e)) ->
  thinned seen (map snd kept) -> collapses vs vm ->
  let r := unique_verts eqv vs l kept vm in
  thinned (seen ++ map (place vs) l) (map snd (fst r)) /\ (forall e, In e (fst r) -> In (fst e) (map fst vs) /\ snd e = place vs (fst e)) /\ collapses vs (snd r).
Proof.
  intros D. induction l as [|v l IH]; intros kept vm seen Hl Hk Ht Hc; cbn [unique_verts map].
  - cbv zeta. cbn [fst snd]. rewrite app_nil_r. split; [exact Ht|]. split; [exact Hk|exact Hc].
  - rewrite (find_place vs v) by (apply Hl; left; reflexivity). assert (Hr : forall w, In w l -> In w (map fst vs)) by (intros w Hw; apply Hl; right; exact Hw).
    replace (seen ++ place vs v :: map (place vs) l) with ((seen ++ [place vs v]) ++ map (place vs) l) by (rewrite <- app_assoc; reflexivity).
    destruct (first_equal eqv (place vs v) kept) as [w|] eqn:E.
    + apply first_equal_some in E. apply IH; [exact Hr|exact Hk| |].
      * apply th_old; [|exact Ht]. apply (thinned_in _ _ _ Ht). apply in_map_iff. exists (w, place vs v). split; [reflexivity|exact E].
      * destruct (Hk _ E) as [K1 K2]. cbn [fst snd] in *. apply collapse_insert; [exact K1|symmetry; exact K2|exact Hc].
    + apply first_equal_none in E. apply IH; [exact Hr| | |exact Hc].
      * intros e K. apply in_app_iff in K. destruct K as [K|[<-|[]]]; [exact (Hk e K)|]. cbn [fst snd]. split; [apply Hl; left; reflexivity|reflexivity].
      * rewrite map_app. cbn [map snd]. apply th_new; [|exact Ht]. rewrite <- (thinned_in _ _ _ Ht). exact E.
Qed.
Lemma unique_vm vs : forall l kept vm vm', fst (unique_verts eqv vs l kept vm) = fst (unique_verts eqv vs l kept vm').
Proof.
  induction l as [|v l IH]; intros kept vm vm'; cbn [unique_verts]; [reflexivity|]. destruct (find v vs) as [x|]; [|apply IH]. destruct (first_equal eqv x kept); apply IH.
Qed.
(** the vertices kept, and the cell made with them *)
Definition thin (vs : list (nat * vec)) (c : cell) : list nat := map fst (fst (unique_verts eqv vs (cell_verts c) [] [])).
Definition remade (g : obj) (c : cell) : cell := Cl (desumeElement (o_type g) (thin (o_verts g) c)) (thin (o_verts g) c) (c_pid c).
Definition bad (g : obj) (e : nat * cell) : bool := negb (elem_eqb (desumeElement (o_type g) (thin (o_verts g) (snd e))) (c_type (snd e))).
Definition good (g : obj) (e : nat * cell) : bool := negb (elem_eqb (desumeElement (o_type g) (thin (o_verts g) (snd e))) EUndefined).
Lemma degrade_loop_eq g : forall cs vm, let r := degrade_loop eqv g cs vm in
  fst (fst r) = map fst (filter (bad g) cs) /\ snd (fst r) = map (fun e => (fst e, remade g (snd e))) (filter (good g) (filter (bad g) cs)).
Proof.
  induction cs as [|[id c] cs IH]; intros vm; cbn [degrade_loop]; [split; reflexivity|].
  destruct (unique_verts eqv (o_verts g) (cell_verts c) [] vm) as [kept vm1] eqn:E. assert (Ek : map fst kept = thin (o_verts g) c) by (unfold thin; rewrite (unique_vm _ _ _ [] vm), E; reflexivity).
  specialize (IH vm1). cbv zeta in IH. destruct (degrade_loop eqv g cs vm1) as [[del ins] vm2]. cbn [fst snd] in IH. destruct IH as [I1 I2]. rewrite Ek.
  cbn [filter]. change (bad g (id, c)) with (negb (elem_eqb (desumeElement (o_type g) (thin (o_verts g) c)) (c_type c))). destruct (elem_eqb (desumeElement (o_type g) (thin (o_verts g) c)) (c_type c)); cbn [negb]; cbv zeta; cbn [fst snd map filter].
  - split; assumption.
  - split; [rewrite I1; reflexivity|]. change (good g (id, c)) with (negb (elem_eqb (desumeElement (o_type g) (thin (o_verts g) c)) EUndefined)). destruct (elem_eqb (desumeElement (o_type g) (thin (o_verts g) c)) EUndefined); cbn [negb map]; [exact I2|]. rewrite I2. reflexivity.
Qed.
Lemma thin_ok g c : distinct (o_verts g) -> (forall v, In v (cell_verts c) -> In v (map fst (o_verts g))) ->
  thinned (map (place (o_verts g)) (cell_verts c)) (map (place (o_verts g)) (thin (o_verts g) c)) /\ forall v, In v (thin (o_verts g) c) -> In v (map fst (o_verts g)).
Proof.
  intros D H. destruct (unique_ok (o_verts g) D (cell_verts c) [] [] []) as [U1 [U2 _]]; [exact H|intros e []|constructor|intros k w []|]. cbn [List.app] in U1. unfold thin. split.
  - rewrite map_map. rewrite (map_ext_in (fun x => place (o_verts g) (fst x)) snd); [exact U1|]. intros e He. symmetry. apply U2, He.
  - intros v Hv. apply in_map_iff in Hv. destruct Hv as [e [<- He]]. apply U2, He.
Qed.
Lemma degrade_loop_vm g : distinct (o_verts g) -> forall cs vm, (forall e v, In e cs -> In v (cell_verts (snd e)) -> In v (map fst (o_verts g))) -> collapses (o_verts g) vm ->
  collapses (o_verts g) (snd (degrade_loop eqv g cs vm)).
Proof.
  intros D. induction cs as [|[id c] cs IH]; intros vm H C0; cbn [degrade_loop]; [exact C0|].
  destruct (unique_ok (o_verts g) D (cell_verts c) [] vm []) as [_ [_ U]]; [intros v Hv; exact (H (id, c) v (or_introl eq_refl) Hv)|intros e []|constructor|exact C0|].
  destruct (unique_verts eqv (o_verts g) (cell_verts c) [] vm) as [kept vm1]. cbn [snd] in U. specialize (IH vm1 (fun e v He => H e v (or_intror He)) U).
  destruct (degrade_loop eqv g cs vm1) as [[del ins] vm2]. cbn [snd] in IH. destruct (elem_eqb _ (c_type c)); exact IH.
Qed.
End Exact.

Lemma others_others a b cs : others a (others b cs) = others (b ++ a) cs.
Proof. unfold others. rewrite filter_filter. apply filter_ext. intros e. unfold nin. rewrite existsb_app, negb_orb. reflexivity. Qed.
Lemma fold_delete : forall del g, fold_left (fun g id => deleteCell id g) del g = with_cells g (others del (o_cells g)).
Proof.
  induction del as [|i del IH]; intros g; cbn [fold_left].
  - rewrite others_all by (intros i _ []). destruct g; reflexivity.
  - rewrite IH, others_delete. reflexivity.
Qed.
Lemma fold_add : forall ins g, distinct ins -> (forall e, In e ins -> ~ In (fst e) (map fst (o_cells g)) /\ int_range (c_pid (snd e)) /\ registered (c_pid (snd e)) g) ->
  fold_left (fun g e => snd (addCell (@length nat) (snd e) (Some (fst e)) g)) ins g = with_cells g (o_cells g ++ ins).
Proof.
  induction ins as [|[i c] ins IH]; intros g D H; cbn [fold_left].
  - rewrite app_nil_r. destruct g; reflexivity.
  - unfold distinct in D. cbn [map fst] in D. apply NoDup_cons_iff in D. destruct D as [D1 D2]. destruct (H _ (or_introl eq_refl)) as [N [Rg [R1 R2]]]. cbn [fst snd] in *.
    assert (E : snd (addCell (@length nat) c (Some i) g) = with_cells g (o_cells g ++ [(i, c)])).
    { unfold addCell. rewrite (proj2 (has_false _ i (o_cells g)) N). cbn [snd pick_id]. rewrite add_cell_eq by exact N. rewrite to_int_id by exact Rg. rewrite zadd_same by exact R1. rewrite nadd_same by exact R2. destruct g, c; reflexivity. }
    rewrite E, IH; [|exact D2|].
    + unfold with_cells. cbn [o_type o_tol o_verts o_cells o_pids o_names]. rewrite <- app_assoc. reflexivity.
    + intros e He. destruct (H e (or_intror He)) as [K1 [K2 K3]]. split; [|split; assumption]. cbn [with_cells o_cells]. rewrite map_app, in_app_iff. intros [K|[K|[]]]; [exact (K1 K)|].
      apply D1. cbn [fst] in K. rewrite K. apply in_map, He.
Qed.
(** the cells before the vertices are renumbered *)
Definition between (eqv : vec -> vec -> bool) (g : obj) : list (nat * cell) :=
  others (map fst (filter (bad eqv g) (o_cells g))) (o_cells g) ++ map (fun e => (fst e, remade eqv g (snd e))) (filter (good eqv g) (filter (bad eqv g) (o_cells g))).
Definition renumbered (vm : list (nat * nat)) (e : nat * cell) : nat * cell := (fst e, Cl (c_type (snd e)) (renumber_conn vm (c_type (snd e)) (c_conn (snd e))) (c_pid (snd e))).
Lemma between_in eqv g id c : distinct (o_cells g) -> In (id, c) (between eqv g) <->
  exists d, In (id, d) (o_cells g) /\ ((bad eqv g (id, d) = false /\ c = d) \/ (bad eqv g (id, d) = true /\ good eqv g (id, d) = true /\ c = remade eqv g d)).
Proof.
  intros D. unfold between. rewrite in_app_iff. unfold others. rewrite filter_In. cbn [fst]. rewrite negb_true_iff, nin_false. split.
  - intros [[Hc N]|H]; [|apply in_map_iff in H; destruct H as [[j d] [E H]]].
    + exists c. split; [exact Hc|]. left. split; [|reflexivity]. destruct (bad eqv g (id, c)) eqn:B; [|reflexivity]. destruct N. apply in_map_iff. exists (id, c). split; [reflexivity|apply filter_In; split; assumption].
    + cbn [fst snd] in E. injection E as -> <-. apply filter_In in H. destruct H as [H G]. apply filter_In in H. destruct H as [H B]. exists d. split; [exact H|]. right. split; [exact B|split; [exact G|reflexivity]].
  - intros [d [Hd [[B ->]|[B [G ->]]]]].
    + left. split; [exact Hd|]. intros K. apply in_map_iff in K. destruct K as [[j e] [E K]]. cbn [fst] in E. subst j. apply filter_In in K. destruct K as [K B'].
      pose proof (in_find _ id _ d D Hd) as Q1. pose proof (in_find _ id _ e D K) as Q2. rewrite Q1 in Q2. injection Q2 as ->. congruence.
    + right. apply in_map_iff. exists (id, d). split; [reflexivity|]. apply filter_In. split; [apply filter_In; split; assumption|exact G].
Qed.
Lemma nodup_map_filter' A (f : nat * A -> bool) l : distinct l -> distinct (filter f l).
Proof. apply nodup_map_filter. Qed.
Lemma between_distinct eqv g : distinct (o_cells g) -> distinct (between eqv g).
Proof.
  intros D. unfold distinct, between. rewrite map_app, map_map. cbn [fst]. apply nodup_app.
  - apply nodup_map_filter, D.
  - apply (nodup_map_filter _ (good eqv g)). apply nodup_map_filter', D.
  - intros i Hi Ki. apply in_map_iff in Hi. destruct Hi as [e [<- He]]. unfold others in He. apply filter_In in He. destruct He as [_ He]. rewrite negb_true_iff, nin_false in He. apply He.
    apply in_map_iff in Ki. destruct Ki as [e' [E' K']]. apply filter_In in K'. apply in_map_iff. exists e'. split; [exact E'|apply K'].
Qed.
Lemma renumber_nil_faces k : forall s, renumber_faces [] k s = s.
Proof. induction k as [|k IH]; intros [|n s]; cbn [renumber_faces]; try reflexivity. rewrite IH. rewrite (map_ext _ (fun v => v)) by reflexivity. rewrite map_id, firstn_skipn. reflexivity. Qed.
Lemma renumber_nil t l : renumber_conn [] t l = l.
Proof.
  assert (M : forall s, map (renumber []) s = s) by (intros s; rewrite (map_ext _ (fun v => v)) by reflexivity; apply map_id).
  destruct t; cbn [renumber_conn]; try apply M; destruct l as [|n l]; try reflexivity; [rewrite M|rewrite renumber_nil_faces]; reflexivity.
Qed.
Lemma degrade_eq eqv g : distinct (o_cells g) -> (forall id c, In (id, c) (o_cells g) -> int_range (c_pid c) /\ registered (c_pid c) g) ->
  degrade eqv g = with_cells g (map (renumbered (snd (degrade_loop eqv g (o_cells g) []))) (between eqv g)).
Proof.
  intros D R. unfold degrade. pose proof (degrade_loop_eq eqv g (o_cells g) []) as [E1 E2]. destruct (degrade_loop eqv g (o_cells g) []) as [[del ins] vm]. cbn [fst snd] in *. subst del ins.
  rewrite fold_delete. rewrite fold_add.
  - cbn [with_cells o_cells]. fold (between eqv g). destruct vm as [|kv vm]; [|reflexivity]. unfold with_cells. cbn [o_type o_tol o_verts o_cells o_pids o_names]. f_equal.
    fold (between eqv g). rewrite <- (map_id (between eqv g)) at 1. apply map_ext. intros [i [t l p]]. unfold renumbered. cbn [fst snd c_type c_conn c_pid]. rewrite renumber_nil. reflexivity.
  - unfold distinct. rewrite map_map. cbn [fst]. apply (nodup_map_filter _ (good eqv g)). apply nodup_map_filter', D.
  - intros e He. apply in_map_iff in He. destruct He as [[i c] [<- He]]. cbn [fst snd]. apply filter_In in He. destruct He as [He _]. pose proof He as Hb. apply filter_In in He. destruct He as [He _].
    destruct (R i c He) as [R1 R2]. split; [|split; [exact R1|exact R2]]. cbn [with_cells o_cells]. intros K. apply in_map_iff in K. destruct K as [e [E K]]. unfold others in K. apply filter_In in K. destruct K as [_ K].
    rewrite negb_true_iff, nin_false in K. apply K. rewrite E. apply in_map_iff. exists (i, c). split; [reflexivity|exact Hb].
Qed.
Lemma regular_sizes t e n : of_type t e -> fixed_size e = Some n -> ((t = 1 /\ n <= 4) \/ (t = 2 /\ n <= 8) \/ t = 3 \/ t = 4) /\ by_count t n = Some e.
Proof.
  intros T F. destruct t as [|[|[|[|[|t]]]]]; cbn [of_type] in T; try contradiction.
  - destruct T as [-> | [-> | ->]]; [..|discriminate]; injection F as <-; (split; [left; split; lia|reflexivity]).
  - destruct T as [-> | [-> | [-> | [-> | ->]]]]; [..|discriminate]; injection F as <-; (split; [right; left; split; lia|reflexivity]).
  - subst e. injection F as <-. split; [tauto|reflexivity].
  - subst e. injection F as <-. split; [tauto|reflexivity].
Qed.
Lemma desume_count t l : (t = 1 /\ length l <= 4) \/ (t = 2 /\ length l <= 8) \/ t = 3 \/ t = 4 ->
  desumeElement t l = match by_count t (length l) with Some e => e | None => EUndefined end.
Proof.
  intros [[-> L]|[[-> L]|[-> | ->]]]; cbn [desumeElement].
  - replace (4 <? length l) with false by (symmetry; apply Nat.ltb_ge, L). cbn [andb]. destruct (length l) as [|[|[|[|[|n]]]]]; reflexivity.
  - replace (8 <? length l) with false by (symmetry; apply Nat.ltb_ge, L). cbn [andb]. destruct (length l) as [|[|[|[|[|[|[|[|[|n]]]]]]]]]; reflexivity.
  - destruct (length l) as [|[|n]]; reflexivity.
  - destruct (length l) as [|[|[|n]]]; reflexivity.
Qed.
