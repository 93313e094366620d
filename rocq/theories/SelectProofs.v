(** Lemmas on Select.v. *)
From Coq Require Import String List Arith Bool ZArith Reals Lia Lra Permutation.
From Verif Require Import Vec SharedPtr Obj ObjSpec ObjProofs Select SelectSpec.
Import ListNotations.
Open Scope list_scope.
Open Scope nat_scope.

(** ** Copies of vertices and cells *)
Lemma copy_verts_ok : forall ids g r, distinct (o_verts g) -> distinct (o_verts r) -> (forall e, In e (o_verts r) -> In e (o_verts g)) ->
  (forall v, In v ids -> In v (map fst (o_verts g))) ->
  exists r', copy_verts ids g r = Some r' /\ o_type r' = o_type r /\ o_tol r' = o_tol r /\ o_cells r' = o_cells r /\ o_pids r' = o_pids r /\ o_names r' = o_names r /\
  distinct (o_verts r') /\ forall v x, In (v, x) (o_verts r') <-> In (v, x) (o_verts r) \/ (In v ids /\ In (v, x) (o_verts g)).
Proof.
  induction ids as [|v ids IH]; intros g r Dg Dr Sub Inc; cbn [copy_verts].
  - exists r. repeat split; try assumption; [left; assumption|]. intros [H|[[] _]]; exact H.
  - destruct (proj1 (in_map_iff _ _ _) (Inc v (or_introl eq_refl))) as [[v' x] [E Hx]]. cbn [fst] in E. subst v'.
    rewrite (in_find _ _ _ _ Dg Hx). cbn [addVertex]. destruct (has v (o_verts r)) eqn:Hv; cbn [snd].
    + destruct (IH g r Dg Dr Sub (fun w Hw => Inc w (or_intror Hw))) as [r' [E1 [E2 [E3 [E4 [E5 [E6 [D' V]]]]]]]].
      exists r'. split; [exact E1|]. repeat (split; [assumption|]). intros w y. rewrite V. split.
      * intros [H|[H K]]; [left; exact H|right; split; [right; exact H|exact K]].
      * intros [H|[[<-|H] K]]; [left; exact H| |right; split; assumption]. left. apply has_iff, in_map_iff in Hv. destruct Hv as [[u z] [Eu Hz]]. cbn [fst] in Eu. subst u.
        pose proof (in_find _ _ _ _ Dg (Sub _ Hz)) as F1. pose proof (in_find _ _ _ _ Dg K) as F2. replace y with z by congruence. exact Hz.
    + apply has_false in Hv. destruct (IH g (with_verts r (o_verts r ++ [(v, x)])) Dg) as [r' [E1 [E2 [E3 [E4 [E5 [E6 [D' V]]]]]]]].
      * unfold distinct. cbn [with_verts o_verts]. rewrite map_app. cbn [map fst]. apply nodup_snoc; assumption.
      * cbn [with_verts o_verts]. intros e He. apply in_app_iff in He. destruct He as [He|[<-|[]]]; [exact (Sub e He)|exact Hx].
      * intros w Hw. apply Inc. right. exact Hw.
      * exists r'. split; [exact E1|]. repeat (split; [assumption|]). intros w y. rewrite V. cbn [with_verts o_verts]. rewrite in_app_iff. cbn [In]. split.
        -- intros [[H|[H|[]]]|[H K]]; [left; exact H|right; injection H as <- <-; split; [left; reflexivity|exact Hx]|right; split; [right; exact H|exact K]].
        -- intros [H|[[<-|H] K]]; [left; left; exact H| |right; split; assumption]. left. right. left.
           pose proof (in_find _ _ _ _ Dg Hx) as F1. pose proof (in_find _ _ _ _ Dg K) as F2. congruence.
Qed.
(** what copying cells keeps true of the geometry being filled *)
Definition filled (g r : obj) : Prop :=
  distinct (o_cells r) /\ (forall e, In e (o_cells r) -> In e (o_cells g)) /\ pid_ok r /\
  (forall p, In p (o_pids r) -> exists id, carries r id p) /\ forall e, In e (o_names r) -> snd e = EmptyString.
Lemma nadd_blank p l : (forall e, In e l -> snd e = EmptyString) -> forall e : Z * string, In e (nadd p EmptyString l) -> snd e = EmptyString.
Proof. intros H e. unfold nadd. destruct (nfind p l); [apply H|]. rewrite in_app_iff. intros [K|[<-|[]]]; [exact (H e K)|reflexivity]. Qed.
Lemma copy_cells_ok : forall ids g r, distinct (o_cells g) -> (forall id c, In (id, c) (o_cells g) -> int_range (c_pid c)) -> filled g r ->
  (forall i, In i ids -> In i (map fst (o_cells g))) ->
  exists r', copy_cells ids g r = Some r' /\ o_type r' = o_type r /\ o_tol r' = o_tol r /\ o_verts r' = o_verts r /\ filled g r' /\
  forall i c, In (i, c) (o_cells r') <-> In (i, c) (o_cells r) \/ (In i ids /\ In (i, c) (o_cells g)).
Proof.
  induction ids as [|v ids IH]; intros g r Dg Int Fl Inc; cbn [copy_cells].
  - exists r. split; [reflexivity|]. repeat (split; [reflexivity|]). split; [exact Fl|]. intros i c. split; [left; assumption|]. intros [H|[[] _]]; exact H.
  - destruct (proj1 (in_map_iff _ _ _) (Inc v (or_introl eq_refl))) as [[v' x] [E Hx]]. cbn [fst] in E. subst v'.
    rewrite (in_find _ _ _ _ Dg Hx). unfold addCell. destruct (has v (o_cells r)) eqn:Hv; cbn [snd].
    + destruct (IH g r Dg Int Fl (fun w Hw => Inc w (or_intror Hw))) as [r' [E1 [E2 [E3 [E4 [F' V]]]]]].
      exists r'. split; [exact E1|]. repeat (split; [assumption|]). intros w y. rewrite V. split.
      * intros [H|[H K]]; [left; exact H|right; split; [right; exact H|exact K]].
      * intros [H|[[<-|H] K]]; [left; exact H| |right; split; assumption]. left. apply has_iff, in_map_iff in Hv. destruct Hv as [[u z] [Eu Hz]]. cbn [fst] in Eu. subst u.
        pose proof (in_find _ _ _ _ Dg (proj1 (proj2 Fl) _ Hz)) as F1. pose proof (in_find _ _ _ _ Dg K) as F2. replace y with z by congruence. exact Hz.
    + apply has_false in Hv. cbn [pick_id]. assert (R1 : int_range (c_pid x)) by exact (Int v x Hx). destruct Fl as [F1 [F2 [F3 [F4 F5]]]].
      pose proof (add_cell_ok v (c_type x) (c_conn x) (c_pid x) r R1 Hv F3) as Ok. rewrite add_cell_eq in * by exact Hv. rewrite (to_int_id (c_pid x)) in * by exact R1.
      replace (Cl (c_type x) (c_conn x) (c_pid x)) with x in * by (destruct x; reflexivity).
      match goal with |- context [copy_cells ids g ?r1] => set (r1' := r1) in * end.
      destruct (IH g r1' Dg Int) as [r' [E1 [E2 [E3 [E4 [F' V]]]]]].
      * split; [|split; [|split; [exact Ok|split]]]; unfold r1'; cbn [o_cells o_pids o_names].
        -- unfold distinct. rewrite map_app. cbn [map fst]. apply nodup_snoc; assumption.
        -- intros e He. apply in_app_iff in He. destruct He as [He|[<-|[]]]; [exact (F2 e He)|exact Hx].
        -- intros p Hp. apply in_zadd in Hp. unfold carries. cbn [o_cells]. destruct Hp as [->|Hp].
           ++ exists v, x. split; [apply in_app_iff; right; left; reflexivity|reflexivity].
           ++ destruct (F4 p Hp) as [i [c [Hc Ec]]]. exists i, c. split; [apply in_app_iff; left; exact Hc|exact Ec].
        -- apply nadd_blank, F5.
      * intros w Hw. apply Inc. right. exact Hw.
      * exists r'. split; [exact E1|]. split; [exact E2|]. split; [exact E3|]. split; [exact E4|]. split; [exact F'|]. intros w y. rewrite V. unfold r1'. cbn [o_cells]. rewrite in_app_iff. cbn [In]. split.
        -- intros [[H|[H|[]]]|[H K]]; [left; exact H|right; injection H as <- <-; split; [left; reflexivity|exact Hx]|right; split; [right; exact H|exact K]].
        -- intros [H|[[<-|H] K]]; [left; left; exact H| |right; split; assumption]. left. right. left.
           pose proof (in_find _ _ _ _ Dg Hx) as G1. pose proof (in_find _ _ _ _ Dg K) as G2. congruence.
Qed.

(** ** Names *)
Lemma give_fold : forall (f : Z -> string) ps r, pid_ok r -> (forall p, In p ps -> In p (o_pids r)) ->
  let r' := fold_left (fun r p => snd (setPIDName p (f p) r)) ps r in
  o_type r' = o_type r /\ o_tol r' = o_tol r /\ o_verts r' = o_verts r /\ o_cells r' = o_cells r /\ o_pids r' = o_pids r /\ pid_ok r' /\
  forall p, nfind p (o_names r') = if zin p ps then Some (f p) else nfind p (o_names r).
Proof.
  intros f. induction ps as [|q ps IH]; intros r K Inc; cbn [fold_left]; cbv zeta; [repeat (split; [first [reflexivity|exact K]|]); reflexivity|].
  pose proof (setPIDName_ok q (f q) r K) as K'.
  assert (Hq : nfind q (o_names r) <> None) by (apply keys_iff, (proj2 (proj2 (proj2 K))), Inc; left; reflexivity).
  unfold setPIDName in K' |- *. destruct (nfind q (o_names r)) as [s|] eqn:E; [|congruence]. cbn [snd] in *.
  destruct (IH _ K') as [I1 [I2 [I3 [I4 [I5 [I6 I7]]]]]]; [intros p Hp; cbn [with_pids o_pids]; apply Inc; right; exact Hp|].
  cbv zeta in *. repeat (split; [assumption|]). intros p. rewrite I7. cbn [with_pids o_names zin existsb]. fold (zin p ps). rewrite nfind_nput, (Z.eqb_sym p q).
  destruct (Z.eqb_spec q p) as [->|N]; [destruct (zin p ps); reflexivity|]. reflexivity.
Qed.
Lemma give_names_ok names r : pid_ok r -> let r' := give_names names r in
  o_type r' = o_type r /\ o_tol r' = o_tol r /\ o_verts r' = o_verts r /\ o_cells r' = o_cells r /\ o_pids r' = o_pids r /\ pid_ok r' /\
  forall p, nfind p (o_names r') = if zin p (o_pids r) then Some (name_of names p) else None.
Proof.
  intros K. cbv zeta. unfold give_names. destruct (give_fold (name_of names) (o_pids r) r K (fun p H => H)) as [I1 [I2 [I3 [I4 [I5 [I6 I7]]]]]].
  cbv zeta in *. repeat (split; [assumption|]). intros p. rewrite I7. destruct (zin p (o_pids r)) eqn:E; [reflexivity|]. apply nfind_none.
  rewrite (proj2 (proj2 (proj2 K))). apply zin_false, E.
Qed.
Lemma name_of_eq g p s : NoDup (map fst (o_names g)) -> named g p s -> name_of (o_names g) p = s.
Proof. intros N H. unfold name_of. apply (nfind_some _ _ _ N) in H. rewrite H. reflexivity. Qed.

(** ** The part of a geometry *)
Lemma filled_new g t tol vs : filled g (Ob t tol vs [] [] []).
Proof.
  split; [constructor|]. split; [intros e []|]. split; [|split; [intros p []|intros e []]].
  split; [intros id c []|]. split; [constructor|]. split; [constructor|]. intros p; split; intros [].
Qed.
Lemma copy_part_ok ids g t tol : proper g -> o_type g <> 3 -> t = o_type g -> (forall i, In i ids -> In i (map fst (o_cells g))) ->
  exists r, copy_part ids g (Ob t tol [] [] [] []) = Some r /\ o_tol r = tol /\ part g (fun i => In i ids) (give_names (o_names g) r) /\
  o_tol (give_names (o_names g) r) = tol /\ o_type r = t /\ forall e, In e (o_verts (give_names (o_names g) r)) -> In e (o_verts g).
Proof.
  intros [[Dv Dc] [Sd [Cl0 [Lab Nn]]]] T -> Inc. unfold copy_part.
  assert (VL : forall v, In v (getVertexFromCellList ids g) <-> exists id c, In id ids /\ In (id, c) (o_cells g) /\ vertex_of c v).
  { intros v. unfold getVertexFromCellList. pose proof (proj2 (Nat.eqb_neq _ _) T) as T'. rewrite T'. rewrite nodup_In, in_flat_map. split.
    - intros [id [Hid H]]. destruct (find id (o_cells g)) as [c|] eqn:E; [|destruct H]. apply find_in in E. exists id, c. split; [exact Hid|]. split; [exact E|].
      apply cell_verts_in; [exact (Sd id c E)|exact H].
    - intros [id [c [Hid [Hc Hv]]]]. exists id. split; [exact Hid|]. rewrite (in_find _ _ _ _ Dc Hc). apply cell_verts_in; [exact (Sd id c Hc)|exact Hv]. }
  destruct (copy_verts_ok (getVertexFromCellList ids g) g (Ob (o_type g) tol [] [] [] []) Dv) as [r1 [E1 [E2 [E3 [E4 [E5 [E6 [D1 V1]]]]]]]].
  { constructor. } { intros e []. } { intros v Hv. apply VL in Hv. destruct Hv as [id [c [_ [Hc Hv]]]]. exact (Cl0 id c v Hc Hv). }
  rewrite E1. cbn [o_type o_tol o_cells o_pids o_names o_verts] in *.
  assert (F1 : filled g r1). { destruct r1 as [t1 tol1 vs1 cs1 ps1 ns1]. cbn [o_cells o_pids o_names] in *. subst. apply filled_new. }
  destruct (copy_cells_ok ids g r1 Dc (fun id c H => proj1 (Lab id c H)) F1 Inc) as [r [C1 [C2 [C3 [C4 [F2 V2]]]]]].
  exists r. split; [exact C1|]. split; [congruence|]. destruct F2 as [G1 [G2 [G3 [G4 G5]]]].
  destruct (give_names_ok (o_names g) r G3) as [I1 [I2 [I3 [I4 [I5 [I6 I7]]]]]]. cbv zeta in *.
  assert (Cells : forall id c, In (id, c) (o_cells r) <-> In (id, c) (o_cells g) /\ In id ids).
  { intros id c. rewrite V2, E4. split; [intros [[]|[A B]]; split; assumption|intros [A B]; right; split; assumption]. }
  assert (Pids : forall p, In p (o_pids r) <-> exists id, In id ids /\ carries g id p).
  { intros p. split.
    - intros Hp. destruct (G4 p Hp) as [id [c [Hc Ec]]]. apply Cells in Hc. exists id. split; [exact (proj2 Hc)|]. exists c. split; [exact (proj1 Hc)|exact Ec].
    - intros [id [Hid [c [Hc Ec]]]]. rewrite <- Ec. apply (proj1 G3 id c). apply Cells. split; assumption. }
  split; [|split; [congruence|split; [congruence|]]].
  - split; [congruence|]. split; [split; [rewrite I3, C4; exact D1|rewrite I4; exact G1]|]. split; [intros id c; rewrite I4; apply Cells|]. split; [|split].
    + intros v x. rewrite I3, C4, V1. split.
      * intros [[]|[Hv Hx]]. split; [exact Hx|]. apply VL in Hv. destruct Hv as [id [c [A [B C]]]]. exists id, c. repeat split; assumption.
      * intros [Hx [id [c [A [B C]]]]]. right. split; [|exact Hx]. apply VL. exists id, c. repeat split; assumption.
    + intros p. rewrite I5. apply Pids.
    + intros p s. unfold named. rewrite <- (nfind_some _ _ _ (proj1 (proj2 (proj2 I6)))), I7. destruct (zin p (o_pids r)) eqn:E.
      * apply zin_iff, Pids in E. assert (NG : exists t, named g p t). { destruct E as [id [_ [c [Hc Ec]]]]. rewrite <- Ec. exact (proj2 (Lab id c Hc)). }
        destruct NG as [t0 Ht0]. rewrite (name_of_eq g p t0 Nn Ht0). split.
        -- intros Q. injection Q as <-. split; [exact Ht0|exact E].
        -- intros [Q _]. apply (nfind_some _ _ _ Nn) in Q. apply (nfind_some _ _ _ Nn) in Ht0. congruence.
      * apply zin_false in E. split; [discriminate|]. intros [_ Q]. apply Pids in Q. contradiction.
  - intros e. destruct e as [v x]. rewrite I3, C4, V1. intros [[]|[_ Hx]]; exact Hx.
Qed.
Lemma part_apart g P r : part g P r -> o_tol r = o_tol g -> apart g -> apart r.
Proof.
  intros [_ [_ [_ [V _]]]] T A v w x y Hx Hy N. rewrite T. apply V in Hx. apply V in Hy. exact (A v w x y (proj1 Hx) (proj1 Hy) N).
Qed.
Lemma part_ext g P Q r : (forall i c, In (i, c) (o_cells g) -> (P i <-> Q i)) -> part g P r -> part g Q r.
Proof.
  intros E [A [B [C [D [F G]]]]]. split; [exact A|]. split; [exact B|]. split; [|split; [|split]].
  - intros id c. rewrite C. split; intros [X Y]; (split; [exact X|apply (E id c X), Y]).
  - intros v x. rewrite D. split; intros [X [id [c [Y [Z W]]]]]; (split; [exact X|]); exists id, c; (split; [exact Y|split; [apply (E id c Y), Z|exact W]]).
  - intros p. rewrite F. split; intros [id [X [c [Y Z]]]]; exists id; (split; [apply (E id c Y), X|exists c; split; assumption]).
  - intros p s. rewrite G. split; intros [W [id [X [c [Y Z]]]]]; (split; [exact W|]); exists id; (split; [apply (E id c Y), X|exists c; split; assumption]).
Qed.
Lemma selection_ok clean ids g : merges_close clean -> proper g -> apart g -> o_type g <> 3 -> (/ 10 ^ 15 <= o_tol g)%R -> (forall i, In i ids -> In i (map fst (o_cells g))) ->
  exists r, selection_patch clean ids g = Some r /\ o_tol r = o_tol g /\ part g (fun i => In i ids) r.
Proof.
  intros M P A T Tol Inc. unfold selection_patch. pose proof (proj2 (Nat.eqb_neq _ _) T) as T'. rewrite T'. unfold setTolerance, new_obj. cbn [o_type o_verts o_cells o_pids o_names].
  rewrite Rmax_right by exact Tol. destruct (copy_part_ok ids g (o_type g) (o_tol g) P T eq_refl Inc) as [r [E [E2 [Pr [E3 _]]]]]. rewrite E.
  exists (give_names (o_names g) r). split; [|split; [exact E3|exact Pr]]. f_equal. apply M. exact (part_apart _ _ _ Pr E3 A).
Qed.

(** ** Sorting *)
Lemma insert_in x y l : In y (insert x l) <-> y = x \/ In y l.
Proof.
  induction l as [|z l IH]; cbn [insert In]; [intuition|]. destruct (x <=? z); cbn [In]; [intuition|]. rewrite IH. intuition.
Qed.
Lemma sort_in x l : In x (sort l) <-> In x l.
Proof. induction l as [|y l IH]; cbn [sort]; [reflexivity|]. rewrite insert_in, IH. cbn [In]. intuition. Qed.
Inductive sorted : list nat -> Prop := s_nil : sorted [] | s_cons x l : (forall y, In y l -> x < y) -> sorted l -> sorted (x :: l).
Lemma insert_sorted x l : sorted l -> ~ In x l -> sorted (insert x l).
Proof.
  intros H. induction H as [|y l Hy Hl IH]; intros N; cbn [insert]; [constructor; [intros y []|constructor]|].
  destruct (Nat.leb_spec x y) as [L|L].
  - assert (x <> y) by (intros ->; apply N; left; reflexivity). constructor; [intros z [<-|Hz]; [lia|specialize (Hy z Hz); lia]|constructor; assumption].
  - constructor; [intros z Hz; apply insert_in in Hz; destruct Hz as [->|Hz]; [exact L|exact (Hy z Hz)]|]. apply IH. intros K. apply N. right. exact K.
Qed.
Lemma sort_sorted l : NoDup l -> sorted (sort l).
Proof.
  induction l as [|x l IH]; intros N; cbn [sort]; [constructor|]. apply NoDup_cons_iff in N. destruct N as [N1 N2]. apply insert_sorted; [exact (IH N2)|]. rewrite sort_in. exact N1.
Qed.
Lemma sorted_nodup l : sorted l -> NoDup l.
Proof. intros H. induction H as [|x l Hx Hl IH]; constructor; [|exact IH]. intros K. specialize (Hx x K). lia. Qed.
Lemma merge_out_ok : forall tot cand, sorted tot -> sorted cand -> (forall x, In x cand -> In x tot) -> forall x, In x (merge_out tot cand) <-> In x tot /\ ~ In x cand.
Proof.
  induction tot as [|v tot IH]; intros cand Ht Hc Inc x; cbn [merge_out]; [split; [intros []|intros [[] _]]|].
  inversion Ht as [|v' tot' Hv Ht']; subst v' tot'. destruct cand as [|c cand].
  - cbn [In]. rewrite (IH [] Ht' s_nil (fun y H => match H with end) x). split; [intros [->|[H _]]; (split; [|intros []]); [left; reflexivity|right; exact H]|].
    intros [[->|H] _]; [left; reflexivity|right; split; [exact H|intros []]].
  - inversion Hc as [|c' cand' Hcc Hc']; subst c' cand'. destruct (Nat.eqb_spec v c) as [->|N].
    + rewrite (IH cand Ht' Hc').
      * cbn [In]. split.
        -- intros [H K]. split; [right; exact H|]. intros [E|E]; [|exact (K E)]. subst x. specialize (Hv c H). lia.
        -- intros [[E|H] K]; [destruct K; left; exact E|]. split; [exact H|]. intros E. apply K. right. exact E.
      * intros y Hy. destruct (Inc y (or_intror Hy)) as [E|H]; [|exact H]. subst y. specialize (Hcc c Hy). lia.
    + cbn [In]. assert (Inc' : forall y, In y (c :: cand) -> In y tot).
      { intros y Hy. destruct (Inc y Hy) as [E|H]; [|exact H]. subst y. exfalso. destruct Hy as [E|Hy]; [congruence|].
        specialize (Hcc v Hy). destruct (Inc c (or_introl eq_refl)) as [E|H]; [congruence|]. specialize (Hv c H). lia. }
      rewrite (IH (c :: cand) Ht' Hc Inc'). split.
      * intros [->|[H K]]; [|split; [right; exact H|exact K]]. split; [left; reflexivity|]. intros K. specialize (Inc' x K). specialize (Hv x Inc'). lia.
      * intros [[->|H] K]; [left; reflexivity|right; split; assumption].
Qed.

(** ** Selection by PID *)
Lemma zkey_iff p l : zkey p l = true <-> In p (map fst l).
Proof.
  unfold zkey. rewrite existsb_exists, in_map_iff. split; [intros [e [H E]]; apply Z.eqb_eq in E; exists e; split; [congruence|exact H]|].
  intros [e [E H]]. exists e. split; [exact H|]. apply Z.eqb_eq. congruence.
Qed.
Lemma setGeometry_fold : forall ps l p b, In (p, b) (fold_left (fun l p => if zkey p l then l else l ++ [(p, false)]) ps l) <->
  In (p, b) l \/ (b = false /\ In p ps /\ ~ In p (map fst l)).
Proof.
  induction ps as [|q ps IH]; intros l p b; cbn [fold_left]; [split; [left; assumption|intros [H|[_ [[] _]]]; exact H]|].
  rewrite IH. destruct (zkey q l) eqn:E.
  - apply zkey_iff in E. split; [intros [H|[-> [H N]]]; [left; exact H|right; split; [reflexivity|split; [right; exact H|exact N]]]|].
    intros [H|[-> [[->|H] N]]]; [left; exact H|contradiction|right; repeat split; assumption].
  - assert (E' : ~ In q (map fst l)) by (rewrite <- zkey_iff, E; discriminate). rewrite in_app_iff, map_app. cbn [map fst In]. split.
    + intros [[H|[H|[]]]|[-> [H N]]]; [left; exact H|right; injection H as <- <-; split; [reflexivity|split; [left; reflexivity|exact E']]|].
      right. split; [reflexivity|]. split; [right; exact H|]. intros K. apply N. rewrite in_app_iff. left. exact K.
    + intros [H|[-> [[->|H] N]]]; [left; left; exact H|left; right; left; reflexivity|].
      destruct (Z.eq_dec q p) as [->|D]; [left; right; left; reflexivity|]. right. split; [reflexivity|]. split; [exact H|]. rewrite in_app_iff. intros [K|[K|[]]]; [exact (N K)|exact (D K)].
Qed.
Lemma extract_ok s g : distinct (o_cells g) -> pid_ok g -> forall i, In i (ps_extract s g) <->
  In i (map fst (o_cells g)) /\ ((exists p, In (p, true) (ps_active s) /\ carries g i p) <-> ps_dual s = false).
Proof.
  intros D K i. set (ex := sort (nodup Nat.eq_dec (flat_map (fun p => extractPIDCells p g) (getActivePID true s)))).
  assert (Ex : forall i, In i ex <-> exists p, In (p, true) (ps_active s) /\ carries g i p).
  { intros j. unfold ex. rewrite sort_in, nodup_In, in_flat_map. unfold getActivePID. split.
    - intros [p [Hp H]]. apply in_map_iff in Hp. destruct Hp as [[q b] [E Hq]]. apply filter_In in Hq. cbn [fst snd] in *. destruct Hq as [Hq Eb]. apply eqb_prop in Eb. subst.
      exists p. split; [exact Hq|]. apply (extract_in g p j K), H.
    - intros [p [Hp H]]. exists p. split; [|apply (extract_in g p j K), H]. apply in_map_iff. exists (p, true). split; [reflexivity|]. apply filter_In. split; [exact Hp|reflexivity]. }
  assert (Sub : forall j, In j ex -> In j (map fst (o_cells g))).
  { intros j Hj. apply Ex in Hj. destruct Hj as [p [_ [c [Hc _]]]]. apply in_map_iff. exists (j, c). split; [reflexivity|exact Hc]. }
  assert (Sx : sorted ex) by (apply sort_sorted, NoDup_nodup).
  unfold ps_extract. fold ex. destruct (ps_dual s).
  - assert (St : sorted (sort (map fst (o_cells g)))) by (apply sort_sorted, D).
    assert (Body : In i (merge_out (sort (map fst (o_cells g))) ex) <-> In i (map fst (o_cells g)) /\ ((exists p, In (p, true) (ps_active s) /\ carries g i p) <-> true = false)).
    { rewrite merge_out_ok; [|exact St|exact Sx|intros j Hj; rewrite sort_in; exact (Sub j Hj)]. rewrite sort_in, Ex. split; intros [A B]; (split; [exact A|]).
      - split; [intros Q; contradiction|discriminate].
      - intros Q. apply B in Q. discriminate. }
    destruct (Nat.eqb_spec (length (o_cells g)) (length ex)) as [L|L]; [|exact Body]. split; [intros []|]. intros H. apply Body in H.
    rewrite merge_out_ok in H; [|exact St|exact Sx|intros j Hj; rewrite sort_in; exact (Sub j Hj)]. rewrite sort_in in H. destruct H as [H N]. destruct N.
    assert (I : incl (map fst (o_cells g)) ex).
    { apply NoDup_length_incl; [exact (sorted_nodup _ Sx)|rewrite map_length; lia|exact Sub]. }
    exact (I i H).
  - rewrite Ex. split.
    + intros H. split; [apply Sub, Ex, H|]. split; [reflexivity|intros _; exact H].
    + intros [_ H]. apply H. reflexivity.
Qed.
Fixpoint ps_run (h : list ask) (s : pidsel) : pidsel :=
  match h with [] => s | Ask i :: r => ps_setPID i (ps_run r s) | Drop i :: r => ps_removePID i (ps_run r s) end.
Lemma ps_run_set : forall h s, (forall a, In a h -> simple a) -> ~ In (-1)%Z (ps_set s) ->
  ps_linked (ps_run h s) = ps_linked s /\ ps_active (ps_run h s) = ps_active s /\ ps_dual (ps_run h s) = ps_dual s /\
  ~ In (-1)%Z (ps_set (ps_run h s)) /\
  forall h0, (forall p, In p (ps_set s) <-> asked h0 p) -> forall p, In p (ps_set (ps_run h s)) <-> asked (h ++ h0) p.
Proof.
  induction h as [|a h IH]; intros s Sm N.
  - cbn [ps_run List.app]. repeat (split; [first [reflexivity|exact N]|]). intros h0 H. exact H.
  - destruct (IH s (fun b Hb => Sm b (or_intror Hb)) N) as [I1 [I2 [I3 [I4 I5]]]]. pose proof (Sm a (or_introl eq_refl)) as Sa. destruct a as [i|i]; cbn [ps_run simple List.app] in *.
    + set (s' := ps_run h s) in *. unfold ps_setPID. cbn [ps_linked ps_active ps_dual ps_set].
      assert (E : zin (-1) (ps_set s') = false) by (apply zin_false; exact I4). rewrite E. assert (E2 : Z.eqb i (-1) = false) by (apply Z.eqb_neq; lia). rewrite E2, andb_false_r. cbn [orb].
      repeat (split; [assumption|]). split; [rewrite in_zadd; intros [K|K]; [lia|exact (I4 K)]|]. intros h0 H p. rewrite in_zadd, (I5 h0 H p). cbn [asked]. split; [intros K; right; exact K|]. intros [K|K]; [lia|exact K].
    + set (s' := ps_run h s) in *. unfold ps_removePID. cbn [ps_linked ps_active ps_dual ps_set]. repeat (split; [assumption|]). destruct (Z.ltb_spec 0 i) as [L|L].
      * split; [rewrite filter_In; intros [K _]; exact (I4 K)|]. intros h0 H p. rewrite filter_In, (I5 h0 H p). cbn [asked]. rewrite negb_true_iff, Z.eqb_neq. split; [intros [A B]; split; [lia|split; [exact B|exact A]]|intros [_ [B A]]; split; [exact A|exact B]].
      * split; [intros []|]. intros h0 H p. cbn [asked]. split; [intros []|intros [A _]; lia].
Qed.
Lemma sync_active s p : In (p, true) (ps_active (ps_sync s)) <->
  (In (p, true) (ps_active s) \/ ((exists b, In (p, b) (ps_active s)) /\ (In (-1)%Z (ps_set s) \/ In p (ps_set s)))).
Proof.
  unfold ps_sync. destruct (zin (-1) (ps_set s)) eqn:E; cbn [ps_active]; rewrite in_map_iff; split.
  - intros [[q b] [Q H]]. cbn [fst] in Q. injection Q as <-. right. split; [exists b; exact H|left; apply zin_iff, E].
  - intros [H|[[b H] _]]; [exists (p, true)|exists (p, b)]; (split; [reflexivity|exact H]).
  - intros [[q b] [Q H]]. cbn [fst snd] in Q. injection Q as <- Q. apply orb_true_iff in Q. destruct Q as [->|Q]; [left; exact H|]. right. split; [exists b; exact H|right; apply zin_iff, Q].
  - intros [H|[[b H] [K|K]]]; [exists (p, true); split; [reflexivity|exact H]|apply zin_iff in K; congruence|]. exists (p, b). split; [|exact H]. cbn [fst snd]. apply zin_iff in K. rewrite K, orb_true_r. reflexivity.
Qed.
Lemma sync_again s : ~ In (-1)%Z (ps_set s) -> ps_sync (ps_sync s) = ps_sync s.
Proof.
  destruct s as [l ac st d]. cbn [ps_set]. intros N. assert (E : zin (-1) st = false) by (apply zin_false; exact N).
  assert (E2 : zin (-1) (filter (fun p => zkey p ac) st) = false) by (apply zin_false; rewrite filter_In; intros [X _]; exact (N X)).
  unfold ps_sync. cbn [ps_linked ps_active ps_set ps_dual]. rewrite E. cbn [ps_linked ps_active ps_set ps_dual]. rewrite E2.
  assert (Kk : forall f p, zkey p (map (fun e => (fst e, f e)) ac) = zkey p ac).
  { intros f p. unfold zkey. clear. induction ac as [|e r IH]; cbn [map existsb fst]; [reflexivity|]. rewrite IH. reflexivity. }
  assert (A : map (fun e : Z * bool => (fst e, snd e || zin (fst e) (filter (fun p => zkey p ac) st))) (map (fun e => (fst e, snd e || zin (fst e) st)) ac)
              = map (fun e => (fst e, snd e || zin (fst e) st)) ac).
  { rewrite map_map. apply map_ext. intros [p b]. cbn [fst snd]. f_equal. destruct b; [reflexivity|]. cbn [orb]. destruct (zin p st) eqn:Ep; [reflexivity|]. cbn [orb].
    apply zin_false. rewrite filter_In. intros [X _]. apply zin_false in Ep. exact (Ep X). }
  rewrite A. f_equal. rewrite (filter_ext _ (fun p => zkey p ac) (Kk _)). clear. induction st as [|q r IH]; cbn [filter]; [reflexivity|].
  destruct (zkey q ac) eqn:Eq; [cbn [filter]; rewrite Eq; f_equal; exact IH|exact IH].
Qed.
