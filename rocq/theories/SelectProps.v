(** C83-C85: parts of a geometry, selection by PID and by lists of elements. *)
From Coq Require Import String List Arith Bool ZArith Reals Lia Lra.
From Verif Require Import Vec SharedPtr Obj ObjSpec ObjProofs PidProps ObjProps Select SelectSpec SelectProofs.
Import ListNotations.
Open Scope list_scope.
Open Scope nat_scope.

Lemma history_int fr g : new_ids fr -> pid_history fr g -> forall id c, In (id, c) (o_cells g) -> int_range (c_pid c).
Proof.
  intros F H. induction H as [t|g g' H IH Hc]; [intros id c []|]. destruct (history_ok fr g F H) as [K D].
  destruct Hc as [x id0 g|l t p id0 g R|c0 id0 g R|id0 g|ps g R|m g Dm R Cov|id0 p g R|p s g|g|t g|g]; intros i c.
  - unfold addVertex. destruct id0; [destruct (has _ _)|]; apply IH.
  - destruct (addConnectedCell_cases fr l t p id0 g) as [->|[j [-> [_ [_ [Hn ->]]]]]]; [apply IH|]. cbn [snd].
    rewrite add_cell_eq by (apply pick_new; assumption). cbn [o_cells]. rewrite in_app_iff. intros [Q|[Q|[]]]; [exact (IH _ _ Q)|]. injection Q as _ <-. apply to_int_range.
  - destruct (addCell_cases fr c0 id0 g) as [->|[j [-> [Hn ->]]]]; [apply IH|]. cbn [snd].
    rewrite add_cell_eq by (apply pick_new; assumption). cbn [o_cells]. rewrite in_app_iff. intros [Q|[Q|[]]]; [exact (IH _ _ Q)|]. injection Q as _ <-. apply to_int_range.
  - cbn [deleteCell with_cells o_cells]. rewrite filter_In. intros [Q _]. exact (IH _ _ Q).
  - unfold setPID. destruct (Nat.eqb _ _); [|apply IH]. cbn [with_pids with_cells o_cells]. rewrite in_map_iff. intros [e [Q _]]. injection Q as _ <-. apply to_int_range.
  - intros Hc. destruct (setPID_map_cells m g Cov R Dm i c Hc) as [p [Hp <-]]. exact (R _ Hp).
  - unfold setPIDCell. destruct (has id0 (o_cells g)); [|apply IH]. cbn [with_pids with_cells o_cells]. rewrite put_cell_in.
    intros [[_ Q]|[_ [d [_ ->]]]]; [exact (IH _ _ Q)|apply to_int_range].
  - unfold setPIDName. destruct (nfind p (o_names g)); apply IH.
  - apply IH.
  - apply IH.
  - destruct (clone_ok g) as [_ E]; [exact (proj1 (proj2 (proj2 K)))|]. rewrite E. apply IH.
Qed.
Lemma history_proper fr g : new_ids fr -> pid_history fr g -> usable g -> proper g.
Proof.
  intros F H [W [Sd Cl0]]. destruct (history_ok fr g F H) as [[A [B [C D]]] _]. split; [exact W|]. split; [exact Sd|]. split; [exact Cl0|]. split; [|exact C].
  intros id c Hc. split; [exact (history_int fr g F H id c Hc)|]. apply A in Hc. apply D in Hc. unfold keys in Hc. apply in_map_iff in Hc.
  destruct Hc as [[q s] [E Hs]]. cbn [fst] in E. subst q. exists s. exact Hs.
Qed.

(** ** C83 *)

(** The geometry made by a selection: exactly the cells extracted, as they are, their vertices where
    they are, their PIDs with their names, the tolerance of the target. *)
Theorem C83_part : forall fr clean ids g, new_ids fr -> pid_history fr g -> usable g -> apart g -> (/ 10 ^ 15 <= o_tol g)%R -> merges_close clean ->
  o_type g <> 3 -> (forall i, In i ids -> In i (map fst (o_cells g))) ->
  exists r, selection_patch clean ids g = Some r /\ o_tol r = o_tol g /\ part g (fun i => In i ids) r.
Proof. intros fr clean ids g F H U A T M N I. apply selection_ok; try assumption. exact (history_proper fr g F H U). Qed.
Print Assumptions C83_part.
Theorem C83_cloud : forall clean ids g, well_formed g -> apart g -> (/ 10 ^ 15 <= o_tol g)%R -> merges_close clean ->
  o_type g = 3 -> (forall i, In i ids -> In i (map fst (o_verts g))) ->
  exists r, selection_patch clean ids g = Some r /\ o_tol r = o_tol g /\ cloud_part g (fun v => In v ids) r.
Proof.
  intros clean ids g [Dv Dc] A Tol M T Inc. unfold selection_patch. rewrite T. cbn [Nat.eqb]. unfold setTolerance, new_obj. cbn [o_type o_verts o_cells o_pids o_names].
  rewrite Rmax_right by exact Tol.
  destruct (copy_verts_ok ids g (Ob 3 (o_tol g) [] [] [] []) Dv) as [r [E1 [E2 [E3 [E4 [E5 [E6 [D1 V1]]]]]]]]; [constructor|intros e []|exact Inc|].
  rewrite E1. exists r. assert (G : give_names (o_names g) r = r) by (unfold give_names; rewrite E5; reflexivity). rewrite G. cbn [o_verts o_cells o_tol o_type] in *. split; [|split; [exact E3|]].
  - f_equal. apply M. intros v w x y Hx Hy N. rewrite E3. apply V1 in Hx. apply V1 in Hy. destruct Hx as [[]|[_ Hx]]. destruct Hy as [[]|[_ Hy]]. exact (A v w x y Hx Hy N).
  - split; [congruence|]. split; [split; [exact D1|unfold distinct; rewrite E4; constructor]|]. split; [exact E4|]. intros v x. rewrite V1. split; [intros [[]|[Q K]]; split; assumption|intros [Q K]; right; split; assumption].
Qed.
Print Assumptions C83_cloud.
(** An extraction that names an element the geometry does not have is undefined behaviour. *)
Theorem C83_unknown : forall clean ids g i, In i ids -> distinct (o_cells g) -> ~ In i (map fst (o_cells g)) -> o_type g <> 3 -> selection_patch clean ids g = None.
Proof.
  intros clean ids g i Hi D N T. unfold selection_patch. rewrite (proj2 (Nat.eqb_neq _ _) T). unfold copy_part.
  destruct (copy_verts _ _ _) as [r|]; [|reflexivity]. replace (copy_cells ids g r) with (@None obj); [reflexivity|]. symmetry. clear T.
  revert r Hi. induction ids as [|j ids IH]; intros r Hi; [destruct Hi|]. cbn [copy_cells]. destruct (find j (o_cells g)) as [c|] eqn:E; [|reflexivity].
  apply IH. destruct Hi as [->|Hi]; [|exact Hi]. destruct N. apply find_in in E. apply in_map_iff. exists (i, c). split; [reflexivity|exact E].
Qed.
Print Assumptions C83_unknown.

(** ** C84 *)

Lemma execute_state fr clean g s : new_ids fr -> pid_history fr g -> usable g -> apart g -> (/ 10 ^ 15 <= o_tol g)%R -> merges_close clean ->
  o_type g <> 3 -> ps_linked s = true -> (forall p b, In (p, b) (ps_active s) <-> b = false /\ In p (o_pids g)) ->
  exists r, ps_execute clean s g = Some (ps_sync s, r) /\ o_tol r = o_tol g /\
    part g (fun i => let Q := exists p, carries g i p /\ (In (-1)%Z (ps_set s) \/ In p (ps_set s)) in if ps_dual s then ~ Q else Q) r /\
    (~ In (-1)%Z (ps_set s) -> ps_execute clean (ps_sync s) g = Some (ps_sync s, r)).
Proof.
  intros F H U A T M N L Ac. destruct (history_ok fr g F H) as [K D]. set (s4 := ps_sync s).
  assert (E4 : ps_linked s4 = true /\ ps_dual s4 = ps_dual s).
  { unfold s4, ps_sync. destruct (zin (-1) (ps_set s)); cbn [ps_linked ps_dual]; split; first [exact L|reflexivity]. }
  destruct E4 as [L4 D4].
  assert (Act : forall p, In (p, true) (ps_active s4) <-> In p (o_pids g) /\ (In (-1)%Z (ps_set s) \/ In p (ps_set s))).
  { intros p. unfold s4. rewrite sync_active. rewrite (Ac p true). split.
    - intros [[X _]|[[b X] Y]]; [discriminate|]. apply Ac in X. split; [exact (proj2 X)|exact Y].
    - intros [X Y]. right. split; [exists false; apply Ac; split; [reflexivity|exact X]|exact Y]. }
  pose proof (extract_ok s4 g D K) as Ex. rewrite D4 in Ex.
  destruct (selection_ok clean (ps_extract s4 g) g M (history_proper fr g F H U) A N T) as [r [Er [Et Pr]]]; [intros i Hi; apply Ex in Hi; exact (proj1 Hi)|].
  exists r. unfold ps_execute. rewrite L. fold s4. rewrite L4, Er. split; [reflexivity|]. split; [exact Et|]. split.
  2: { intros Nm. unfold s4. rewrite (sync_again s Nm). fold s4. rewrite Er. reflexivity. }
  refine (part_ext g _ _ r _ Pr). intros i c Hc. rewrite Ex. cbv zeta.
  assert (Eq : (exists p, In (p, true) (ps_active s4) /\ carries g i p) <-> exists p, carries g i p /\ (In (-1)%Z (ps_set s) \/ In p (ps_set s))).
  { split; intros [p X]; exists p; [split; [exact (proj2 X)|apply Act, (proj1 X)]|]. destruct X as [X Y]. split; [|exact X]. apply Act. split; [|exact Y]. destruct X as [c0 [Hc0 <-]]. exact (proj1 K i c0 Hc0). }
  rewrite Eq. assert (Hi : In i (map fst (o_cells g))) by (apply in_map_iff; exists (i, c); split; [reflexivity|exact Hc]). destruct (ps_dual s); split.
  - intros [_ X] Y. apply X in Y. discriminate.
  - intros X. split; [exact Hi|]. split; [intros Y; contradiction|discriminate].
  - intros [_ X]. apply X. reflexivity.
  - intros X. split; [exact Hi|]. split; [reflexivity|intros _; exact X].
Qed.

(** A selection by PID that is given the geometry and then, or before, requests to activate and
    deactivate PIDs: the part made of the cells whose PID is asked, or of the other cells for the
    dual selection. *)
Theorem C84_exact : forall fr clean g h1 h2 d, new_ids fr -> pid_history fr g -> usable g -> apart g -> (/ 10 ^ 15 <= o_tol g)%R -> merges_close clean ->
  o_type g <> 3 -> (forall a, In a (h2 ++ h1) -> simple a) ->
  exists s r, ps_execute clean (ps_setDual d (ps_run h2 (ps_setGeometry g (ps_run h1 new_pidsel)))) g = Some (s, r) /\ o_tol r = o_tol g /\
    part g (fun i => if d then ~ (exists p, carries g i p /\ asked (h2 ++ h1) p) else exists p, carries g i p /\ asked (h2 ++ h1) p) r /\
    (** and executing again gives the same *)
    ps_execute clean s g = Some (s, r).
Proof.
  intros fr clean g h1 h2 d F H U A T M N Sm. destruct (history_ok fr g F H) as [K D].
  destruct (ps_run_set h1 new_pidsel) as [P1 [P2 [P3 [P4 P5]]]]; [intros a Ha; apply Sm, in_app_iff; right; exact Ha|intros []|].
  set (s1 := ps_run h1 new_pidsel) in *. set (s2 := ps_setGeometry g s1).
  assert (G : ps_linked s2 = true /\ ps_set s2 = ps_set s1 /\ (forall p b, In (p, b) (ps_active s2) <-> b = false /\ In p (o_pids g))).
  { unfold s2, ps_setGeometry. rewrite (proj2 (Nat.eqb_neq _ _) N). cbn [ps_linked ps_set ps_active]. split; [reflexivity|]. split; [reflexivity|]. intros p b. rewrite setGeometry_fold, P2. cbn [new_pidsel ps_active map In].
    split; [intros [[]|[X [Y _]]]; split; assumption|intros [X Y]; right; repeat split; [exact X|exact Y|intros []]]. }
  destruct G as [G1 [G2 G3]].
  destruct (ps_run_set h2 s2) as [Q1 [Q2 [Q3 [Q4 Q5]]]]; [intros a Ha; apply Sm, in_app_iff; left; exact Ha|rewrite G2; exact P4|].
  assert (As : forall p, In p (ps_set (ps_run h2 s2)) <-> asked (h2 ++ h1) p).
  { apply Q5. intros p. rewrite G2. rewrite (P5 []); [rewrite app_nil_r; reflexivity|]. intros q. split; intros []. }
  set (s3 := ps_setDual d (ps_run h2 s2)).
  assert (S3 : ps_linked s3 = true /\ ps_dual s3 = d /\ (forall p b, In (p, b) (ps_active s3) <-> b = false /\ In p (o_pids g)) /\ ~ In (-1)%Z (ps_set s3) /\ forall p, In p (ps_set s3) <-> asked (h2 ++ h1) p).
  { unfold s3, ps_setDual. cbn [ps_linked ps_dual ps_active ps_set]. rewrite Q1, Q2. repeat (split; [first [assumption|reflexivity]|]). exact As. }
  destruct S3 as [L [Du [Ac [Nm As3]]]].
  destruct (execute_state fr clean g s3 F H U A T M N L Ac) as [r [Er [Et [Pr Ag]]]].
  exists (ps_sync s3), r. split; [exact Er|]. split; [exact Et|]. split; [|exact (Ag Nm)]. rewrite Du in Pr.
  refine (part_ext g _ _ r _ Pr). intros i c Hc.
  assert (Eq : (exists p, carries g i p /\ (In (-1)%Z (ps_set s3) \/ In p (ps_set s3))) <-> exists p, carries g i p /\ asked (h2 ++ h1) p).
  { split; intros [p [X Y]]; exists p; (split; [exact X|]); [destruct Y as [Y|Y]; [contradiction|apply As3, Y]|right; apply As3, Y]. }
  cbv zeta. destruct d; [|exact Eq]. split; intros X Y; apply X, Eq, Y.
Qed.
Print Assumptions C84_exact.
(** All the PIDs asked by the last request: all the cells, none for the dual selection. *)
Theorem C84_all : forall fr clean g h1 h2 d, new_ids fr -> pid_history fr g -> usable g -> apart g -> (/ 10 ^ 15 <= o_tol g)%R -> merges_close clean ->
  o_type g <> 3 -> (forall a, In a (h2 ++ h1) -> simple a) ->
  exists s r, ps_execute clean (ps_setDual d (ps_setPID (-1) (ps_run h2 (ps_setGeometry g (ps_run h1 new_pidsel))))) g = Some (s, r) /\ o_tol r = o_tol g /\
    part g (fun _ => d = false) r.
Proof.
  intros fr clean g h1 h2 d F H U A T M N Sm.
  destruct (ps_run_set h1 new_pidsel) as [P1 [P2 [P3 [P4 P5]]]]; [intros a Ha; apply Sm, in_app_iff; right; exact Ha|intros []|].
  set (s1 := ps_run h1 new_pidsel) in *. set (s2 := ps_setGeometry g s1).
  assert (G : ps_linked s2 = true /\ ps_set s2 = ps_set s1 /\ (forall p b, In (p, b) (ps_active s2) <-> b = false /\ In p (o_pids g))).
  { unfold s2, ps_setGeometry. rewrite (proj2 (Nat.eqb_neq _ _) N). cbn [ps_linked ps_set ps_active]. split; [reflexivity|]. split; [reflexivity|]. intros p b. rewrite setGeometry_fold, P2. cbn [new_pidsel ps_active map In].
    split; [intros [[]|[X [Y _]]]; split; assumption|intros [X Y]; right; repeat split; [exact X|exact Y|intros []]]. }
  destruct G as [G1 [G2 G3]].
  destruct (ps_run_set h2 s2) as [Q1 [Q2 [Q3 [Q4 Q5]]]]; [intros a Ha; apply Sm, in_app_iff; left; exact Ha|rewrite G2; exact P4|].
  set (s3 := ps_setDual d (ps_setPID (-1) (ps_run h2 s2))).
  assert (S3 : ps_linked s3 = true /\ ps_dual s3 = d /\ (forall p b, In (p, b) (ps_active s3) <-> b = false /\ In p (o_pids g)) /\ In (-1)%Z (ps_set s3)).
  { unfold s3, ps_setDual, ps_setPID. cbn [ps_linked ps_dual ps_active ps_set]. rewrite Q1, Q2. repeat (split; [first [assumption|reflexivity]|]). apply in_zadd. left. reflexivity. }
  destruct S3 as [L [Du [Ac Al]]].
  destruct (execute_state fr clean g s3 F H U A T M N L Ac) as [r [Er [Et [Pr _]]]].
  exists (ps_sync s3), r. split; [exact Er|]. split; [exact Et|]. rewrite Du in Pr.
  refine (part_ext g _ _ r _ Pr). intros i c Hc.
  assert (Q : exists p, carries g i p /\ (In (-1)%Z (ps_set s3) \/ In p (ps_set s3))) by (exists (c_pid c); split; [exists c; split; [exact Hc|reflexivity]|left; exact Al]).
  cbv zeta. destruct d; split; [intros X; contradiction|discriminate|reflexivity|intros _; exact Q].
Qed.
Print Assumptions C84_all.

(** two triangles with PIDs 0 and 5 of a square, the names of the PIDs, through the API *)
Definition fresh (l : list nat) : nat := S (list_max l).
Definition square : obj :=
  let g := new_obj 1 in
  let g := snd (addVertex fresh (V3 0 0 0) (Some 0) g) in
  let g := snd (addVertex fresh (V3 1 0 0) (Some 1) g) in
  let g := snd (addVertex fresh (V3 1 1 0) (Some 2) g) in
  let g := snd (addVertex fresh (V3 0 1 0) (Some 3) g) in
  let g := snd (addConnectedCell fresh [0; 1; 2] ETriangle 0 (Some 0) g) in
  let g := snd (addConnectedCell fresh [0; 2; 3] ETriangle 5 (Some 1) g) in
  snd (setPIDName 5 "wing"%string g).
Lemma fresh_new : new_ids fresh.
Proof.
  intros l H. assert (M : forall l x, In x l -> x <= list_max l).
  { clear. induction l as [|a l IH]; intros x H; [destruct H|]. change (list_max (a :: l)) with (max a (list_max l)). destruct H as [->|H]; [lia|specialize (IH x H); lia]. }
  apply M in H. unfold fresh in H. lia.
Qed.
Definition cells_of (x : option (pidsel * obj)) : option (list nat) := option_map (fun y => map fst (o_cells (snd y))) x.
Definition same (g : obj) : obj := g.
(** Requests that do not do what they are documented to do: deactivating PID 0 deactivates all of
    them; activating "all" through a negative PID other than -1 activates none; activating one PID
    after all of them leaves only that one; deactivating one after all of them leaves them all. *)
Theorem C84_requests_refuted :
  cells_of (ps_execute same (ps_removePID 0 (ps_setPID 5 (ps_setPID 0 (ps_setGeometry square new_pidsel)))) square) = Some [] /\
  cells_of (ps_execute same (ps_setPID (-2) (ps_setGeometry square new_pidsel)) square) = Some [] /\
  cells_of (ps_execute same (ps_setPID 5 (ps_setPID (-1) (ps_setGeometry square new_pidsel))) square) = Some [1] /\
  cells_of (ps_execute same (ps_removePID 5 (ps_setPID (-1) (ps_setGeometry square new_pidsel))) square) = Some [0; 1].
Proof. repeat split; vm_compute; reflexivity. Qed.
Print Assumptions C84_requests_refuted.
(** After an execution a PID cannot be deactivated any more. *)
Theorem C84_after_refuted : exists s r, ps_execute same (ps_setPID 5 (ps_setPID 0 (ps_setGeometry square new_pidsel))) square = Some (s, r) /\
  cells_of (ps_execute same (ps_removePID 5 s) square) = Some [0; 1] /\ cells_of (ps_execute same (ps_removePID (-1) s) square) = Some [0; 1].
Proof. eexists. eexists. split; [reflexivity|]. split; vm_compute; reflexivity. Qed.
Print Assumptions C84_after_refuted.
(** A PID given to a cell after the geometry was linked cannot be selected, and "all the PIDs" misses it. *)
Theorem C84_later_refuted :
  cells_of (ps_execute same (ps_setPID 7 (ps_setGeometry square new_pidsel)) (setPIDCell 0 7 square)) = Some [] /\
  cells_of (ps_execute same (ps_setPID (-1) (ps_setGeometry square new_pidsel)) (setPIDCell 0 7 square)) = Some [1].
Proof. split; vm_compute; reflexivity. Qed.
Print Assumptions C84_later_refuted.
(** Point clouds are ignored: the selection stays without geometry, and its execution throws. *)
Theorem C84_cloud_refuted : forall clean g h, o_type g = 3 -> ps_execute clean (ps_run h (ps_setGeometry g new_pidsel)) g = None.
Proof.
  intros clean g h T. unfold ps_setGeometry. rewrite T. cbn [Nat.eqb]. unfold ps_execute.
  assert (E : ps_linked (ps_run h new_pidsel) = false) by (induction h as [|[i|i] h IH]; [reflexivity|exact IH|exact IH]). rewrite E. reflexivity.
Qed.
Print Assumptions C84_cloud_refuted.

Lemma square_ok : pid_history fresh square /\ usable square /\ apart square /\ (/ 10 ^ 15 <= o_tol square)%R /\ o_type square <> 3.
Proof.
  split.
  { unfold square. cbv zeta. eapply ph_call; [|apply pc_name]. do 2 (eapply ph_call; [|apply pc_conn; unfold int_range; lia]). do 4 (eapply ph_call; [|apply pc_vertex]). apply ph_new. }
  assert (Cs : o_cells square = [(0, Cl ETriangle [0; 1; 2] 0); (1, Cl ETriangle [0; 2; 3] 5)]) by (vm_compute; reflexivity).
  assert (Vs : o_verts square = [(0, V3 0 0 0); (1, V3 1 0 0); (2, V3 1 1 0); (3, V3 0 1 0)]) by (cbv - [IZR]; reflexivity).
  split; [|split; [|split; [cbn [square setPIDName nfind o_tol]|discriminate]]].
  - split; [split; unfold distinct; rewrite ?Vs, ?Cs; cbn [map fst]; repeat constructor; cbn [In]; intuition discriminate|].
    assert (Mn : forall c, In c [Cl ETriangle [0; 1; 2] 0; Cl ETriangle [0; 2; 3] 5] -> means (c_type c) (c_conn c) [c_conn c]).
    { intros c [<-|[<-|[]]]; apply (means_fixed ETriangle _ 3); reflexivity. }
    assert (In2 : forall id c, In (id, c) (o_cells square) -> In c [Cl ETriangle [0; 1; 2] 0; Cl ETriangle [0; 2; 3] 5]).
    { intros id c H. rewrite Cs in H. destruct H as [H|[H|[]]]; injection H as _ <-; [left|right; left]; reflexivity. }
    split; [intros id c H; eexists; apply Mn, (In2 id), H|]. intros id c v H [fs [f [X [Y Z]]]]. pose proof (Mn c (In2 id c H)) as Q.
    rewrite (means_unique _ _ _ _ X Q) in Y. destruct Y as [<-|[]]. rewrite Vs. cbn [map fst]. apply In2 in H. destruct H as [<-|[<-|[]]]; cbn [c_conn In] in *; intuition.
  - intros v w x y Hx Hy N. rewrite Vs in Hx, Hy. cbn [In] in Hx, Hy. change (o_tol square) with (/ 1000000)%R. unfold far.
    repeat (destruct Hx as [Hx|Hx]; [injection Hx as <- <-|]); [..|destruct Hx];
    (repeat (destruct Hy as [Hy|Hy]; [injection Hy as <- <-|]); [..|destruct Hy]); try (exfalso; apply N; reflexivity);
    cbn [vx vy vz]; first [left; unfold Rabs; destruct (Rcase_abs _); lra|right; left; unfold Rabs; destruct (Rcase_abs _); lra].
  - change (o_tol square) with (/ 1000000)%R. lra.
Qed.
Lemma same_merges : merges_close same.
Proof. intros g _. reflexivity. Qed.
Example C83_nonvacuous : exists r, selection_patch same [1] square = Some r /\ o_tol r = o_tol square /\ part square (fun i => In i [1]) r /\ map fst (o_verts r) = [0; 2; 3] /\ o_names r = [(5%Z, "wing"%string)].
Proof.
  destruct square_ok as [A [B [C [D E]]]]. destruct (C83_part fresh same [1] square fresh_new A B C D same_merges E) as [r [H1 [H2 H3]]]; [intros i [<-|[]]; right; left; reflexivity|].
  exists r. repeat (split; [assumption|]). assert (X : option_map (fun r => (map fst (o_verts r), o_names r)) (selection_patch same [1] square) = Some ([0; 2; 3], [(5%Z, "wing"%string)])) by (vm_compute; reflexivity).
  rewrite H1 in X. cbn [option_map] in X. injection X as X Y. split; assumption.
Qed.
Example C84_nonvacuous : exists s r, ps_execute same (ps_setDual true (ps_run [Drop 3; Ask 5] (ps_setGeometry square (ps_run [] new_pidsel)))) square = Some (s, r) /\ map fst (o_cells r) = [0] /\
  part square (fun i => ~ (exists p, carries square i p /\ asked ([Drop 3; Ask 5] ++ []) p)) r.
Proof.
  destruct square_ok as [A [B [C [D E]]]].
  destruct (C84_exact fresh same square [] [Drop 3; Ask 5] true fresh_new A B C D same_merges E) as [s [r [H1 [_ [H3 _]]]]]; [intros a [<-|[<-|[]]]; cbn [simple]; lia|].
  exists s, r. split; [exact H1|]. split; [|exact H3].
  assert (X : cells_of (ps_execute same (ps_setDual true (ps_run [Drop 3; Ask 5] (ps_setGeometry square (ps_run [] new_pidsel)))) square) = Some [0]) by (vm_compute; reflexivity).
  rewrite H1 in X. cbn [cells_of option_map snd] in X. congruence.
Qed.

(** ** C85 *)

(** A selection by lists of elements: the cells listed and the cells all of whose vertices are
    listed; ids that the geometry does not have are ignored. *)
Theorem C85_exact : forall fr clean d vs cs g, new_ids fr -> pid_history fr g -> usable g -> apart g -> (/ 10 ^ 15 <= o_tol g)%R -> merges_close clean ->
  o_type g <> 3 ->
  exists r, el_execute clean d vs cs g = Some r /\ o_tol r = o_tol g /\
    part g (fun i => In i cs \/ exists c, In (i, c) (o_cells g) /\ (exists v, vertex_of c v) /\ forall v, vertex_of c v -> In v vs) r.
Proof.
  intros fr clean d vs cs g F H U A T M N. pose proof U as [W [Sd Cl0]].
  assert (Nn : forall x l, nin x l = true <-> In x l).
  { intros x l. unfold nin. rewrite existsb_exists. split; [intros [y [Hy E]]; apply Nat.eqb_eq in E; subst y; exact Hy|intros Hx; exists x; split; [exact Hx|apply Nat.eqb_refl]]. }
  assert (Ex : forall i, In i (el_extract vs cs g) <-> In i (map fst (o_cells g)) /\ (In i cs \/ exists c, In (i, c) (o_cells g) /\ (exists v, vertex_of c v) /\ forall v, vertex_of c v -> In v vs)).
  { intros i. unfold el_extract. rewrite (proj2 (Nat.eqb_neq _ _) N), filter_In, Nn, in_app_iff.
    destruct (C82_cells g (filter (fun v => nin v vs) (map fst (o_verts g))) W Sd N) as [_ [X _]]. rewrite (X i). split; intros [Hi Q]; (split; [exact Hi|]).
    - destruct Q as [[c [Hc [Ne Q]]]|Q]; [right|left; exact Q]. exists c. split; [exact Hc|]. split; [exact Ne|]. intros v Hv. apply Q, filter_In in Hv. apply Nn, (proj2 Hv).
    - destruct Q as [Q|[c [Hc [Ne Q]]]]; [right; exact Q|left]. exists c. split; [exact Hc|]. split; [exact Ne|]. intros v Hv. apply filter_In. split; [exact (Cl0 i c v Hc Hv)|apply Nn, Q, Hv]. }
  destruct (C83_part fr clean (el_extract vs cs g) g F H U A T M N) as [r [Er [Et Pr]]]; [intros i Hi; apply Ex in Hi; exact (proj1 Hi)|].
  exists r. split; [exact Er|]. split; [exact Et|]. refine (part_ext g _ _ r _ Pr). intros i c Hc. rewrite Ex. split; [intros [_ Q]; exact Q|intros Q; split; [|exact Q]].
  apply in_map_iff. exists (i, c). split; [reflexivity|exact Hc].
Qed.
Print Assumptions C85_exact.
(** In a cloud of points: the vertices listed. *)
Theorem C85_cloud : forall clean d vs cs g, well_formed g -> apart g -> (/ 10 ^ 15 <= o_tol g)%R -> merges_close clean -> o_type g = 3 ->
  exists r, el_execute clean d vs cs g = Some r /\ o_tol r = o_tol g /\ cloud_part g (fun v => In v vs) r.
Proof.
  intros clean d vs cs g W A Tol M T.
  assert (Ex : forall i, In i (el_extract vs cs g) <-> In i (map fst (o_verts g)) /\ In i vs).
  { intros i. unfold el_extract. rewrite T. cbn [Nat.eqb]. rewrite filter_In. unfold nin. rewrite existsb_exists. split; intros [X Y]; (split; [exact X|]).
    - destruct Y as [y [Hy E]]. apply Nat.eqb_eq in E. subst y. exact Hy.
    - exists i. split; [exact Y|apply Nat.eqb_refl]. }
  destruct (C83_cloud clean (el_extract vs cs g) g W A Tol M T) as [r [Er [Et [P1 [P2 [P3 P4]]]]]]; [intros i Hi; apply Ex in Hi; exact (proj1 Hi)|].
  exists r. split; [exact Er|]. split; [exact Et|]. split; [exact P1|]. split; [exact P2|]. split; [exact P3|]. intros v x. rewrite P4, Ex. split; [intros [X [_ Y]]; split; assumption|].
  intros [X Y]. split; [exact X|split; [|exact Y]]. apply in_map_iff. exists (v, x). split; [reflexivity|exact X].
Qed.
Print Assumptions C85_cloud.
(** The dual selection is not available: the flag is ignored, so that "the exact dual" is the
    selection itself. *)
Theorem C85_dual_refuted : (forall clean vs cs g, el_execute clean true vs cs g = el_execute clean false vs cs g) /\
  exists r, el_execute same true [] [0] square = Some r /\ map fst (o_cells r) = [0] /\ map fst (o_cells square) = [0; 1].
Proof.
  split; [reflexivity|]. destruct square_ok as [A [B [C [D E]]]]. destruct (C85_exact fresh same true [] [0] square fresh_new A B C D same_merges E) as [r [H1 _]].
  exists r. split; [exact H1|]. split; [|vm_compute; reflexivity].
  assert (X : option_map (fun r => map fst (o_cells r)) (el_execute same true [] [0] square) = Some [0]) by (vm_compute; reflexivity).
  rewrite H1 in X. cbn [option_map] in X. congruence.
Qed.
Print Assumptions C85_dual_refuted.
Example C85_nonvacuous : exists r, el_execute same false [0; 2; 3; 77] [99] square = Some r /\ map fst (o_cells r) = [1] /\
  part square (fun i => In i [99] \/ exists c, In (i, c) (o_cells square) /\ (exists v, vertex_of c v) /\ forall v, vertex_of c v -> In v [0; 2; 3; 77]) r.
Proof.
  destruct square_ok as [A [B [C [D E]]]]. destruct (C85_exact fresh same false [0; 2; 3; 77] [99] square fresh_new A B C D same_merges E) as [r [H1 [_ H3]]].
  exists r. split; [exact H1|]. split; [|exact H3].
  assert (X : option_map (fun r => map fst (o_cells r)) (el_execute same false [0; 2; 3; 77] [99] square) = Some [1]) by (vm_compute; reflexivity).
  rewrite H1 in X. cbn [option_map] in X. congruence.
Qed.
