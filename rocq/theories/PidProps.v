(** C79: part identifiers of cells. *)
From Coq Require Import String List Arith Bool ZArith Reals Lia Lra.
From Verif Require Import Vec SharedPtr Obj ObjSpec ObjProofs.
Import ListNotations.
Open Scope list_scope.
Open Scope nat_scope.

(** The calls that change the cells, their PIDs or the names of PIDs, in any order, with PIDs that
    fit an int.  A map given to setPID must cover the cells (see C79_map_refuted). *)
Inductive pid_call (fr : list nat -> nat) : obj -> obj -> Prop :=
  | pc_vertex x id g : pid_call fr g (snd (addVertex fr x id g))
  | pc_conn l t p id g : int_range p -> pid_call fr g (snd (addConnectedCell fr l t p id g))
  | pc_cell c id g : int_range (c_pid c) -> pid_call fr g (snd (addCell fr c id g))
  | pc_delete id g : pid_call fr g (deleteCell id g)
  | pc_list ps g : (forall p, In p ps -> int_range p) -> pid_call fr g (setPID ps g)
  | pc_map m g : distinct m -> (forall e, In e m -> int_range (snd e)) -> (forall id, In id (map fst (o_cells g)) -> In id (map fst m)) -> pid_call fr g (setPID_map m g)
  | pc_one id p g : int_range p -> pid_call fr g (setPIDCell id p g)
  | pc_name p s g : pid_call fr g (snd (setPIDName p s g))
  | pc_resync g : pid_call fr g (resyncPID g)
  | pc_tol t g : pid_call fr g (setTolerance t g)
  | pc_clone g : pid_call fr g (clone g).
Inductive pid_history (fr : list nat -> nat) : obj -> Prop :=
  | ph_new t : pid_history fr (new_obj t)
  | ph_call g g' : pid_history fr g -> pid_call fr g g' -> pid_history fr g'.

Lemma clone_ok g : NoDup (keys (o_names g)) -> pid_ok (clone g) /\ o_cells (clone g) = o_cells g.
Proof.
  intros N. unfold clone. set (r := resyncPID _). pose proof (clone_fold (o_names g) r) as F. cbv zeta in F. destruct F as [_ [_ [_ [E4 _]]]].
  split; [|rewrite E4; reflexivity]. generalize (o_names g). intros ns. assert (K : pid_ok r) by apply resync_ok. clearbody r. clear -K. revert r K.
  induction ns as [|e ns IH]; intros r K; cbn [fold_left]; [exact K|]. apply IH, setPIDName_ok, K.
Qed.
Lemma history_ok fr g : new_ids fr -> pid_history fr g -> pid_ok g /\ distinct (o_cells g).
Proof.
  intros F H. induction H as [t|g g' H [IH D] Hc].
  - split; [|constructor]. split; [intros id c []|]. split; [constructor|]. split; [constructor|]. intros p; split; intros [].
  - assert (AddD : forall i t l p, ~ In i (map fst (o_cells g)) -> distinct (o_cells (add_cell i t l p g))).
    { intros i t l p Hi. rewrite add_cell_eq by exact Hi. unfold distinct. cbn [o_cells]. rewrite map_app. cbn [map fst]. apply nodup_snoc; [exact D|exact Hi]. }
    destruct Hc.
    + unfold addVertex. destruct id; [destruct (has _ _)|]; split; assumption.
    + destruct (addConnectedCell_cases fr l t p id g) as [->|[i [-> [_ [_ [Hn ->]]]]]]; [split; assumption|]. cbn [snd].
      pose proof (pick_new fr id (o_cells g) F Hn) as Hi. split; [apply add_cell_ok; assumption|apply AddD, Hi].
    + destruct (addCell_cases fr c id g) as [->|[i [-> [Hn ->]]]]; [split; assumption|]. cbn [snd].
      pose proof (pick_new fr id (o_cells g) F Hn) as Hi. split; [apply add_cell_ok; assumption|apply AddD, Hi].
    + split; [apply delete_ok, IH|]. unfold distinct. cbn [deleteCell with_cells o_cells]. apply nodup_map_filter, D.
    + split; [apply setPID_ok; assumption|]. unfold distinct. rewrite setPID_ids. exact D.
    + split; [apply setPID_map_ok; assumption|]. unfold distinct. rewrite setPID_map_ids. exact D.
    + split; [apply setPIDCell_ok; assumption|]. unfold setPIDCell. destruct (has id (o_cells g)); [|exact D].
      unfold distinct. cbn [with_pids with_cells o_cells]. rewrite put_cell_ids. exact D.
    + split; [apply setPIDName_ok, IH|]. unfold setPIDName. destruct (nfind p (o_names g)); exact D.
    + split; [apply resync_ok|exact D].
    + split; assumption.
    + destruct (clone_ok g) as [K E]; [destruct IH as [_ [_ [K _]]]; exact K|]. split; [exact K|unfold distinct; rewrite E; exact D].
Qed.

(** After any history: the PID of every cell is listed, once; the PIDs with a name are the listed
    ones, with one name each; the cells extracted for a PID are the ones that carry it, once each;
    the subdivision has one entry for each listed PID, with these cells, so that each cell is in
    exactly one entry. *)
Theorem C79_listed : forall fr g, new_ids fr -> pid_history fr g ->
  (forall id p, carries g id p -> In p (o_pids g)) /\ NoDup (o_pids g) /\
  (forall p, (exists s, named g p s) <-> In p (o_pids g)) /\ (forall p s t, named g p s -> named g p t -> s = t).
Proof.
  intros fr g F H. destruct (history_ok fr g F H) as [[A [B [C D]]] _]. split; [|split; [exact B|split]].
  - intros id p [c [Hc <-]]. exact (A id c Hc).
  - intros p. rewrite <- (D p). unfold named, keys. rewrite in_map_iff. split; [intros [s Hs]; exists (p, s); split; [reflexivity|exact Hs]|].
    intros [[q s] [E Hs]]. cbn [fst] in E. subst q. exists s. exact Hs.
  - intros p s t Hs Ht. apply (nfind_some _ _ _ C) in Hs. apply (nfind_some _ _ _ C) in Ht. congruence.
Qed.
Print Assumptions C79_listed.

Theorem C79_extract : forall fr g, new_ids fr -> pid_history fr g ->
  (forall p id, In id (extractPIDCells p g) <-> carries g id p) /\
  (forall p, NoDup (extractPIDCells p g)) /\
  (forall ps id, In id (extractPIDCells_list ps g) <-> exists p, In p ps /\ carries g id p) /\
  (forall ps, NoDup ps -> NoDup (extractPIDCells_list ps g)).
Proof.
  intros fr g F H. destruct (history_ok fr g F H) as [K D].
  assert (A : forall p id, In id (extractPIDCells p g) <-> carries g id p) by (intros p id; apply extract_in, K).
  assert (B : forall p, NoDup (extractPIDCells p g)) by (intros p; unfold extractPIDCells; destruct (zin p (o_pids g)); [apply nodup_map_filter, D|constructor]).
  split; [exact A|]. split; [exact B|]. split.
  - intros ps id. unfold extractPIDCells_list. rewrite in_flat_map. split; intros [p [Hp Q]]; exists p; (split; [exact Hp|apply A, Q]).
  - intros ps N. unfold extractPIDCells_list. induction ps as [|p ps IH]; cbn [flat_map]; [constructor|]. apply NoDup_cons_iff in N. destruct N as [N1 N2].
    assert (App : forall l1 l2 : list nat, NoDup l1 -> NoDup l2 -> (forall x, In x l1 -> ~ In x l2) -> NoDup (l1 ++ l2)).
    { induction l1 as [|x l1 IH1]; intros l2 M1 M2 X; [exact M2|]. cbn [List.app]. apply NoDup_cons_iff in M1. destruct M1 as [M1 M3]. constructor.
      - rewrite in_app_iff. intros [Y|Y]; [exact (M1 Y)|exact (X x (or_introl eq_refl) Y)].
      - apply IH1; [exact M3|exact M2|]. intros y Hy. apply X. right. exact Hy. }
    apply App; [apply B|apply IH, N2|]. intros x Hx Hy. apply in_flat_map in Hy. destruct Hy as [q [Hq Hy]].
    apply A in Hx. apply A in Hy. destruct Hx as [c [Hc Ec]], Hy as [d [Hd Ed]].
    pose proof (in_find _ _ _ _ D Hc) as E1. pose proof (in_find _ _ _ _ D Hd) as E2. apply N1. replace p with q by congruence. exact Hq.
Qed.
Print Assumptions C79_extract.

Theorem C79_subdivision : forall fr g, new_ids fr -> pid_history fr g ->
  (forall p, In p (map fst (extractPIDSubdivision g)) <-> In p (o_pids g)) /\ NoDup (map fst (extractPIDSubdivision g)) /\
  (forall p l, In (p, l) (extractPIDSubdivision g) -> NoDup l /\ forall id, In id l <-> carries g id p) /\
  (forall id c, In (id, c) (o_cells g) -> exists p l, In (p, l) (extractPIDSubdivision g) /\ In id l /\
     forall q k, In (q, k) (extractPIDSubdivision g) -> In id k -> q = p).
Proof.
  intros fr g F H. destruct (history_ok fr g F H) as [K D]. destruct (subdivision_entry g K) as [S1 S2]. destruct K as [A [B C]].
  destruct (C79_extract fr g F H) as [X1 [X2 _]].
  assert (E : forall p l, In (p, l) (extractPIDSubdivision g) -> NoDup l /\ forall id, In id l <-> carries g id p).
  { intros p l Hl. apply S2 in Hl. destruct Hl as [_ ->]. split; [apply X2|intros id; apply X1]. }
  split; [intros p; rewrite S1; reflexivity|]. split; [rewrite S1; exact B|]. split; [exact E|].
  intros id c Hc. exists (c_pid c), (extractPIDCells (c_pid c) g). split; [apply S2; split; [exact (A id c Hc)|reflexivity]|].
  split; [apply X1; exists c; split; [exact Hc|reflexivity]|]. intros q k Hk Hin. apply (E q k Hk) in Hin. destruct Hin as [d [Hd Ed]].
  pose proof (in_find _ _ _ _ D Hd) as E1. pose proof (in_find _ _ _ _ D Hc) as E2. congruence.
Qed.
Print Assumptions C79_subdivision.

(** What each call does to the PIDs of the cells. *)
Theorem C79_assign : forall g, distinct (o_cells g) ->
  (forall ps, length ps = length (o_cells g) -> (forall p, In p ps -> int_range p) ->
     getCompactPID (setPID ps g) = ps /\ (forall p, In p (o_pids (setPID ps g)) <-> In p ps) /\
     map (fun e => (fst e, c_type (snd e), c_conn (snd e))) (o_cells (setPID ps g)) = map (fun e => (fst e, c_type (snd e), c_conn (snd e))) (o_cells g)) /\
  (forall ps, length ps <> length (o_cells g) -> setPID ps g = g) /\
  (forall id p, int_range p -> In id (map fst (o_cells g)) -> forall i c, In (i, c) (o_cells g) ->
     In (i, Cl (c_type c) (c_conn c) (if Nat.eqb i id then p else c_pid c)) (o_cells (setPIDCell id p g))) /\
  (forall id p, In id (map fst (o_cells g)) -> length (o_cells (setPIDCell id p g)) = length (o_cells g)) /\
  (forall id p, ~ In id (map fst (o_cells g)) -> setPIDCell id p g = g).
Proof.
  intros g D. split; [|split; [|split; [|split]]].
  - intros ps L R0. unfold setPID. pose proof (proj2 (Nat.eqb_eq _ _) L) as L'. rewrite L'. set (pl := fold_left _ ps []).
    assert (P : forall p, In p pl <-> In p ps).
    { intros p. unfold pl. rewrite (in_fold_zadd Z (fun p => p)). split; [intros [[]|[e [He <-]]]; exact He|intros Hp; right; exists p; split; [exact Hp|reflexivity]]. }
    split; [|split; [exact P|]].
    + assert (M : map (fun e => c_pid (snd e)) (map (fun e : (nat * cell) * Z => (fst (fst e), put_pid (snd e) (snd (fst e)))) (combine (o_cells g) ps)) = ps).
      { rewrite map_map. cbn [snd put_pid c_pid]. clear -L R0. revert ps L R0. induction (o_cells g) as [|x cs IH]; intros [|p ps] L R0; try discriminate; [reflexivity|].
        cbn [combine map snd]. rewrite to_int_id by (apply R0; left; reflexivity). f_equal. apply IH; [cbn in L; lia|]. intros q Hq. apply R0. right. exact Hq. }
      unfold getCompactPID. cbn [with_pids with_cells o_pids o_cells]. destruct pl as [|q pl'] eqn:E; [|exact M].
      destruct ps as [|p ps]; [reflexivity|]. destruct (proj2 (P p) (or_introl eq_refl)).
    + cbn [with_pids with_cells o_cells]. rewrite map_map. cbn [fst snd put_pid c_type c_conn].
      apply (map_fst_combine _ _ _ _ _ _ (fun e : nat * cell => (fst e, c_type (snd e), c_conn (snd e)))); [exact L|reflexivity].
  - intros ps L. unfold setPID. apply Nat.eqb_neq in L. rewrite L. reflexivity.
  - intros id p R0 Hid i c Hc. unfold setPIDCell. apply has_iff in Hid. rewrite Hid. cbn [with_pids with_cells o_cells]. apply put_cell_in.
    destruct (Nat.eqb_spec i id) as [->|N]; [right; split; [reflexivity|]; exists c; split; [exact Hc|unfold put_pid; rewrite to_int_id by exact R0; reflexivity]|].
    left. split; [exact N|]. destruct c. exact Hc.
  - intros id p Hid. unfold setPIDCell. apply has_iff in Hid. rewrite Hid. cbn [with_pids with_cells o_cells]. unfold put_cell_pid. apply map_length.
  - intros id p Hid. unfold setPIDCell. apply has_false in Hid. rewrite Hid. reflexivity.
Qed.
Print Assumptions C79_assign.

(** A name is given exactly to the listed PIDs, and changes no other name, PID or cell. *)
Theorem C79_name : forall fr g p s, new_ids fr -> pid_history fr g ->
  let g' := snd (setPIDName p s g) in
  (fst (setPIDName p s g) = true <-> In p (o_pids g)) /\ (~ In p (o_pids g) -> g' = g) /\ (In p (o_pids g) -> named g' p s) /\
  (forall q t, q <> p -> named g' q t <-> named g q t) /\ o_cells g' = o_cells g /\ o_pids g' = o_pids g /\ o_verts g' = o_verts g.
Proof.
  intros fr g p s F H. destruct (history_ok fr g F H) as [K _]. pose proof (setPIDName_ok p s g K) as [_ [_ [N' _]]]. destruct K as [_ [_ [N D]]].
  cbv zeta. unfold named. specialize (D p). rewrite keys_iff in D. unfold setPIDName in *.
  assert (D2 : forall q t, In (q, t) (o_names g) <-> nfind q (o_names g) = Some t) by (intros; symmetry; apply nfind_some, N).
  destruct (nfind p (o_names g)) as [u|] eqn:E; cbn [fst snd with_pids o_names o_cells o_pids o_verts] in *.
  - assert (Hp : In p (o_pids g)) by (apply D; discriminate). split; [tauto|]. split; [intros Q; contradiction|]. split.
    + intros _. apply (nfind_some _ _ _ N'). rewrite nfind_nput, Z.eqb_refl. reflexivity.
    + split; [|repeat split]. intros q t Hq. rewrite D2, <- (nfind_some _ _ _ N'), nfind_nput. destruct (Z.eqb_spec p q); [congruence|reflexivity].
  - assert (Hp : ~ In p (o_pids g)) by (intros Q; apply D in Q; congruence). split; [split; [discriminate|contradiction]|]. split; [reflexivity|].
    split; [contradiction|]. split; [intros; reflexivity|repeat split].
Qed.
Print Assumptions C79_name.

(** resyncPID: the listed PIDs become exactly the ones of some cell, and they keep their names
    (the documentation says that names are lost).  A clone is the resynchronised geometry. *)
Theorem C79_resync : forall fr g, new_ids fr -> pid_history fr g ->
  (forall p, In p (o_pids (resyncPID g)) <-> exists id, carries g id p) /\
  (forall p s, named (resyncPID g) p s <-> named g p s /\ exists id, carries g id p) /\
  o_cells (resyncPID g) = o_cells g /\ o_verts (resyncPID g) = o_verts g.
Proof.
  intros fr g F H. destruct (history_ok fr g F H) as [[A [B [C D]]] _]. split; [apply resync_pids|]. split; [|split; reflexivity].
  intros p s. unfold named. rewrite <- (nfind_some _ _ _ (resync_keys g)), resync_names, <- (nfind_some _ _ _ C), <- resync_pids, <- zin_iff.
  destruct (zin p (o_pids (resyncPID g))) eqn:E; [|split; [discriminate|intros [_ Q]; discriminate]].
  destruct (nfind p (o_names g)) as [t|] eqn:G; [split; [intros Q; split; [exact Q|reflexivity]|intros [Q _]; exact Q]|].
  apply zin_iff, resync_pids in E. destruct E as [id [c [Hc Ep]]]. apply A in Hc. rewrite Ep in Hc. apply D, keys_iff in Hc. contradiction.
Qed.
Print Assumptions C79_resync.

Theorem C79_clone : forall fr g, new_ids fr -> pid_history fr g ->
  o_type (clone g) = o_type g /\ o_verts (clone g) = o_verts g /\ o_cells (clone g) = o_cells g /\
  (forall p, In p (o_pids (clone g)) <-> exists id, carries g id p) /\
  (forall p s, named (clone g) p s <-> named g p s /\ exists id, carries g id p).
Proof.
  intros fr g F H. destruct (history_ok fr g F H) as [[A [B [C D]]] _]. unfold clone. set (r := resyncPID _).
  pose proof (clone_fold (o_names g) r) as Q. cbv zeta in Q. destruct Q as [Q1 [Q2 [Q3 [Q4 [Q5 Q6]]]]]. rewrite Q1, Q3, Q4, Q5.
  assert (P : forall p, In p (o_pids r) <-> exists id, carries g id p) by (intros p; unfold r; rewrite resync_pids; reflexivity).
  split; [reflexivity|]. split; [reflexivity|]. split; [reflexivity|]. split; [exact P|].
  destruct (clone_ok g C) as [[_ [_ [N _]]] _]. unfold clone in N. fold r in N. intros p s. unfold named.
  rewrite <- (nfind_some _ _ _ N), (Q6 C p), <- (nfind_some _ _ _ C), <- P, <- zin_iff.
  assert (R1 : nfind p (o_names r) = if zin p (o_pids r) then Some EmptyString else None) by (unfold r; rewrite resync_names; reflexivity). rewrite R1.
  destruct (zin p (o_pids r)) eqn:E; [|split; [discriminate|intros [_ X]; discriminate]].
  destruct (nfind p (o_names g)) as [t|] eqn:G; [split; [intros X; split; [exact X|reflexivity]|intros [X _]; exact X]|].
  apply zin_iff, P in E. destruct E as [id [c [Hc Ep]]]. apply A in Hc. rewrite Ep in Hc. apply D, keys_iff in Hc. contradiction.
Qed.
Print Assumptions C79_clone.

(** ** What fails *)
Definition tri2 : obj :=
  snd (addConnectedCell (@length nat) [1; 2; 3] ETriangle 7 (Some 1) (snd (addConnectedCell (@length nat) [0; 1; 2] ETriangle 3 (Some 0) (new_obj 1)))).
(** A PID map for some cells only makes the PIDs of the others unknown: they are cells that no PID
    extracts, in a geometry where each was extracted before. *)
Theorem C79_map_refuted : exists g m id p, carries g id p /\ In id (extractPIDCells p g) /\ distinct m /\ (forall e, In e m -> int_range (snd e)) /\
  carries (setPID_map m g) id p /\ forall q, ~ In id (extractPIDCells q (setPID_map m g)).
Proof.
  exists tri2, [(0, 5%Z)], 1, 7%Z. split; [eexists; split; [right; left; reflexivity|reflexivity]|]. split; [left; reflexivity|].
  split; [constructor; [intros []|constructor]|]. split; [intros e [<-|[]]; unfold int_range; cbn; lia|]. split; [eexists; split; [right; left; reflexivity|reflexivity]|].
  intros q H. unfold extractPIDCells in H. destruct (zin q (o_pids (setPID_map [(0, 5%Z)] tri2))) eqn:E; [|destruct H]. apply zin_iff in E.
  destruct E as [<-|[]]. cbn in H. destruct H as [H|[]]. discriminate.
Qed.
Print Assumptions C79_map_refuted.
(** A PID that does not fit an int is listed as given, but the cell gets another one, that is not
    listed: neither extracts the cell. *)
Theorem C79_long_refuted : exists g id p, In id (map fst (o_cells g)) /\ In p (o_pids (setPIDCell id p g)) /\ forall q, ~ In id (extractPIDCells q (setPIDCell id p g)).
Proof.
  exists tri2, 1, (2 ^ 32 + 5)%Z. split; [right; left; reflexivity|]. split; [vm_compute; tauto|].
  intros q H. unfold extractPIDCells in H. destruct (zin q (o_pids (setPIDCell 1 (2 ^ 32 + 5) tri2))) eqn:E; [|destruct H]. apply zin_iff in E.
  vm_compute in E. destruct E as [<-|[<-|[<-|[]]]]; vm_compute in H; try (destruct H as [H|H]; [discriminate|]); exact H.
Qed.
Print Assumptions C79_long_refuted.
(** A PID that no cell has any more stays listed until the next resynchronisation. *)
Theorem C79_stale_refuted : exists fr g p, new_ids fr /\ pid_history fr g /\ In p (o_pids g) /\ forall id, ~ carries g id p.
Proof.
  exists (fun l => S (list_max l)), (deleteCell 1 tri2), 7%Z.
  assert (F : new_ids (fun l => S (list_max l))).
  { intros l H. assert (M : forall l x, In x l -> x <= list_max l).
    { clear. induction l as [|a l IH]; intros x H; [destruct H|]. change (list_max (a :: l)) with (max a (list_max l)).
      destruct H as [->|H]; [lia|specialize (IH x H); lia]. }
    apply M in H. lia. }
  split; [exact F|]. split.
  { eapply ph_call; [|apply pc_delete]. change tri2 with (snd (addConnectedCell (fun l => S (list_max l)) [1; 2; 3] ETriangle 7 (Some 1) (snd (addConnectedCell (fun l => S (list_max l)) [0; 1; 2] ETriangle 3 (Some 0) (new_obj 1))))).
    eapply ph_call; [|apply pc_conn; unfold int_range; lia]. eapply ph_call; [|apply pc_conn; unfold int_range; lia]. apply ph_new. }
  split; [right; left; reflexivity|]. intros id [c [H E]]. destruct H as [H|[]]. injection H as _ <-. discriminate.
Qed.
Print Assumptions C79_stale_refuted.
(** The documentation of clone promises an exact copy: the tolerance is not copied. *)
Theorem C79_clone_tolerance_refuted : exists g, o_tol (clone (setTolerance 1 g)) <> o_tol (setTolerance 1 g).
Proof.
  exists (new_obj 1). change (/ 1000000 <> Rmax (/ 10 ^ 15) 1)%R. rewrite Rmax_right; [lra|]. apply (Rmult_le_reg_l (10 ^ 15)); [apply pow_lt; lra|].
  rewrite Rinv_r by (apply pow_nonzero; lra). rewrite Rmult_1_r. apply pow_R1_Rle. lra.
Qed.
Print Assumptions C79_clone_tolerance_refuted.

Example C79_nonvacuous : exists fr g, new_ids fr /\ pid_history fr g /\ carries g 0 7 /\ carries g 2 3 /\ named g 3 "wing"%string /\ extractPIDCells 7 g = [0].
Proof.
  exists (fun l => S (list_max l)).
  exists (snd (setPIDName 3 "wing" (setPIDCell 0 7 (snd (addCell (fun l => S (list_max l)) (Cl ETriangle [1; 2; 3] 3) (Some 2)
            (snd (addConnectedCell (fun l => S (list_max l)) [0; 1; 2] ETriangle 3 (Some 0) (new_obj 1)))))))).
  split.
  { intros l H. assert (M : forall l x, In x l -> x <= list_max l).
    { clear. induction l as [|a l IH]; intros x H; [destruct H|]. change (list_max (a :: l)) with (max a (list_max l)).
      destruct H as [->|H]; [lia|specialize (IH x H); lia]. }
    apply M in H. lia. }
  split.
  { eapply ph_call; [|apply pc_name]. eapply ph_call; [|apply pc_one; unfold int_range; lia]. eapply ph_call; [|apply pc_cell; unfold int_range; cbn; lia].
    eapply ph_call; [|apply pc_conn; unfold int_range; lia]. apply ph_new. }
  split; [eexists; split; [left; reflexivity|reflexivity]|]. split; [eexists; split; [right; left; reflexivity|reflexivity]|]. split; [left; reflexivity|reflexivity].
Qed.
