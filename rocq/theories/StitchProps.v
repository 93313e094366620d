(** C87: stitching geometries. *)
From Coq Require Import String List Arith Bool ZArith Reals Lia Lra.
From Verif Require Import Vec SharedPtr Obj ObjSpec ObjProofs PidProps Select SelectSpec SelectProofs SelectProps.
Import ListNotations.
Open Scope list_scope.
Open Scope nat_scope.

(** ** Lemmas *)
Lemma seq_not_in n a k : n <= a -> ~ In (a + k) (seq 0 n).
Proof. intros L H. apply in_seq in H. lia. Qed.
Lemma stitch_verts_fold : forall xs cV r, map fst (o_verts r) = seq 0 cV ->
  let r' := fold_left (fun r e => snd (addVertex (@length nat) (snd e) (Some (fst e)) r)) (combine (seq cV (length xs)) xs) r in
  o_verts r' = o_verts r ++ combine (seq cV (length xs)) xs /\ o_cells r' = o_cells r /\ o_type r' = o_type r /\ o_tol r' = o_tol r /\
  map fst (o_verts r') = seq 0 (cV + length xs).
Proof.
  induction xs as [|x xs IH]; intros cV r E; cbv zeta; cbn [length seq combine fold_left]; [rewrite app_nil_r, Nat.add_0_r; repeat split; exact E|].
  cbn [fst snd]. assert (Hh : has cV (o_verts r) = false) by (apply has_false; rewrite E; intros Q; apply in_seq in Q; lia).
  set (r1 := snd (addVertex (@length nat) x (Some cV) r)).
  assert (E1 : o_verts r1 = o_verts r ++ [(cV, x)] /\ o_cells r1 = o_cells r /\ o_type r1 = o_type r /\ o_tol r1 = o_tol r) by (unfold r1, addVertex; rewrite Hh; repeat split).
  clearbody r1. destruct E1 as [E1 [E2 [E3 E4]]]. destruct (IH (S cV) r1) as [I1 [I2 [I3 [I4 I5]]]].
  { rewrite E1, map_app, E. cbn [map fst]. rewrite (seq_S cV 0). reflexivity. }
  cbv zeta in *. split; [rewrite I1, E1, <- app_assoc; reflexivity|]. split; [congruence|]. split; [congruence|]. split; [congruence|].
  replace (cV + S (length xs)) with (S cV + length xs) by lia. exact I5.
Qed.
Definition new_cell (g : obj) (start : Z) (cV : nat) (c : cell) : cell := Cl (c_type c) (conv_conn (stitch_map g cV) (c_type c) (c_conn c)) (to_int (c_pid c + start)).
Lemma stitch_cells_fold g start cV : forall cs cC r, map fst (o_cells r) = seq 0 cC -> (forall c, In c cs -> stitchable c /\ sound_cell c) ->
  let r' := fold_left (fun r e => snd (addConnectedCell (@length nat) (conv_conn (stitch_map g cV) (c_type (snd e)) (c_conn (snd e))) (c_type (snd e))
                                              (c_pid (snd e) + start) (Some (fst e)) r)) (combine (seq cC (length cs)) cs) r in
  o_cells r' = o_cells r ++ combine (seq cC (length cs)) (map (new_cell g start cV) cs) /\ o_verts r' = o_verts r /\ o_type r' = o_type r /\ o_tol r' = o_tol r /\
  map fst (o_cells r') = seq 0 (cC + length cs).
Proof.
  induction cs as [|c cs IH]; intros cC r E Ok; cbv zeta; cbn [length seq combine map fold_left]; [rewrite app_nil_r, Nat.add_0_r; repeat split; exact E|].
  cbn [fst snd]. assert (Hh : has cC (o_cells r) = false) by (apply has_false; rewrite E; intros Q; apply in_seq in Q; lia).
  destruct (Ok c (or_introl eq_refl)) as [[Np Lp] [fs Hfs]]. destruct (conv_means (stitch_map g cV) _ _ _ Np Hfs) as [Cm Cl0].
  assert (Coh : checkCellConnCoherence (c_type c) (conv_conn (stitch_map g cV) (c_type c) (c_conn c)) = true).
  { apply coherent_iff. split; [eexists; exact Cm|]. split; [intros Q; rewrite Cl0; exact (Lp Q)|contradiction]. }
  assert (Ne : conv_conn (stitch_map g cV) (c_type c) (c_conn c) <> []).
  { intros Q. rewrite Q in Coh. destruct (c_type c); discriminate. }
  set (r1 := snd (addConnectedCell (@length nat) (conv_conn (stitch_map g cV) (c_type c) (c_conn c)) (c_type c) (c_pid c + start) (Some cC) r)).
  assert (E1 : o_cells r1 = o_cells r ++ [(cC, new_cell g start cV c)] /\ o_verts r1 = o_verts r /\ o_type r1 = o_type r /\ o_tol r1 = o_tol r).
  { unfold r1, addConnectedCell. destruct (conv_conn (stitch_map g cV) (c_type c) (c_conn c)) as [|a l] eqn:Ec; [congruence|]. rewrite Hh, Coh. cbn [snd pick_id]. rewrite <- Ec.
    rewrite add_cell_eq by (apply has_false, Hh). cbn [o_cells o_verts o_type o_tol]. repeat split. }
  clearbody r1. destruct E1 as [E1 [E2 [E3 E4]]].
  destruct (IH (S cC) r1) as [I1 [I2 [I3 [I4 I5]]]].
  { rewrite E1, map_app, E. cbn [map fst]. rewrite (seq_S cC 0). reflexivity. } { intros d Hd. apply Ok. right. exact Hd. }
  cbv zeta in *. rewrite I2, I3, I4. split; [rewrite I1, E1, <- app_assoc; reflexivity|]. repeat (split; [congruence|]).
  replace (cC + S (length cs)) with (S cC + length cs) by lia. exact I5.
Qed.
Lemma combine_nth : forall A (xs : list A) b k x, nth_error xs k = Some x -> In (b + k, x) (combine (seq b (length xs)) xs).
Proof.
  induction xs as [|y xs IH]; intros b k x H; [destruct k; discriminate|]. destruct k as [|k]; cbn [nth_error length seq combine] in *.
  - injection H as ->. left. rewrite Nat.add_0_r. reflexivity.
  - right. replace (b + S k) with (S b + k) by lia. exact (IH (S b) k x H).
Qed.
Lemma names_fold (f : Z -> string) : forall ps r, let r' := fold_left (fun r p => snd (setPIDName p (f p) r)) ps r in
  o_cells r' = o_cells r /\ o_verts r' = o_verts r /\ o_type r' = o_type r /\ o_tol r' = o_tol r /\ o_pids r' = o_pids r.
Proof.
  induction ps as [|p ps IH]; intros r; cbv zeta; cbn [fold_left]; [repeat split|]. destruct (IH (snd (setPIDName p (f p) r))) as [A [B [C [D E]]]]. cbv zeta in *. rewrite A, B, C, D, E.
  unfold setPIDName. destruct (nfind p (o_names r)); repeat split.
Qed.
Lemma stitch_one_ok g start cV cC r : usable g -> (forall id c, In (id, c) (o_cells g) -> stitchable c /\ int_range (c_pid c + start)) ->
  map fst (o_verts r) = seq 0 cV -> map fst (o_cells r) = seq 0 cC ->
  let u := stitch_one g start cV cC r in
  map fst (o_verts u) = seq 0 (cV + length (o_verts g)) /\ map fst (o_cells u) = seq 0 (cC + length (o_cells g)) /\
  (forall e, In e (o_verts r) -> In e (o_verts u)) /\ (forall e, In e (o_cells r) -> In e (o_cells u)) /\ copies g u cV cC start /\
  o_type u = o_type r /\ o_tol u = o_tol r /\ forall p, In p (o_pids u) <-> exists id, carries u id p.
Proof.
  intros [[Dv Dc] [Sd Cl0]] Ok Ev Ec. cbv zeta. unfold stitch_one, stitch_names. set (r1 := stitch_verts g cV r).
  destruct (stitch_verts_fold (map snd (o_verts g)) cV r Ev) as [A1 [A2 [A3 [A4 A5]]]]. rewrite map_length in A1, A2, A3, A4, A5. cbv zeta in *. fold (stitch_verts g cV r) in A1, A2, A3, A4, A5. fold r1 in A1, A2, A3, A4, A5.
  set (r2 := stitch_cells g start cV cC r1).
  destruct (stitch_cells_fold g start cV (map snd (o_cells g)) cC r1) as [B1 [B2 [B3 [B4 B5]]]]; [rewrite A2; exact Ec| |].
  { intros c Hc. apply in_map_iff in Hc. destruct Hc as [[id d] [E H]]. cbn [snd] in E. subst d. split; [exact (proj1 (Ok id c H))|exact (Sd id c H)]. }
  rewrite map_length in B1, B2, B3, B4, B5. cbv zeta in *. fold (stitch_cells g start cV cC r1) in B1, B2, B3, B4, B5. fold r2 in B1, B2, B3, B4, B5.
  set (r3 := resyncPID r2). destruct (names_fold (fun p => name_of (o_names g) (old_pid g start p)) (o_pids r3) r3) as [C1 [C2 [C3 [C4 C5]]]]. cbv zeta in *.
  set (u := fold_left _ (o_pids r3) r3) in *.
  assert (Uv : o_verts u = o_verts r ++ combine (seq cV (length (o_verts g))) (map snd (o_verts g))) by (rewrite C2; change (o_verts r3) with (o_verts r2); rewrite B2; exact A1).
  assert (Uc : o_cells u = o_cells r ++ combine (seq cC (length (o_cells g))) (map (new_cell g start cV) (map snd (o_cells g)))) by (rewrite C1; change (o_cells r3) with (o_cells r2); rewrite B1, A2; reflexivity).
  split; [rewrite C2; change (o_verts r3) with (o_verts r2); rewrite B2; exact A5|]. split; [rewrite C1; exact B5|].
  split; [intros e H; rewrite Uv; apply in_app_iff; left; exact H|]. split; [intros e H; rewrite Uc; apply in_app_iff; left; exact H|].
  assert (V : forall k v x, nth_error (o_verts g) k = Some (v, x) -> In (cV + k, x) (o_verts u)).
  { intros k v x H. rewrite Uv. apply in_app_iff. right. rewrite <- (map_length snd (o_verts g)). apply combine_nth. rewrite nth_error_map, H. reflexivity. }
  split; [split; [exact V|]|split; [rewrite C3; change (o_type r3) with (o_type r2); congruence|split; [rewrite C4; change (o_tol r3) with (o_tol r2); congruence|]]].
  - intros k i c H. assert (Hc : In (i, c) (o_cells g)) by exact (nth_error_In _ _ H). destruct (Ok i c Hc) as [[Np _] R]. exists (new_cell g start cV c).
    split; [|split; [cbn [new_cell c_pid]; apply to_int_id, R|]].
    + rewrite Uc. apply in_app_iff. right. replace (length (o_cells g)) with (length (map (new_cell g start cV) (map snd (o_cells g)))) by (rewrite !map_length; reflexivity). apply combine_nth. rewrite !nth_error_map, H. reflexivity.
    + destruct (Sd i c Hc) as [fs Hfs]. destruct (conv_means (stitch_map g cV) _ _ _ Np Hfs) as [Cm _]. split; [reflexivity|]. exists fs, (map (map (stitch_map g cV)) fs). split; [exact Hfs|]. split; [exact Cm|].
      assert (Pl : forall f v, In f fs -> In v f -> same_place g u v (stitch_map g cV v)).
      { intros f v Hf Hv. assert (Hin : In v (map fst (o_verts g))) by (apply (Cl0 i c v Hc); exists fs, f; repeat split; assumption).
        unfold stitch_map. rewrite (proj2 (has_iff _ v (o_verts g)) Hin). apply in_map_iff in Hin. destruct Hin as [[w x] [E Hx]]. cbn [fst] in E. subst w.
        exists x. split; [exact Hx|]. apply (V (position v (o_verts g)) v). exact (position_nth _ _ _ Dv Hx). }
      clear - Pl. induction fs as [|f fs IH]; cbn [map]; constructor.
      * assert (Pf : forall v, In v f -> same_place g u v (stitch_map g cV v)) by (intros v Hv; exact (Pl f v (or_introl eq_refl) Hv)). clear - Pf.
        induction f as [|v f IH]; cbn [map]; constructor; [apply Pf; left; reflexivity|]. apply IH. intros w Hw. apply Pf. right. exact Hw.
      * apply IH. intros f' v Hf Hv. exact (Pl f' v (or_intror Hf) Hv).
  - intros p. rewrite C5. unfold r3. rewrite resync_pids. unfold carries. rewrite C1. reflexivity.
Qed.
Lemma Forall2_impl' A B (P Q : A -> B -> Prop) : (forall x y, P x y -> Q x y) -> forall l l', Forall2 P l l' -> Forall2 Q l l'.
Proof. intros H l l' F. induction F; constructor; auto. Qed.
Lemma copies_mono g u u' a b s : (forall e, In e (o_verts u) -> In e (o_verts u')) -> (forall e, In e (o_cells u) -> In e (o_cells u')) -> copies g u a b s -> copies g u' a b s.
Proof.
  intros Iv Ic [A B]. split; [intros k v x H; exact (Iv _ (A k v x H))|]. intros k i c H. destruct (B k i c H) as [c' [Hc' [P [T [fs [fs' [M [M' F]]]]]]]].
  exists c'. split; [exact (Ic _ Hc')|]. split; [exact P|]. split; [exact T|]. exists fs, fs'. split; [exact M|]. split; [exact M'|].
  revert F. apply Forall2_impl'. intros f f' F. revert F. apply Forall2_impl'. intros v v' [x [X Y]]. exists x. split; [exact X|exact (Iv _ Y)].
Qed.
Lemma stitch_all_ok : forall gs cV cC r, (forall g s, In (g, s) gs -> usable g /\ forall id c, In (id, c) (o_cells g) -> stitchable c /\ int_range (c_pid c + s)) ->
  map fst (o_verts r) = seq 0 cV -> map fst (o_cells r) = seq 0 cC ->
  let u := stitch_all gs cV cC r in
  map fst (o_verts u) = seq 0 (cV + total (fun g => length (o_verts g)) (map fst gs)) /\ map fst (o_cells u) = seq 0 (cC + total (fun g => length (o_cells g)) (map fst gs)) /\
  (forall e, In e (o_verts r) -> In e (o_verts u)) /\ (forall e, In e (o_cells r) -> In e (o_cells u)) /\ all_copies gs u cV cC /\
  o_type u = o_type r /\ o_tol u = o_tol r /\ ((forall p, In p (o_pids r) <-> exists id, carries r id p) -> forall p, In p (o_pids u) <-> exists id, carries u id p).
Proof.
  induction gs as [|[g s] gs IH]; intros cV cC r Ok Ev Ec; cbv zeta; cbn [stitch_all map total fold_right all_copies fst].
  - rewrite !Nat.add_0_r. split; [exact Ev|]. split; [exact Ec|]. split; [intros e H; exact H|]. split; [intros e H; exact H|]. split; [exact I|]. split; [reflexivity|]. split; [reflexivity|]. intros H. exact H.
  - destruct (Ok g s (or_introl eq_refl)) as [U O1]. destruct (stitch_one_ok g s cV cC r U O1 Ev Ec) as [A1 [A2 [A3 [A4 [A5 [A6 [A7 A8]]]]]]]. cbv zeta in *.
    destruct (IH (cV + length (o_verts g)) (cC + length (o_cells g)) (stitch_one g s cV cC r) (fun g' s' H => Ok g' s' (or_intror H)) A1 A2) as [B1 [B2 [B3 [B4 [B5 [B6 [B7 B8]]]]]]]. cbv zeta in *.
    set (u := stitch_all gs _ _ _) in *. rewrite !Nat.add_assoc. split; [exact B1|]. split; [exact B2|]. split; [intros e H; apply B3, A3, H|]. split; [intros e H; apply B4, A4, H|].
    split; [split; [exact (copies_mono _ _ _ _ _ _ B3 B4 A5)|exact B5]|]. split; [congruence|]. split; [congruence|]. intros _. exact (B8 A8).
Qed.

(** ** The theorems *)

(** Stitching geometries, as it is before the merge of coincident vertices: the vertices of all of
    them, one after the other, and their cells, one after the other, with the same type and vertices at
    the same places in the same order, and PIDs shifted by one number for each geometry; nothing
    else.  The numbers are 0 without a reassignment of the PIDs. *)
Theorem C87_stitched : forall clean repid topo gs starts, pid_starts repid (-1) gs = Some starts ->
  (forall g s, In (g, s) (combine gs starts) -> usable g /\ forall id c, In (id, c) (o_cells g) -> stitchable c /\ int_range (c_pid c + s)) ->
  exists u, stitch clean repid topo gs = Some (clean u) /\ o_type u = topo /\ well_formed u /\
    length (o_verts u) = total (fun g => length (o_verts g)) gs /\ length (o_cells u) = total (fun g => length (o_cells g)) gs /\
    all_copies (combine gs starts) u 0 0 /\ (forall p, In p (o_pids u) <-> exists id, carries u id p) /\
    (repid = false -> forall s, In s starts -> s = 0%Z).
Proof.
  intros clean repid topo gs starts St Ok. unfold stitch. rewrite St. eexists. split; [reflexivity|].
  destruct (stitch_all_ok (combine gs starts) 0 0 (new_obj topo) Ok eq_refl eq_refl) as [A [B [_ [_ [C [D [_ E]]]]]]]. cbv zeta in *.
  set (u := stitch_all _ _ _ _) in *. split; [exact D|]. split; [split; unfold distinct; rewrite ?A, ?B; apply seq_NoDup|].
  assert (L : forall gs pm starts, pid_starts repid pm gs = Some starts -> map fst (combine gs starts) = gs /\ (repid = false -> forall s, In s starts -> s = 0%Z)).
  { clear. induction gs as [|g gs IH]; intros pm starts H; cbn [pid_starts] in H; [injection H as <-; split; [reflexivity|intros _ s []]|]. destruct repid.
    - destruct (zmax (o_pids g)) as [m|]; [|discriminate]. destruct (pid_starts true _ gs) as [l|] eqn:E; [|discriminate]. injection H as <-. cbn [combine map fst]. destruct (IH _ _ E) as [-> _]. split; [reflexivity|discriminate].
    - destruct (pid_starts false pm gs) as [l|] eqn:E; [|discriminate]. injection H as <-. cbn [combine map fst]. destruct (IH _ _ E) as [-> Z]. split; [reflexivity|]. intros R s [<-|Hs]; [reflexivity|exact (Z R s Hs)]. }
  destruct (L gs (-1)%Z starts St) as [Lg Lz]. rewrite Lg in A, B. cbn [Nat.add] in A, B.
  split; [rewrite <- (map_length fst), A; apply seq_length|]. split; [rewrite <- (map_length fst), B; apply seq_length|]. split; [exact C|]. split; [|exact Lz].
  apply E. intros p. split; [intros []|intros [id [c [[] _]]]].
Qed.
Print Assumptions C87_stitched.
(** The shifts exist unless the PIDs are reassigned and a geometry has no PID: then the behaviour is undefined. *)
Theorem C87_defined : forall clean repid topo gs,
  (exists r, stitch clean repid topo gs = Some r) <-> repid = false \/ forall g, In g gs -> o_pids g <> [].
Proof.
  intros clean repid topo gs.
  assert (L : forall gs pm, (exists l, pid_starts repid pm gs = Some l) <-> repid = false \/ forall g, In g gs -> o_pids g <> []).
  { clear. destruct repid; induction gs as [|g gs IH]; intros pm; cbn [pid_starts].
    - split; [intros _; right; intros g []|intros _; eexists; reflexivity].
    - destruct (o_pids g) as [|p ps] eqn:E; cbn [zmax].
      + split; [intros [l H]; discriminate|]. intros [H|H]; [discriminate|]. destruct (H g (or_introl eq_refl)); exact E.
      + specialize (IH (pm + (fold_left Z.max ps p + 1))%Z). destruct (pid_starts true _ gs) as [l|] eqn:F.
        * split; [intros _; right|intros _; eexists; reflexivity]. destruct (proj1 IH) as [Q|Q]; [eexists; reflexivity|discriminate|]. intros g' [<-|H]; [congruence|exact (Q g' H)].
        * split; [intros [l H]; discriminate|]. intros [H|H]; [discriminate|]. destruct (proj2 IH) as [l Q]; [right; intros g' Hg; apply H; right; exact Hg|discriminate].
    - split; [intros _; left; reflexivity|intros _; eexists; reflexivity].
    - split; [intros _; left; reflexivity|intros _]. destruct (proj2 (IH pm) (or_introl eq_refl)) as [l ->]. eexists. reflexivity. }
  rewrite <- (L gs (-1)%Z). unfold stitch. destruct (pid_starts repid (-1) gs) as [l|]; split; intros [x H]; try discriminate; eexists; reflexivity.
Qed.
Print Assumptions C87_defined.
(** With the reassignment, geometries whose PIDs are not negative never share a PID. *)
Theorem C87_disjoint : forall gs starts, pid_starts true (-1) gs = Some starts ->
  (forall g p, In g gs -> In p (o_pids g) -> (0 <= p)%Z) ->
  forall i j g h s t p q, i < j -> nth_error (combine gs starts) i = Some (g, s) -> nth_error (combine gs starts) j = Some (h, t) ->
  In p (o_pids g) -> In q (o_pids h) -> (p + s <> q + t)%Z.
Proof.
  intros gs starts St Nn.
  assert (Mx : forall l x p, In p l -> (p <= fold_left Z.max l x)%Z).
  { assert (Mn : forall l x, (x <= fold_left Z.max l x)%Z) by (induction l as [|y l IH]; intros x; cbn [fold_left]; [lia|specialize (IH (Z.max x y)); lia]).
    induction l as [|y l IH]; intros x p H; [destruct H|]. cbn [fold_left]. destruct H as [->|H]; [specialize (Mn l (Z.max x p)); lia|exact (IH _ _ H)]. }
  assert (Zm : forall l m p, zmax l = Some m -> In p l -> (p <= m)%Z).
  { intros [|y l] m p E H; [discriminate|]. cbn [zmax] in E. injection E as <-. destruct H as [->|H]; [|exact (Mx l y p H)].
    assert (Mn : forall l x, (x <= fold_left Z.max l x)%Z) by (clear; induction l as [|y l IH]; intros x; cbn [fold_left]; [lia|specialize (IH (Z.max x y)); lia]). apply Mn. }
  assert (Zi : forall l m, zmax l = Some m -> exists p, In p l /\ (p <= m)%Z) by (intros [|y l] m E; [discriminate|]; exists y; split; [left; reflexivity|exact (Zm (y :: l) m y E (or_introl eq_refl))]).
  assert (Lo : forall gs pm starts, pid_starts true pm gs = Some starts -> (forall g p, In g gs -> In p (o_pids g) -> (0 <= p)%Z) -> forall j h t, nth_error (combine gs starts) j = Some (h, t) -> (pm + 1 <= t)%Z).
  { clear - Zm Zi. induction gs as [|g gs IH]; intros pm starts H Nn j h t Hj; cbn [pid_starts] in H; [injection H as <-; destruct j; discriminate|].
    destruct (zmax (o_pids g)) as [m|] eqn:Em; [|discriminate]. destruct (pid_starts true _ gs) as [l|] eqn:E; [|discriminate]. injection H as <-. cbn [combine] in Hj.
    destruct j as [|j]; cbn [nth_error] in Hj; [injection Hj as <- <-; lia|]. pose proof (IH _ _ E (fun g' p Hg Hp => Nn g' p (or_intror Hg) Hp) j h t Hj) as Q.
    destruct (Zi _ _ Em) as [p [Hp Lp]]. specialize (Nn g p (or_introl eq_refl) Hp). lia. }
  revert starts St Nn. generalize (-1)%Z as pm. induction gs as [|g0 gs IH]; intros pm starts St Nn i j g h s t p q L Hi Hj Hp Hq; cbn [pid_starts] in St; [injection St as <-; destruct i; discriminate|].
  destruct (zmax (o_pids g0)) as [m|] eqn:Em; [|discriminate]. destruct (pid_starts true _ gs) as [l|] eqn:E; [|discriminate]. injection St as <-. cbn [combine] in Hi, Hj.
  pose proof (fun g' p (Hg : In g' gs) Hp => Nn g' p (or_intror Hg) Hp) as Nn'.
  destruct j as [|j]; [lia|]. cbn [nth_error] in Hj. destruct i as [|i]; cbn [nth_error] in Hi.
  - injection Hi as <- <-. pose proof (Lo _ _ _ E Nn' j h t Hj) as Q. pose proof (Zm _ _ p Em Hp) as Q2.
    assert (Hh : In h gs) by (apply nth_error_In, in_combine_l in Hj; exact Hj). specialize (Nn' h q Hh Hq). lia.
  - apply (IH _ _ E Nn' i j g h s t p q); [lia|assumption..].
Qed.
Print Assumptions C87_disjoint.
(** The names of the PIDs of the geometry stitched last are kept.  Missing: the names of the others,
    which are lost (see C87_names_refuted). *)
Theorem C87_names_partial : forall fr clean repid topo gs starts l g s, new_ids fr -> pid_history fr g ->
  pid_starts repid (-1) gs = Some starts -> combine gs starts = l ++ [(g, s)] ->
  (forall g s, In (g, s) (combine gs starts) -> usable g /\ forall id c, In (id, c) (o_cells g) -> stitchable c /\ int_range (c_pid c + s)) ->
  exists u, stitch clean repid topo gs = Some (clean u) /\ forall id p t, carries g id p -> named g p t -> named u (p + s) t.
Proof.
  intros fr clean repid topo gs starts l g s F H St Ec Ok. unfold stitch. rewrite St. eexists. split; [reflexivity|]. rewrite Ec in *.
  assert (App : forall l cV cC r, stitch_all (l ++ [(g, s)]) cV cC r = stitch_one g s (cV + total (fun g => length (o_verts g)) (map fst l)) (cC + total (fun g => length (o_cells g)) (map fst l)) (stitch_all l cV cC r)).
  { clear. induction l as [|[g0 s0] l IH]; intros cV cC r; cbn [List.app stitch_all map total fold_right fst]; [rewrite !Nat.add_0_r; reflexivity|]. rewrite IH, !Nat.add_assoc. reflexivity. }
  rewrite App. destruct (stitch_all_ok l 0 0 (new_obj topo)) as [A [B _]]; [intros g' s' Hg; apply Ok, in_app_iff; left; exact Hg|reflexivity|reflexivity|]. cbv zeta in *.
  set (r := stitch_all l 0 0 (new_obj topo)) in *. destruct (Ok g s) as [U O1]; [apply in_app_iff; right; left; reflexivity|].
  destruct (stitch_one_ok g s _ _ r U O1 A B) as [_ [_ [_ [_ [Cp _]]]]]. cbv zeta in *. destruct (history_ok fr g F H) as [[K1 [K2 [K3 K4]]] _].
  set (cV := 0 + total (fun g : obj => length (o_verts g)) (map fst l)) in *. set (cC := 0 + total (fun g : obj => length (o_cells g)) (map fst l)) in *. clear App. unfold stitch_one, stitch_names in *.
  set (r3 := resyncPID (stitch_cells g s cV cC (stitch_verts g cV r))) in *.
  assert (Ok3 : pid_ok r3) by apply resync_ok.
  destruct (give_fold (fun p => name_of (o_names g) (old_pid g s p)) (o_pids r3) r3 Ok3 (fun p Hp => Hp)) as [_ [_ [_ [I4 [I5 [I6 I7]]]]]]. cbv zeta in *.
  set (u := fold_left _ (o_pids r3) r3) in *. intros id p t Hc Ht. unfold named. apply (nfind_some _ _ _ (proj1 (proj2 (proj2 I6)))). rewrite I7.
  assert (Hp : In p (o_pids g)) by (destruct Hc as [c [Hc <-]]; exact (K1 id c Hc)).
  assert (Hps : In (p + s)%Z (o_pids r3)).
  { destruct Hc as [c [Hc <-]]. destruct (In_nth_error _ _ Hc) as [k Hk]. destruct (proj2 Cp k id c Hk) as [c' [Hc' [Ep _]]]. rewrite <- Ep, <- I5. exact (proj1 I6 _ c' Hc'). }
  rewrite (proj2 (zin_iff _ _) Hps). f_equal. unfold old_pid. replace (p + s - s)%Z with p by lia. rewrite (proj2 (zin_iff _ _) Hp). exact (name_of_eq g p t K3 Ht).
Qed.
Print Assumptions C87_names_partial.

(** a second square, away from the first, with PIDs 0 and 2; PID 0 is called "tail" *)
Definition square2 : obj :=
  let g := new_obj 1 in
  let g := snd (addVertex fresh (V3 5 0 0) (Some 10) g) in
  let g := snd (addVertex fresh (V3 6 0 0) (Some 4) g) in
  let g := snd (addVertex fresh (V3 6 1 0) (Some 7) g) in
  let g := snd (addVertex fresh (V3 5 1 0) (Some 0) g) in
  let g := snd (addConnectedCell fresh [10; 4; 7] ETriangle 0 (Some 3) g) in
  let g := snd (addConnectedCell fresh [10; 7; 0] ETriangle 2 (Some 8) g) in
  snd (setPIDName 0 "tail"%string g).
Definition pid_names (x : option obj) : option (list (Z * string)) := option_map o_names x.
(** The name of a PID of a geometry that is not the last is replaced by the name of PID 0 of a later
    one. *)
Theorem C87_names_refuted : carries square 1 5 /\ named square 5 "wing"%string /\
  pid_names (stitch same true 1 [square; square2]) = Some [(0%Z, "tail"%string); (5%Z, "tail"%string); (6%Z, "tail"%string); (8%Z, EmptyString)].
Proof.
  split; [eexists; split; [right; left; reflexivity|reflexivity]|]. split; [right; left; reflexivity|]. vm_compute. reflexivity.
Qed.
Print Assumptions C87_names_refuted.
(** a tetrahedron given as a polyhedron *)
Definition tetra : obj :=
  Ob 2 (/ 1000000) [(0, V3 0 0 0); (1, V3 1 0 0); (2, V3 0 1 0); (3, V3 0 0 1)]
     [(0, Cl EPolyhedron (4 :: stream [[0; 1; 2]; [0; 1; 3]; [0; 2; 3]; [1; 2; 3]]) 0)] [0%Z] [(0%Z, EmptyString)].
(** A polyhedron is lost: its last face is not translated. *)
Theorem C87_polyhedron_refuted : well_formed tetra /\ sound tetra /\ exists r, stitch same false 2 [tetra] = Some r /\ o_cells r = [].
Proof.
  split; [split; unfold distinct; cbn [tetra o_verts o_cells map fst]; repeat constructor; cbn [In]; intuition discriminate|].
  split; [|eexists; split; [reflexivity|vm_compute; reflexivity]]. intros id c [H|[]]. injection H as _ <-. eexists. cbn [c_type c_conn].
  apply (means_polyhedron [[0; 1; 2]; [0; 1; 3]; [0; 2; 3]; [1; 2; 3]]).
Qed.
Print Assumptions C87_polyhedron_refuted.
(** Negative PIDs collide in spite of the reassignment: -3 and 0 stay as they are, and the next
    geometry is shifted by one only. *)
Definition neg (p q : Z) (g : obj) : obj := setPID [p; q] g.
Theorem C87_negative_refuted : exists starts, pid_starts true (-1) [neg (-3) 0 square; neg (-4) 0 square2] = Some starts /\
  starts = [0%Z; 1%Z] /\ o_pids (neg (-3) 0 square) = [(-3)%Z; 0%Z] /\ o_pids (neg (-4) 0 square2) = [(-4)%Z; 0%Z] /\ (-3 + 0 = -4 + 1)%Z.
Proof. eexists. repeat split; vm_compute; reflexivity. Qed.
Print Assumptions C87_negative_refuted.
(** The topology asked of the constructor is at most 1: with 2 (volume), 3 (cloud) or 4 (curve) the
    object stitches surfaces, and geometries of the topology asked are refused. *)
Theorem C87_topology_refuted : forall topo g, (2 <= topo)%Z -> Z.of_nat (o_type g) = topo -> stitch_accepts (stitch_topo topo) g = false.
Proof.
  intros topo g L E. unfold stitch_accepts, stitch_topo. replace (Z.min 1 topo) with 1%Z by lia. cbn [Z.ltb Z.compare]. rewrite E. apply Z.eqb_neq. destruct topo; try lia. cbn. destruct p; try lia; discriminate.
Qed.
Print Assumptions C87_topology_refuted.

Example C87_nonvacuous : exists u, stitch same true 1 [square; square2] = Some u /\ length (o_verts u) = 8 /\ length (o_cells u) = 4 /\
  all_copies (combine [square; square2] [0%Z; 6%Z]) u 0 0 /\ carries u 3 8 /\ carries u 1 5 /\ In (4, V3 5 0 0) (o_verts u).
Proof.
  assert (Sq2 : usable square2).
  { assert (Cs : o_cells square2 = [(3, Cl ETriangle [10; 4; 7] 0); (8, Cl ETriangle [10; 7; 0] 2)]) by (vm_compute; reflexivity).
    assert (Vs : o_verts square2 = [(10, V3 5 0 0); (4, V3 6 0 0); (7, V3 6 1 0); (0, V3 5 1 0)]) by (cbv - [IZR]; reflexivity).
    split; [split; unfold distinct; rewrite ?Vs, ?Cs; cbn [map fst]; repeat constructor; cbn [In]; intuition discriminate|].
    assert (Mn : forall c, In c [Cl ETriangle [10; 4; 7] 0; Cl ETriangle [10; 7; 0] 2] -> means (c_type c) (c_conn c) [c_conn c]).
    { intros c [<-|[<-|[]]]; apply (means_fixed ETriangle _ 3); reflexivity. }
    assert (In2 : forall id c, In (id, c) (o_cells square2) -> In c [Cl ETriangle [10; 4; 7] 0; Cl ETriangle [10; 7; 0] 2]).
    { intros id c H. rewrite Cs in H. destruct H as [H|[H|[]]]; injection H as _ <-; [left|right; left]; reflexivity. }
    split; [intros id c H; eexists; apply Mn, (In2 id), H|]. intros id c v H [fs [f [X [Y Z]]]]. pose proof (Mn c (In2 id c H)) as Q.
    rewrite (means_unique _ _ _ _ X Q) in Y. destruct Y as [<-|[]]. rewrite Vs. cbn [map fst]. apply In2 in H. destruct H as [<-|[<-|[]]]; cbn [c_conn In] in *; intuition. }
  destruct (C87_stitched same true 1 [square; square2] [0%Z; 6%Z]) as [u [E [_ [_ [A [B [C _]]]]]]]; [vm_compute; reflexivity| |].
  - intros g s [H|[H|[]]]; injection H as <- <-; (split; [first [exact (proj1 (proj2 square_ok))|exact Sq2]|]);
    intros id c Hc; [change (In (id, c) [(0, Cl ETriangle [0; 1; 2] 0); (1, Cl ETriangle [0; 2; 3] 5)]) in Hc|change (In (id, c) [(3, Cl ETriangle [10; 4; 7] 0); (8, Cl ETriangle [10; 7; 0] 2)]) in Hc];
    destruct Hc as [Hc|[Hc|[]]]; injection Hc as <- <-; (split; [split; discriminate|unfold int_range; cbn [c_pid]; lia]).
  - exists u. split; [exact E|]. split; [exact A|]. split; [exact B|]. split; [exact C|]. destruct C as [[_ C1] [[C2 C3] _]].
    split; [|split].
    + destruct (C3 1 8 (Cl ETriangle [10; 7; 0] 2) eq_refl) as [c [Hc [Ep _]]]. exists c. split; [exact Hc|exact Ep].
    + destruct (C1 1 1 (Cl ETriangle [0; 2; 3] 5) eq_refl) as [c [Hc [Ep _]]]. exists c. split; [exact Hc|exact Ep].
    + exact (C2 0 10 (V3 5 0 0) eq_refl).
Qed.
