From Coq Require Import List Arith Bool ZArith Lia.
From Verif Require Import Vtu VtuSpec.
Import ListNotations.
Open Scope list_scope.
Open Scope nat_scope.

Lemma slice_mid : forall a b c : list nat, slice (a ++ b ++ c) (length a) (length a + length b) = Some b.
Proof.
  intros. unfold slice. rewrite !app_length. destruct (Nat.ltb_spec (length a + (length b + length c)) (length a + length b)); [lia|].
  replace (length a + length b - length a) with (length b) by lia. rewrite skipn_app, skipn_all, Nat.sub_diag; simpl.
  rewrite firstn_app, firstn_all, Nat.sub_diag; simpl. now rewrite app_nil_r.
Qed.
Lemma remap_faces : forall ids fs k, length fs <= k ->
  remap ids k (flat_map (fun vs => length vs :: vs) fs) = Some (flat_map (fun vs => length vs :: map (map_vert ids) vs) fs).
Proof.
  induction fs as [|v fs IH]; intros k K; [now destruct k|].
  destruct k as [|k]; [simpl in K; lia|]. simpl in *. rewrite app_length.
  destruct (Nat.ltb_spec (length v + length (flat_map (fun vs => length vs :: vs) fs)) (length v)); [lia|].
  rewrite skipn_app, skipn_all, Nat.sub_diag; simpl. rewrite IH by lia.
  rewrite firstn_app, firstn_all, Nat.sub_diag; simpl. now rewrite app_nil_r.
Qed.
Lemma faces_length : forall fs : list (list nat), length fs <= length (flat_map (fun vs => length vs :: vs) fs).
Proof. induction fs; simpl; [lia|rewrite app_length; lia]. Qed.
Lemma remap_stream_ok : forall ids fs,
  remap_stream ids (length fs :: flat_map (fun vs => length vs :: vs) fs) = Some (length fs :: flat_map (fun vs => length vs :: map (map_vert ids) vs) fs).
Proof. intros. unfold remap_stream. rewrite remap_faces by apply faces_length. reflexivity. Qed.
Lemma code_type : forall t z, In (t, z) codes -> type_of_code z = t /\ t <> UNDEFINED.
Proof. intros t z H. simpl in H. repeat (destruct H as [H|H]; [inversion H; subst; split; [reflexivity|discriminate]|]). destruct H. Qed.
Lemma type_code : forall t, t <> UNDEFINED -> In (t, code_of_type t) codes.
Proof. destruct t; simpl; intuition congruence. Qed.

Lemma firstn_len_app : forall (A : Type) (a b : list A), firstn (length a) (a ++ b) = a.
Proof. intros. rewrite firstn_app, firstn_all, Nat.sub_diag; simpl. now rewrite app_nil_r. Qed.
Lemma end_at : forall (f : shape -> list nat) pre s r,
  end_of (map f (pre ++ s :: r)) (length pre) = length (concat (map f pre)) + length (f s).
Proof.
  intros. unfold end_of. replace (pre ++ s :: r) with ((pre ++ [s]) ++ r) by now rewrite <- app_assoc.
  rewrite map_app. replace (S (length pre)) with (length (map f (pre ++ [s]))) by (rewrite map_length, app_length; simpl; lia).
  rewrite firstn_len_app, map_app, concat_app, app_length. simpl. now rewrite app_nil_r.
Qed.
Lemma nodup_length : forall l, NoDup l -> length (nodup Nat.eq_dec l) = length l.
Proof. intros l H. now rewrite nodup_fixed_point. Qed.
Lemma nodup_shorter : forall l, length (nodup Nat.eq_dec l) = length l -> NoDup l.
Proof.
  induction l as [|a l IH]; intro H; [constructor|]. simpl in H.
  assert (L : length (nodup Nat.eq_dec l) <= length l).
  { apply NoDup_incl_length; [apply NoDup_nodup|]. intros x X. now apply nodup_In in X. }
  destruct (in_dec Nat.eq_dec a l); simpl in H; [lia|]. constructor; [exact n|apply IH; lia].
Qed.
Lemma numbered_usable : forall o n ids, numbered o n ids -> (forall l, o = Some l -> length l = n) ->
  vert_ids (or_nil o) n = ids /\ length ids = n /\ forall j, j < n -> (if usable (or_nil o) n then nth j (or_nil o) 0 else j) = nth j ids 0.
Proof.
  intros o n ids H L. unfold vert_ids, usable.
  destruct o as [l|]; simpl in *.
  - specialize (L l eq_refl). destruct H as [H1 H2]. destruct (Nat.eqb_spec (length (nodup Nat.eq_dec l)) n) as [E|E].
    + assert (D : NoDup l) by (apply nodup_shorter; lia). rewrite (H1 D). repeat split; auto. rewrite <- L. apply firstn_all.
    + assert (D : ~ NoDup l) by (intro D; apply E; rewrite nodup_length; auto). rewrite (H2 D). repeat split; auto using seq_length.
      intros; now rewrite seq_nth.
  - subst ids. split; [now destruct n|]. split; [apply seq_length|]. intros j J. rewrite seq_nth by lia. now destruct n; [lia|].
Qed.

Definition foff (st : style) (f : list nat) (pre : list shape) (s : shape) : Z :=
  match s, st with Plain _ _, Skipped => (-1)%Z | _, _ => Z.of_nat (length (concat (map (stream_of st) pre)) + length (stream_of st s)) end.

Section Loop.
  Context {V : Type} (f : arrays V) (k : grid V) (st : style) (ids : list nat) (check used pids : bool).
  Hypothesis conn : a_conn f = concat (map points_of (g_cells k)).
  Hypothesis offs : a_offsets f = map (end_of (map points_of (g_cells k))) (seq 0 (length (g_cells k))).
  Hypothesis types : Forall2 (fun s z => In (type_of s, z) codes) (g_cells k) (a_types f).
  Hypothesis plain : Forall (fun s => match s with Plain t _ => t <> POLYHEDRON | _ => True end) (g_cells k).
  Hypothesis faces : match st with
    | Absent => Forall (fun s => type_of s <> POLYHEDRON) (g_cells k)
    | _ => a_faces f = concat (map (stream_of st) (g_cells k)) /\
           a_foffsets f = map (fun j => match nth_error (g_cells k) j, st with
                                      | Some (Plain _ _), Skipped => (-1)%Z
                                      | _, _ => Z.of_nat (end_of (map (stream_of st) (g_cells k)) j)
                                      end) (seq 0 (length (g_cells k))) /\
           (check = true \/ Forall (fun s => type_of s <> POLYHEDRON) (g_cells k))
    end.
  Lemma nth_types : forall (pre r : list shape) (s : shape) (l : list Z), Forall2 (fun s z => In (type_of s, z) codes) (pre ++ s :: r) l ->
    exists z, nth_error l (length pre) = Some z /\ In (type_of s, z) codes.
  Proof.
    induction pre as [|p pre IH]; intros r s l H; inversion H; subst; simpl; [eauto|]. eapply IH; eauto.
  Qed.
  Lemma nth_foff : forall pre s r, g_cells k = pre ++ s :: r -> st <> Absent -> nth_error (a_foffsets f) (length pre) = Some (foff st [] pre s).
  Proof.
    intros pre s r E N. assert (F : a_foffsets f = map (fun j => match nth_error (g_cells k) j, st with
                                      | Some (Plain _ _), Skipped => (-1)%Z
                                      | _, _ => Z.of_nat (end_of (map (stream_of st) (g_cells k)) j)
                                      end) (seq 0 (length (g_cells k)))) by (destruct st; tauto).
    rewrite F. rewrite nth_error_map. rewrite (nth_error_nth' _ 0) by (rewrite seq_length, E, app_length; simpl; lia).
    rewrite seq_nth by (rewrite E, app_length; simpl; lia). simpl.
    rewrite E. rewrite nth_error_app2, Nat.sub_diag by lia. simpl. rewrite end_at. unfold foff. destruct s, st; try reflexivity; tauto.
  Qed.
  Lemma cells_ok : forall rest pre posf, g_cells k = pre ++ rest ->
    (check = true -> st <> Absent -> posf = length (concat (map (stream_of st) pre))) ->
    decode_cells f ids check used pids (length pre) (map (end_of (map points_of (g_cells k))) (seq (length pre) (length rest)))
                 (length (concat (map points_of pre))) posf
    = Done (map (fun e => ((if used then nth (fst e) (a_cid f) 0 else fst e), type_of (snd e), connect ids (snd e),
                          (if pids then nth (fst e) (a_pid f) 0%Z else 0%Z))) (combine (seq (length pre) (length rest)) rest)).
  Proof.
    induction rest as [|s rest IH]; intros pre posf E P; [reflexivity|].
    simpl (length (s :: rest)). cbn [seq map decode_cells combine].
    destruct (nth_types pre rest s (a_types f)) as [z [Z1 Z2]]; [now rewrite <- E|].
    rewrite Z1. apply code_type in Z2. destruct Z2 as [Z2 _]. rewrite Z2.
    assert (EO : end_of (map points_of (g_cells k)) (length pre) = length (concat (map points_of pre)) + length (points_of s)) by (rewrite E; apply end_at).
    rewrite EO.
    assert (CO : conn_of f ids check (type_of s) (length pre) (length (concat (map points_of pre)) + length (points_of s)) (length (concat (map points_of pre))) posf
                 = Done (connect ids s)).
    { destruct s as [t vs|vs fs].
      - assert (T : t <> POLYHEDRON). { rewrite E in plain. apply Forall_app in plain. destruct plain as [_ Q]. now inversion Q. }
        assert (G : (if Nat.ltb (length (concat (map points_of pre)) + length vs) (length (concat (map points_of pre))) then Throws
                     else match slice (a_conn f) (length (concat (map points_of pre))) (length (concat (map points_of pre)) + length vs) with
                     | None => Undefined
                     | Some l => Done (match t with POLYGON => length l :: map (map_vert ids) l | _ => map (map_vert ids) l end) end) = Done (connect ids (Plain t vs))).
        { destruct (Nat.ltb_spec (length (concat (map points_of pre)) + length vs) (length (concat (map points_of pre)))); [lia|].
          rewrite conn, E, map_app, concat_app. simpl. rewrite slice_mid. now destruct t. }
        simpl. destruct t; try exact G. congruence.
      - simpl. assert (A : st <> Absent /\ check = true).
        { destruct st; (split; [discriminate|]) || idtac; try (destruct faces as [_ [_ [C|C]]]; [exact C|]);
          rewrite ?E in *; try (apply Forall_app in C; destruct C as [_ C]; inversion C; subst; simpl in *; congruence).
          apply Forall_app in faces; destruct faces as [_ C]; inversion C; subst; simpl in *; congruence. }
        destruct A as [A C]. rewrite C; simpl. rewrite (nth_foff pre (Poly vs fs) rest E A).
        rewrite (P C A). unfold foff.
        assert (FO : (match st with Skipped => Z.of_nat (length (concat (map (stream_of st) pre)) + length (stream_of st (Poly vs fs)))
                      | _ => Z.of_nat (length (concat (map (stream_of st) pre)) + length (stream_of st (Poly vs fs))) end
                     = Z.of_nat (length (concat (map (stream_of st) pre)) + length (stream_of st (Poly vs fs))))) by now destruct st.
        destruct (Z.ltb_spec (Z.of_nat (length (concat (map (stream_of st) pre)) + length (stream_of st (Poly vs fs)))) (Z.of_nat (length (concat (map (stream_of st) pre))))); [lia|].
        rewrite Nat2Z.id.
        assert (FA : a_faces f = concat (map (stream_of st) (g_cells k))) by (destruct st; tauto).
        rewrite FA, E, map_app, concat_app. rewrite map_cons, concat_cons. rewrite slice_mid.
        assert (SO : stream_of st (Poly vs fs) = length fs :: flat_map (fun vs => length vs :: vs) fs) by now destruct st.
        rewrite SO, remap_stream_ok. reflexivity. }
    rewrite CO.
    assert (E' : g_cells k = (pre ++ [s]) ++ rest) by now rewrite <- app_assoc.
    specialize (IH (pre ++ [s]) (if check && Z.ltb 0 (nth (length pre) (a_foffsets f) 0%Z) then Z.to_nat (nth (length pre) (a_foffsets f) 0%Z) else posf) E').
    rewrite app_length in IH. simpl length in IH. rewrite Nat.add_1_r in IH.
    assert (PE : length (concat (map points_of (pre ++ [s]))) = length (concat (map points_of pre)) + length (points_of s)) by (rewrite map_app, concat_app, app_length; simpl; now rewrite app_nil_r).
    rewrite PE in IH.
    rewrite IH; [reflexivity|].
    intros C A. rewrite C. simpl. rewrite (nth_error_nth _ _ _ (nth_foff pre s rest E A)). rewrite map_app, concat_app, app_length. simpl. rewrite app_nil_r.
    rewrite (P C A). destruct s as [t vs|vs fs], st; simpl; try congruence; rewrite ?app_length; simpl;
      try (rewrite Nat2Z.id; reflexivity); try lia;
      destruct (Z.ltb_spec 0 (Z.of_nat (length (concat (map (stream_of Zeros) pre)) + 1))) ; try lia;
      try (destruct (Z.ltb_spec 0 (Z.of_nat (length (concat (map (stream_of Zeros) pre)) + S (length (flat_map (fun vs0 => length vs0 :: vs0) fs))))) ; try lia);
      try (destruct (Z.ltb_spec 0 (Z.of_nat (length (concat (map (stream_of Skipped) pre)) + S (length (flat_map (fun vs0 => length vs0 :: vs0) fs))))) ; try lia).
  Qed.
End Loop.

Lemma labels_ok : forall ids (cells : list shape) cids (ps : list Z) a (g : nat -> nat) (h : nat -> Z),
  length cids = length cells -> length ps = length cells ->
  (forall j, j < length cells -> g (a + j) = nth j cids 0) -> (forall j, j < length cells -> h (a + j) = nth j ps 0%Z) ->
  map (fun e => (g (fst e), type_of (snd e), connect ids (snd e), h (fst e))) (combine (seq a (length cells)) cells)
  = map (fun e => (fst (fst e), type_of (snd (fst e)), connect ids (snd (fst e)), snd e)) (combine (combine cids cells) ps).
Proof.
  induction cells as [|s cells IH]; intros cids ps a g h L1 L2 G H; destruct cids as [|c cids], ps as [|p ps]; simpl in *; try lia; [reflexivity|].
  f_equal.
  - specialize (G 0 ltac:(lia)). specialize (H 0 ltac:(lia)). rewrite Nat.add_0_r in *. simpl in *. now rewrite G, H.
  - apply IH; try lia.
    + intros j J. specialize (G (S j) ltac:(lia)). simpl in G. rewrite <- G. f_equal. lia.
    + intros j J. specialize (H (S j) ltac:(lia)). simpl in H. rewrite <- H. f_equal. lia.
Qed.
Lemma concat_longer : forall (cells : list shape), Forall (fun s => points_of s <> []) cells -> length cells <= length (concat (map points_of cells)).
Proof.
  induction cells as [|s cells IH]; intro H; [simpl; lia|]. inversion H; subst. simpl. rewrite app_length. specialize (IH H3).
  destruct (points_of s); [congruence|simpl; lia].
Qed.
Lemma zeros_longer : forall cells, length cells <= length (concat (map (stream_of Zeros) cells)).
Proof. induction cells as [|s cells IH]; [simpl; lia|]. simpl. rewrite app_length. destruct s; simpl; lia. Qed.

Theorem decode_ok : forall (V : Type) st (k : grid V) f ids cids,
  regular k -> describes st k f -> numbered (g_vid k) (length (g_points k)) ids -> numbered (g_cid k) (length (g_cells k)) cids ->
  (st = Skipped -> (exists s, In s (g_cells k) /\ type_of s = POLYHEDRON) -> length (g_cells k) <= length (a_faces f)) ->
  decode f = Done (mesh_of k ids cids).
Proof.
  intros V st k f ids cids [R [RC [RP RV]]] [DP [DC [DO [DT [DI [DD [DV DF]]]]]]] NV NC FEW.
  unfold decode.
  assert (LO : length (a_offsets f) = length (g_cells k)) by (rewrite DO, map_length; apply seq_length).
  rewrite LO.
  destruct (Nat.ltb_spec (length (a_conn f)) (length (g_cells k))) as [L|L].
  { exfalso. rewrite DC in L. pose proof (concat_longer (g_cells k)) as CL.
    assert (A : Forall (fun s => points_of s <> []) (g_cells k)) by (eapply Forall_impl; [|exact R]; simpl; tauto). specialize (CL A). lia. }
  assert (U : existsb (fun z => etype_eqb (type_of_code z) UNDEFINED) (a_types f) = false).
  { clear - DT. induction DT as [|s z l l' H DT IH]; [reflexivity|]. simpl. rewrite IH. apply code_type in H. destruct H as [-> N]. destruct (type_of s); try reflexivity; congruence. }
  rewrite U, DP, DV.
  destruct (numbered_usable _ _ _ NV RV) as [V1 [V2 V3]]. rewrite V1.
  destruct (numbered_usable _ _ _ NC RC) as [C1 [C2 C3]].
  set (check := Nat.eqb (length (a_foffsets f)) (length (g_cells k)) && Nat.leb (length (g_cells k)) (length (a_faces f))).
  pose proof (cells_ok f k st ids check (usable (a_cid f) (length (g_cells k))) (Nat.eqb (length (a_pid f)) (length (g_cells k))) DC DO DT) as LOOP.
  assert (PL : Forall (fun s => match s with Plain t _ => t <> POLYHEDRON | _ => True end) (g_cells k)).
  { eapply Forall_impl; [|exact R]. intros [t vs|vs fs]; simpl; tauto. }
  specialize (LOOP PL).
  assert (FA : match st with
    | Absent => Forall (fun s => type_of s <> POLYHEDRON) (g_cells k)
    | _ => a_faces f = concat (map (stream_of st) (g_cells k)) /\
           a_foffsets f = map (fun j => match nth_error (g_cells k) j, st with
                                      | Some (Plain _ _), Skipped => (-1)%Z
                                      | _, _ => Z.of_nat (end_of (map (stream_of st) (g_cells k)) j)
                                      end) (seq 0 (length (g_cells k))) /\
           (check = true \/ Forall (fun s => type_of s <> POLYHEDRON) (g_cells k))
    end).
  { destruct st.
    - destruct DF as [F1 F2]. split; [exact F1|]. split; [exact F2|]. left. unfold check. rewrite F2, map_length, seq_length, Nat.eqb_refl. simpl.
      apply Nat.leb_le. rewrite F1. apply zeros_longer.
    - destruct DF as [F1 F2]. split; [exact F1|]. split; [exact F2|].
      destruct (Exists_dec (fun s => type_of s = POLYHEDRON) (g_cells k)) as [X|X].
      + intro s. destruct (type_of s); (left; reflexivity) || (right; discriminate).
      + left. unfold check. rewrite F2, map_length, seq_length, Nat.eqb_refl. simpl. apply Nat.leb_le. apply FEW; [reflexivity|]. now apply Exists_exists in X.
      + right. apply Forall_Exists_neg in X. exact X.
    - tauto. }
  specialize (LOOP FA (g_cells k) [] 0 eq_refl). simpl in LOOP. rewrite <- DO in LOOP. rewrite LOOP by reflexivity.
  unfold mesh_of. f_equal. f_equal. rewrite DI, DD.
  set (ps := match g_pid k with Some l => l | None => repeat 0%Z (length (g_cells k)) end).
  apply (labels_ok ids (g_cells k) cids ps 0 (fun j => if usable (or_nil (g_cid k)) (length (g_cells k)) then nth j (or_nil (g_cid k)) 0 else j)
           (fun j => if Nat.eqb (length (or_nil (g_pid k))) (length (g_cells k)) then nth j (or_nil (g_pid k)) 0%Z else 0%Z)).
  - exact C2.
  - unfold ps. destruct (g_pid k) as [l|] eqn:E; [now apply RP|apply repeat_length].
  - intros j J. simpl. now apply C3.
  - intros j J. simpl. unfold ps. destruct (g_pid k) as [l|] eqn:E; simpl.
    + rewrite (RP l eq_refl), Nat.eqb_refl. reflexivity.
    + rewrite nth_repeat. destruct j, (length (g_cells k)); reflexivity.
Qed.

(** ** Writing and reading back *)
Lemma sums_ends : forall (parts : list (list nat)) pre, sums (length (concat pre)) (map (@length nat) parts)
  = map (end_of (pre ++ parts)) (seq (length pre) (length parts)).
Proof.
  induction parts as [|p parts IH]; intro pre; [reflexivity|]. simpl.
  assert (E : end_of (pre ++ p :: parts) (length pre) = length (concat pre) + length p).
  { unfold end_of. replace (pre ++ p :: parts) with ((pre ++ [p]) ++ parts) by now rewrite <- app_assoc.
    replace (S (length pre)) with (length (pre ++ [p])) by (rewrite app_length; simpl; lia). rewrite firstn_len_app, concat_app, app_length. simpl. now rewrite app_nil_r. }
  rewrite E. f_equal. specialize (IH (pre ++ [p])). rewrite concat_app, !app_length in IH. simpl in IH. rewrite app_nil_r, Nat.add_1_r, <- app_assoc in IH. exact IH.
Qed.
Lemma faces_of_ok : forall fs k, length fs <= k -> faces_of k (flat_map (fun vs => length vs :: vs) fs) = fs.
Proof.
  induction fs as [|v fs IH]; intros k K; [now destruct k|]. destruct k; [simpl in K; lia|]. simpl in *.
  rewrite skipn_app, skipn_all, Nat.sub_diag; simpl. rewrite IH by lia. now rewrite firstn_app, firstn_all, Nat.sub_diag; simpl; rewrite app_nil_r.
Qed.
Lemma place_nth : forall l v, In v l -> place_of l v < length l /\ nth (place_of l v) l 0 = v.
Proof.
  induction l as [|x l IH]; intros v H; [destruct H|]. simpl. destruct (Nat.eqb_spec x v); [subst; simpl; split; [lia|reflexivity]|].
  destruct H as [->|H]; [congruence|]. destruct (IH v H). simpl. split; [lia|auto].
Qed.
(** a cell of the mesh as it is in the file *)
Definition shape_of (place : nat -> nat) (c : cell) : shape :=
  let '(_, t, conn, _) := c in
  match t with
  | POLYHEDRON => Poly (map place (cell_verts c)) (map (map place) (faces_of (length conn) (tl conn)))
  | _ => Plain t (map place (cell_verts c))
  end.
Lemma shape_points : forall place c, points_of (shape_of place c) = map place (cell_verts c).
Proof. intros place [[[i t] conn] p]. now destruct t. Qed.
Lemma shape_type : forall place c, type_of (shape_of place c) = snd (fst (fst c)).
Proof. intros place [[[i t] conn] p]. now destruct t. Qed.
Lemma verts_of : forall c vs, has_verts c vs -> (forall i, In i (cell_verts c) <-> In i vs) /\ cell_verts c <> [] /\ snd (fst (fst c)) <> UNDEFINED.
Proof.
  intros [[[i t] conn] p] vs H. simpl in H. destruct H; subst; simpl.
  - repeat split; auto; discriminate.
  - assert (F : (match flat_map (fun vs => length vs :: vs) fs with | [] => faces_of (length (flat_map (fun vs => length vs :: vs) fs)) [] | _ => [] end = []) \/ True) by now right.
    assert (G : faces_of (S (length (flat_map (fun vs => length vs :: vs) fs))) (flat_map (fun vs => length vs :: vs) fs) = fs).
    { apply faces_of_ok. pose proof (faces_length fs). lia. }
    simpl in G. rewrite G. split; [intro j; apply nodup_In|]. split; [|discriminate].
    intro N. apply H0. destruct (concat fs) as [|x l] eqn:C; [reflexivity|]. assert (I : In x (nodup Nat.eq_dec (x :: l))) by (apply nodup_In; now left). rewrite N in I. destruct I.
  - destruct t; try congruence; repeat split; auto.
Qed.
Lemma sums_ends0 : forall parts, sums 0 (map (@length nat) parts) = map (end_of parts) (seq 0 (length parts)).
Proof. intro parts. exact (sums_ends parts []). Qed.
Definition file_of {V : Type} (target : cell -> bool) (rt : V -> V) (m : mesh V) : grid V :=
  let cs := filter target (m_cells m) in
  let vs := used_verts m cs in
  Grid (map (fun e => rt (snd e)) vs) (map (shape_of (place_of (map fst vs))) cs) (Some (map (fun c => fst (fst (fst c))) cs)) (Some (map snd cs)) (Some (map fst vs)).
Lemma used_in : forall (V : Type) (m : mesh V) cs i, In i (flat_map cell_verts cs) -> In i (map fst (m_verts m)) -> In i (map fst (used_verts m cs)).
Proof.
  intros V m cs i I J. apply in_map_iff in J. destruct J as [[j x] [E J]]. simpl in E. subst j. apply in_map_iff. exists (i, x). split; [reflexivity|].
  apply filter_In. split; [exact J|]. apply existsb_exists. exists i. split; [exact I|apply Nat.eqb_refl].
Qed.
Lemma nodup_filter_fst : forall (A : Type) (p : nat * A -> bool) l, NoDup (map fst l) -> NoDup (map fst (filter p l)).
Proof.
  induction l as [|e l IH]; intro H; [constructor|]. inversion H; subst. simpl. destruct (p e); [|auto]. simpl. constructor; [|auto].
  intro I. apply H2. apply in_map_iff in I. destruct I as [x [E I]]. apply filter_In in I. apply in_map_iff. exists x. tauto.
Qed.
Lemma nodup_filter_ids : forall (p : cell -> bool) l, NoDup (map (fun c => fst (fst (fst c))) l) -> NoDup (map (fun c => fst (fst (fst c))) (filter p l)).
Proof.
  induction l as [|e l IH]; intro H; [constructor|]. inversion H; subst. simpl. destruct (p e); [|auto]. simpl. constructor; [|auto].
  intro I. apply H2. apply in_map_iff in I. destruct I as [x [E I]]. apply filter_In in I. apply in_map_iff. exists x. tauto.
Qed.
Lemma poly_form : forall c vs, has_verts c vs -> snd (fst (fst c)) = POLYHEDRON ->
  exists fs, snd (fst c) = length fs :: flat_map (fun vs => length vs :: vs) fs /\ faces_of (length (snd (fst c))) (tl (snd (fst c))) = fs /\ vs = concat fs.
Proof.
  intros [[[i t] conn] p] vs H T. simpl in *. destruct H; subst; try congruence. exists fs. split; [reflexivity|]. split; [|reflexivity].
  apply faces_of_ok. pose proof (faces_length fs). simpl. lia.
Qed.
Lemma stream_ok : forall place c vs, has_verts c vs ->
  (if is_poly c then face_stream place c else [0]) = stream_of Zeros (shape_of place c).
Proof.
  intros place c vs H. pose proof (poly_form c vs H) as P. destruct c as [[[i t] conn] p]. unfold is_poly. simpl in P |- *.
  destruct t; simpl; try reflexivity. destruct (P eq_refl) as [fs [E [F _]]]. unfold face_stream. simpl. rewrite F. f_equal.
  - rewrite E. simpl. now rewrite map_length.
  - clear. induction fs as [|v fs IH]; [reflexivity|]. simpl. rewrite map_length. f_equal. now rewrite IH.
Qed.
Lemma map_back : forall U vs, (forall v, In v vs -> In v U) -> map (fun i => nth i U 0) (map (place_of U) vs) = vs.
Proof. intros U vs H. rewrite map_map. rewrite <- (map_id vs) at 2. apply map_ext_in. intros v I. now apply place_nth, H. Qed.
Lemma connect_ok : forall U c vs, has_verts c vs -> (forall v, In v (cell_verts c) -> In v U) -> connect U (shape_of (place_of U) c) = snd (fst c).
Proof.
  intros U c vs H I. pose proof (poly_form c vs H) as P. destruct (verts_of c vs H) as [VV _]. destruct c as [[[i t] conn] p]. simpl in H, P |- *.
  destruct t; try (simpl; rewrite map_back by exact I; destruct H; subst; congruence || reflexivity).
  - simpl. rewrite map_back by exact I. rewrite map_length. destruct H; subst; congruence || reflexivity.
  - destruct (P eq_refl) as [fs [E [F C]]]. cbn [connect]. rewrite F, map_length. rewrite E. f_equal.
    assert (J : forall v, In v (concat fs) -> In v U) by (intros v Hv; apply I; apply VV; now rewrite C). clear - J.
    induction fs as [|v fs IH]; [reflexivity|]. simpl. rewrite map_length. f_equal. rewrite map_back by (intros; apply J; simpl; apply in_or_app; now left).
    f_equal. apply IH. intros; apply J; simpl; apply in_or_app; now right.
Qed.
Lemma file_regular : forall (V : Type) target rt (m : mesh V), sound m -> regular (file_of target rt m).
Proof.
  intros V target rt m [NV [NC F]]. unfold file_of, regular. cbn [g_points g_cells g_cid g_pid g_vid]. rewrite !map_length.
  split; [|repeat split; intros l E; injection E as <-; now rewrite map_length].
  set (cs := filter target (m_cells m)). set (U := map fst (used_verts m cs)).
  assert (LU : length (used_verts m cs) = length U) by (unfold U; now rewrite map_length). rewrite LU.
  apply Forall_forall. intros s S. apply in_map_iff in S. destruct S as [c [E C]]. subst s.
  pose proof C as C'. unfold cs in C'. apply filter_In in C'. destruct C' as [C' _].
  rewrite Forall_forall in F. destruct (F c C') as [vs [H I]]. destruct (verts_of c vs H) as [VV [NE NU]].
  assert (IN : forall v, In v (cell_verts c) -> In v U).
  { intros v Hv. apply used_in; [apply in_flat_map; eauto|]. apply I, VV, Hv. }
  rewrite shape_points. split; [|split].
  - intro N. apply map_eq_nil in N. congruence.
  - apply Forall_forall. intros x X. apply in_map_iff in X. destruct X as [v [<- X]]. now apply place_nth, IN.
  - pose proof (poly_form c vs H) as P. destruct c as [[[i t] conn] p]. simpl in P, NU |- *. destruct t; try (split; congruence).
    destruct (P eq_refl) as [fs [E [FO CO]]]. rewrite FO. apply Forall_forall. intros g G. apply in_map_iff in G. destruct G as [q [<- G]].
    apply Forall_forall. intros x X. apply in_map_iff in X. destruct X as [v [<- X]]. apply place_nth, IN, VV. rewrite CO. apply in_concat. eauto.
Qed.
Lemma file_describes : forall (V : Type) target always rt (m : mesh V), sound m ->
  describes (if always || existsb is_poly (m_cells m) then Zeros else Absent) (file_of target rt m) (write target always rt m).
Proof.
  intros V target always rt m [NV [NC F]]. unfold file_of, describes, write. cbn [g_points g_cells g_cid g_pid g_vid a_points a_offsets a_types a_conn a_faces a_foffsets a_cid a_pid a_vid or_nil].
  set (cs := filter target (m_cells m)). set (place := place_of (map fst (used_verts m cs))).
  assert (PO : map points_of (map (shape_of place) cs) = map (fun c => map place (cell_verts c)) cs).
  { rewrite map_map. apply map_ext. intro. apply shape_points. }
  assert (G : Forall (fun c => exists vs, has_verts c vs) cs).
  { apply Forall_forall. intros c C. apply filter_In in C. destruct C as [C _]. rewrite Forall_forall in F. destruct (F c C) as [vs [H _]]. eauto. }
  split; [reflexivity|]. split; [now rewrite PO, flat_map_concat_map|].
  split.
  { rewrite PO. replace (map (fun c => length (cell_verts c)) cs) with (map (@length nat) (map (fun c => map place (cell_verts c)) cs)).
    - rewrite sums_ends0. now rewrite !map_length.
    - rewrite map_map. apply map_ext. intro. apply map_length. }
  split.
  { clearbody place. clear - G. induction cs as [|c cs IH]; [constructor|]. inversion G; subst. cbn [map]. constructor; [|now apply IH].
    destruct H1 as [vs H]. rewrite shape_type. apply type_code. now destruct (verts_of c vs H) as [_ [_ N]]. }
  split; [reflexivity|]. split; [reflexivity|]. split; [reflexivity|].
  assert (ST : map (fun c => if is_poly c then face_stream place c else [0]) cs = map (stream_of Zeros) (map (shape_of place) cs)).
  { rewrite map_map. apply map_ext_in. intros c C. rewrite Forall_forall in G. destruct (G c C) as [vs H]. now apply (stream_ok place c vs). }
  destruct (always || existsb is_poly (m_cells m)) eqn:N.
  - rewrite ST. split; [reflexivity|].
    rewrite sums_ends0. rewrite map_map, !map_length. apply map_ext. intro j. now destruct (nth_error (map (shape_of place) cs) j) as [[]|].
  - split; [reflexivity|]. split; [reflexivity|]. apply orb_false_iff in N. destruct N as [_ N].
    apply Forall_forall. intros s S. apply in_map_iff in S. destruct S as [c [<- C]]. rewrite shape_type. intro T.
    apply filter_In in C. destruct C as [C _]. assert (X : existsb is_poly (m_cells m) = true); [|congruence].
    apply existsb_exists. exists c. split; [exact C|]. unfold is_poly. now rewrite T.
Qed.
Theorem roundtrip : forall (V : Type) target always rt (m : mesh V), sound m ->
  decode (write target always rt m)
  = Done (Mesh (map (fun e => (fst e, rt (snd e))) (used_verts m (filter target (m_cells m)))) (filter target (m_cells m))).
Proof.
  intros V target always rt m S. set (cs := filter target (m_cells m)). set (U := map fst (used_verts m cs)).
  rewrite (decode_ok V _ (file_of target rt m) _ U (map (fun c => fst (fst (fst c))) cs) (file_regular V target rt m S) (file_describes V target always rt m S)).
  - unfold mesh_of, file_of. cbn [g_points g_cells g_pid]. fold cs. fold U. f_equal. f_equal.
    + unfold U. clear. induction (used_verts m cs) as [|e l IH]; [reflexivity|]. simpl. now rewrite IH.
    + destruct S as [NV [NC F]].
      assert (G : forall c, In c cs -> connect U (shape_of (place_of U) c) = snd (fst c)).
      { intros c C. pose proof C as C'. unfold cs in C'. apply filter_In in C'. destruct C' as [C' _]. rewrite Forall_forall in F. destruct (F c C') as [vs [H I]].
        apply (connect_ok U c vs H). intros v Hv. apply used_in; [apply in_flat_map; eauto|]. apply I. now apply (verts_of c vs H). }
      revert G. generalize (place_of U). clearbody U. intros pl G. clearbody cs. clear - G. induction cs as [|c cs IH]; [reflexivity|]. cbn [map combine fst snd].
      rewrite shape_type, G by now left. rewrite IH by (intros; apply G; now right). now destruct c as [[[? ?] ?] ?].
  - unfold file_of. cbn [g_vid]. simpl. fold cs. fold U. split; [reflexivity|]. intro N. exfalso. apply N. destruct S as [NV _]. apply nodup_filter_fst, NV.
  - unfold file_of. cbn [g_cid]. simpl. fold cs. split; [reflexivity|]. intro N. exfalso. apply N. destruct S as [_ [NC _]]. apply nodup_filter_ids, NC.
  - destruct (always || existsb is_poly (m_cells m)); discriminate.
Qed.
