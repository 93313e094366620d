(** C104: files of labelled displacements and of clouds of points. *)
From Coq Require Import List NArith ZArith Bool Lia FinFun.
From Verif Require Import Text TextSpec TextProofs CsvIoProofs LabelIo LabelIoSpec LabelIoProofs.
Import ListNotations.
Open Scope nat_scope.

Lemma point_kept : forall p, kept_point p (round_point p).
Proof. intros ((x, y), z). repeat split; try (apply rounded_kept; lia); apply rounded_exact; assumption. Qed.
Lemma scalar_kept : forall d, kept 6 d (rounded 6 d).
Proof. intros d. apply rounded_kept. lia. Qed.

(** ** Displacements *)
(** the labels read: those given, then new ones *)
Theorem C104_labels : forall template name labels displs junk labels' displs',
  read_displs (snd (write_displs template name labels displs)) junk = (labels', displs') ->
  length labels' = length displs /\ length displs' = length displs /\
  (forall i, i < length labels -> i < length displs -> nth_error labels' i = nth_error labels i) /\
  (forall i j x, length labels <= i -> nth_error labels' i = Some x -> nth_error labels' j = Some x -> i = j) /\
  (forall i x, length labels <= i -> nth_error labels' i = Some x -> ~ In x labels).
Proof.
  intros template name labels displs junk labels' displs' E. rewrite displs_right in E. injection E as <- <-. rewrite complete_length, map_length. split; [reflexivity|]. split; [reflexivity|].
  assert (New : forall i x, length labels <= i -> nth_error (complete_labels labels (length displs)) i = Some x -> x = (max_label labels + 1 + Z.of_nat (i - length labels))%Z).
  { intros i x L E. unfold complete_labels in E. destruct (Nat.le_gt_cases (length displs) (length labels)) as [C|C].
    - replace (length displs - length labels) with 0 in E by lia. cbn [seq map] in E. rewrite app_nil_r in E. assert (nth_error (firstn (length displs) labels) i = None) by (apply nth_error_None; rewrite firstn_length; lia). congruence.
    - rewrite firstn_all2 in E by lia. rewrite nth_error_app2 in E by exact L. rewrite nth_error_map in E. destruct (nth_error (seq 0 (length displs - length labels)) (i - length labels)) as [k|] eqn:Q; [|discriminate].
      assert (B : i - length labels < length displs - length labels) by (rewrite <- (seq_length (length displs - length labels) 0); apply nth_error_Some; rewrite Q; discriminate).
      rewrite (nth_error_nth' _ 0) in Q by (rewrite seq_length; exact B). rewrite seq_nth in Q by exact B. injection Q as <-. injection E as <-. reflexivity. }
  assert (Old : forall i, i < length labels -> i < length displs -> nth_error (complete_labels labels (length displs)) i = nth_error labels i).
  { intros i L1 L2. unfold complete_labels. rewrite nth_error_app1 by (rewrite firstn_length; lia).
    rewrite <- (firstn_skipn (length displs) labels) at 2. rewrite nth_error_app1 by (rewrite firstn_length; lia). reflexivity. }
  assert (Big : forall x, In x labels -> (x <= max_label labels)%Z) by (intros x I; apply max_label_right; exact I).
  split; [exact Old|]. split.
  - intros i j x L Ei Ej. pose proof (New i x L Ei) as Xi. destruct (Nat.le_gt_cases (length labels) j) as [C|C]; [pose proof (New j x C Ej) as Xj; lia|].
    assert (Bj : j < length displs) by (rewrite <- (complete_length labels (length displs)); apply nth_error_Some; rewrite Ej; discriminate). rewrite Old in Ej by assumption. apply nth_error_In in Ej. apply Big in Ej. lia.
  - intros i x L Ei I. pose proof (New i x L Ei) as Xi. apply Big in I. lia.
Qed.
Print Assumptions C104_labels.
(** the displacements read, with six digits *)
Theorem C104_displs : forall name labels displs junk, Forall2 kept_point displs (snd (read_displs (snd (write_displs false name labels displs)) junk)).
Proof.
  intros name labels displs junk. rewrite displs_right. cbn [snd]. induction displs as [|p l IH]; constructor; [apply point_kept|exact IH].
Qed.
Print Assumptions C104_displs.
(** a template is read as displacements that are zero *)
Theorem C104_template : forall name labels displs junk p, In p (snd (read_displs (snd (write_displs true name labels displs)) junk)) -> p = ((0, 0), (0, 0), (0, 0))%Z.
Proof. intros name labels displs junk p. rewrite displs_right. cbn [snd]. intros I. apply in_map_iff in I. destruct I as (q & <- & _). reflexivity. Qed.
Print Assumptions C104_template.

(** ** Clouds *)
(** the points and their labels, whatever the number of processes that have written, each point by one *)
Theorem C104_cloud_points : forall template parts junk junk_temp, NoDup (map fst (flat_map pts parts)) ->
  exists q, read_cloud (write_cloud template parts) junk junk_temp = Some q /\ same_points (flat_map pts parts) (pts q).
Proof.
  intros template parts junk junk_temp N. rewrite cloud_right by exact N. eexists. split; [reflexivity|]. cbn [pts]. unfold same_points. generalize (flat_map pts parts). intros l. induction l as [|e l IH]; constructor; [split; [reflexivity|apply point_kept]|exact IH].
Qed.
Print Assumptions C104_cloud_points.
(** the fields of a cloud whose labels are 0, 1, 2, ... in the order of the file (missing: other labels) *)
Theorem C104_cloud_fields_partial : forall p junk junk_temp, map fst (pts p) = map Z.of_nat (seq 0 (length (pts p))) ->
  incl (map fst (sc p)) (map fst (pts p)) -> incl (map fst (vc p)) (map fst (pts p)) ->
  exists q, read_cloud (write_cloud false [p]) junk junk_temp = Some q /\
    (sc p <> [] -> field_read_back (kept 6) (0, 0)%Z (map fst (pts p)) (sc p) (sc q)) /\ (sc p = [] -> sc q = []) /\
    (vc p <> [] -> field_read_back kept_point ((0, 0), (0, 0), (0, 0))%Z (map fst (pts p)) (vc p) (vc q)) /\ (vc p = [] -> vc q = []).
Proof.
  intros p junk junk_temp Seq Is Iv.
  assert (N : NoDup (map fst (pts p))) by (rewrite Seq; apply Injective_map_NoDup; [intros a b E; apply Nat2Z.inj; exact E|apply seq_NoDup]).
  rewrite cloud_right by (cbn [flat_map]; rewrite app_nil_r; exact N). eexists. split; [reflexivity|]. cbn [flat_map sc vc]. rewrite !app_nil_r.
  assert (Empty : forall (A : Type) (z : A) back, got false z back [] (pts p) = []) by (intros A z back; unfold got; generalize (pts p); intros l; clear; induction l as [|e l IH]; [reflexivity|exact IH]).
  assert (P : forall (A : Type) (g : list (Z * A)), (forall id, In id (map fst g) -> In id (map fst (pts p))) -> placed (map fst (pts p)) g = g).
  { intros A g G. rewrite Seq. apply placed_id. intros id I. rewrite <- Seq. apply G. exact I. }
  rewrite !P; [|intros id; unfold vc_of; apply got_ids|intros id; unfold sc_of; apply got_ids]. unfold sc_of, vc_of.
  split; [intros NE; apply got_right; [exact scalar_kept|exact N|exact NE|exact Is]|]. split; [intros ->; apply Empty|]. split; [intros NE; apply got_right; [exact point_kept|exact N|exact NE|exact Iv]|intros ->; apply Empty].
Qed.
Print Assumptions C104_cloud_fields_partial.
(** a label that is not below the number of points has no value after reading, whatever the file *)
Theorem C104_cloud_label_refuted : forall template parts junk junk_temp label, NoDup (map fst (flat_map pts parts)) -> (Z.of_nat (length (flat_map pts parts)) <= label)%Z ->
  exists q, read_cloud (write_cloud template parts) junk junk_temp = Some q /\ ~ In label (map fst (sc q)) /\ ~ In label (map fst (vc q)).
Proof.
  intros template parts junk junk_temp label N L. rewrite cloud_right by exact N. eexists. split; [reflexivity|]. cbn [sc vc]. set (labels := map fst (flat_map pts parts)) in *.
  assert (G : forall (A : Type) (g : part -> list (Z * A)), (forall p id, In p parts -> In id (map fst (g p)) -> In id labels) -> ~ In label (map fst (flat_map (fun p => placed labels (g p)) parts))).
  { intros A g H Q. apply in_map_iff in Q. destruct Q as (e & <- & Ie). apply in_flat_map in Ie. destruct Ie as (p & Ip & Ie). unfold placed in Ie. apply in_map_iff in Ie. destruct Ie as (x & <- & Ix). cbn [fst] in L.
    destruct (mapP_range labels (fst x) (H p _ Ip (in_map fst _ _ Ix)) N) as (k & B & _ & E). rewrite E in L. unfold labels in B. rewrite map_length in B. lia. }
  assert (Own : forall p id, In p parts -> In id (map fst (pts p)) -> In id labels).
  { intros p id Ip I. unfold labels. apply in_map_iff in I. destruct I as (e & <- & Ie). apply in_map. apply in_flat_map. exists p. auto. }
  split; apply G; intros p id Ip I; apply (Own p id Ip); [unfold sc_of in I|unfold vc_of in I]; apply got_ids in I; exact I.
Qed.
Print Assumptions C104_cloud_label_refuted.
(** the values of two points are exchanged *)
Theorem C104_cloud_exchanged_refuted : exists p q, NoDup (map fst (pts p)) /\ map fst (sc p) = map fst (pts p) /\
  read_cloud (write_cloud false [p]) 0%Z (0, 0)%Z = Some q /\ map fst (pts q) = map fst (pts p) /\
  exists a b x y, a <> b /\ x <> y /\ In (a, x) (sc p) /\ In (b, y) (sc p) /\ In (a, y) (sc q) /\ In (b, x) (sc q).
Proof.
  exists (Part [(1, zero_point); (0, zero_point)]%Z [(1, (5, 0)); (0, (7, 0))]%Z []). eexists. split; [repeat constructor; cbn; intuition lia|]. split; [reflexivity|]. split; [vm_compute; reflexivity|]. split; [reflexivity|].
  exists 1%Z, 0%Z, (5, 0)%Z, (7, 0)%Z. split; [discriminate|]. split; [discriminate|]. cbn. intuition.
Qed.
Print Assumptions C104_cloud_exchanged_refuted.
(** two processes that share a point and have a field: the file cannot be read *)
Theorem C104_cloud_shared_refuted : exists p q, NoDup (map fst (pts p)) /\ NoDup (map fst (pts q)) /\ read_cloud (write_cloud false [p; q]) 0%Z (0, 0)%Z = None.
Proof.
  exists (Part [(0, zero_point); (1, zero_point)]%Z [(0, (5, 0)); (1, (7, 0))]%Z []), (Part [(1, zero_point); (2, zero_point)]%Z [(1, (7, 0)); (2, (9, 0))]%Z []).
  split; [repeat constructor; cbn; intuition lia|]. split; [repeat constructor; cbn; intuition lia|]. vm_compute. reflexivity.
Qed.
Print Assumptions C104_cloud_shared_refuted.

(** the hypotheses are met *)
Example C104_nonvacuous :
  let p := Part [(0, ((1, 0), (2, 0), (3, -1))); (1, ((-4, 0), (1234567, 0), (0, 0)))]%Z [(1, (5, 0))]%Z [] in
  map fst (pts p) = map Z.of_nat (seq 0 (length (pts p))) /\ incl (map fst (sc p)) (map fst (pts p)) /\ NoDup (map fst (flat_map pts [p])) /\
  read_cloud (write_cloud false [p]) 9%Z (8, 8)%Z = Some (Part [(0, ((1, 0), (2, 0), (3, -1))); (1, ((-4, 0), (123457, 1), (0, 0)))]%Z [(0, (0, 0)); (1, (5, 0))]%Z []) /\
  read_displs (snd (write_displs false [] [4; 9]%Z [zero_point; zero_point; ((1, 0), (2, 0), (3, 0))%Z])) 0%Z = ([4; 9; 10]%Z, [zero_point; zero_point; ((1, 0), (2, 0), (3, 0))%Z]).
Proof.
  cbn zeta. split; [reflexivity|]. split; [intros x [<- | []]; right; left; reflexivity|]. split; [repeat constructor; cbn; intuition lia|]. split; vm_compute; reflexivity.
Qed.
