(** Proofs about the extraction and the choice of fields. *)
From Coq Require Import List Arith Bool Reals Lia Lra Permutation.
From Verif Require ReconSpec.
From Verif Require Import SharedPtr SharedPtrProofs Field FieldSpec FieldProofs Vec Extract ExtractSpec.
From Verif Require ReconProofs.
Import ListNotations.
Open Scope nat_scope.

Definition find_iff := ReconProofs.find_iff.
Definition find_some_iff := ReconProofs.find_some_iff.
Definition insert_find := ReconProofs.insert_find.
Definition insert_nodup := ReconProofs.insert_nodup.
Lemma find_upd_at B id f (l : list (nat * B)) id' : find id' (upd_at id f l) = if Nat.eqb id' id then option_map f (find id' l) else find id' l.
Proof. exact (ReconProofs.find_upd B id f l id'). Qed.
Lemma upd_at_keys B id f (l : list (nat * B)) : map fst (upd_at id f l) = map fst l.
Proof. exact (ReconProofs.upd_keys B id f l). Qed.

Section E.
  Context {A : Type}.
  Variables (kind : nat -> nat) (mesh : nat -> geom) (pid : nat -> nat -> nat) (pid_list : nat -> list nat) (iface_of : nat -> list nat -> list nat) (near : nat -> nat -> list nat).

  Lemma pick_portion ids (d : list (nat * A)) : NoDup ids -> NoDup (map fst d) ->
    exists r, pick ids d [] = Some r /\ NoDup (map fst r) /\ forall id x, In (id, x) r <-> In (id, x) d /\ In id ids.
  Proof.
    intros Ni Nd. exists (flat_map (picked d) ids). split; [apply (pick_ok d ids []); exact Ni|].
    assert (N : NoDup (map fst (flat_map (picked d) ids))) by (rewrite picked_keys; apply NoDup_filter; exact Ni).
    split; [exact N|]. intros id x. rewrite <- (find_iff _ _ id x N), find_picked, <- (find_iff _ d id x Nd).
    destruct (existsb (Nat.eqb id) ids) eqn:E.
    - apply in_existsb in E. tauto.
    - split; [discriminate|]. intros (_ & H). apply in_existsb in H. congruence.
  Qed.
  Lemma coherent_ok f : sound_field mesh f -> coherent_field (A := A) mesh f = true.
  Proof.
    intros (N & g & G & Ok & Sub). unfold coherent_field. apply check_ids_iff. cbn. rewrite G. split; [discriminate|].
    intros id H. unfold value in H. cbn in H. unfold elements. cbn. apply Sub. destruct (find id (v_data f)) eqn:E; [exact (find_in_keys _ _ _ E)|destruct (H eq_refl)].
  Qed.
  Lemma ids_nodup g loc : geom_ok g -> NoDup (loc_ids g loc).
  Proof. intros (A1 & B1 & C1). destruct loc; cbn; [constructor|assumption|assumption|assumption]. Qed.
  Lemma verts_in g cells id : kind g <> 3 -> geom_ok (mesh g) -> (In id (verts_of kind mesh g cells) <-> exists c vs, In c cells /\ In (c, vs) (g_cells (mesh g)) /\ In id vs).
  Proof.
    intros K Ok. unfold verts_of. destruct (Nat.eqb_spec (kind g) 3); [contradiction|]. rewrite nodup_In, in_flat_map. split.
    - intros (c & Hc & H). destruct (find c (g_cells (mesh g))) as [vs|] eqn:E; [|destruct H]. exists c, vs. split; [exact Hc|]. split; [apply find_in; exact E|exact H].
    - intros (c & vs & Hc & H & I). exists c. split; [exact Hc|]. rewrite (proj2 (find_iff _ _ c vs (proj1 (proj2 Ok))) H). exact I.
  Qed.
  Lemma verts_nodup g cells : NoDup (verts_of kind mesh g cells).
  Proof. unfold verts_of. destruct (Nat.eqb (kind g) 3); [constructor|apply NoDup_nodup]. Qed.
  Lemma pid_cells_in g pids c : In c (pid_cells mesh pid g pids) <-> (exists vs, In (c, vs) (g_cells (mesh g))) /\ In (pid g c) pids.
  Proof.
    unfold pid_cells. rewrite filter_In, in_existsb, in_map_iff. split.
    - intros (((c' & vs) & E & H) & P). cbn in E. subst c'. split; [exists vs; exact H|exact P].
    - intros ((vs & H) & P). split; [exists (c, vs); split; [reflexivity|exact H]|exact P].
  Qed.
  Lemma common_in g gf p : In p (common_pids pid_list g gf) <-> In p (pid_list g) /\ In p (pid_list gf).
  Proof. unfold common_pids. rewrite filter_In, andb_true_iff, !in_existsb, in_app_iff. tauto. Qed.
End E.

(** * Mapping *)
Section Pour.
  Context {A : Type}.
  Variables (add : A -> A -> A) (div : A -> nat -> A).
  Definition pinv (st : list (nat * A) * list (nat * nat)) : Prop := NoDup (map fst (fst st)) /\ NoDup (map fst (snd st)).
  Definition pholds (st : list (nat * A) * list (nat * nat)) (id : nat) (vs : list A) : Prop :=
    match vs with
    | [] => find id (fst st) = None /\ find id (snd st) = None
    | v :: r => find id (fst st) = Some (fold_left add r v) /\ find id (snd st) = match r with [] => None | _ => Some (S (length r)) end
    end.
  Lemma pholds_ext st st' id vs : find id (fst st') = find id (fst st) -> find id (snd st') = find id (snd st) -> pholds st id vs -> pholds st' id vs.
  Proof. intros H1 H2. destruct vs; cbn [pholds]; rewrite H1, H2; exact (fun x => x). Qed.

  Lemma pour_ok : forall d st, NoDup (map fst d) -> pinv st -> (forall id, exists vs, pholds st id vs) ->
    exists st', pour add d st = Some st' /\ pinv st' /\
      forall id vs, pholds st id vs -> pholds st' id (vs ++ match find id d with Some v => [v] | None => [] end).
  Proof.
    induction d as [|[i v] r IH]; intros st N P T.
    - exists st. split; [reflexivity|]. split; [exact P|]. intros id vs H. cbn [find]. rewrite app_nil_r. exact H.
    - cbn [map fst] in N. destruct (proj1 (NoDup_cons_iff i (map fst r)) N) as (Ni & Nr). destruct st as [res rep]. cbn [pour].
      assert (Step : exists st1, pour add ((i, v) :: r) (res, rep) = pour add r st1 /\ pinv st1 /\
        (forall id, id <> i -> find id (fst st1) = find id res /\ find id (snd st1) = find id rep) /\ (forall vs, pholds (res, rep) i vs -> pholds st1 i (vs ++ [v]))).
      { destruct P as (P1 & P2). cbn [fst snd] in *. destruct (T i) as (ws & W). cbn [pour]. destruct (exists_id i res) eqn:E; cbn [negb].
        - destruct ws as [|w q]; [destruct W as (W1 & _); cbn in W1; unfold exists_id in E; rewrite W1 in E; discriminate|]. destruct W as (W1 & W2). cbn [fst snd] in W1, W2.
          eexists. split; [reflexivity|]. split; [split; cbn [fst snd]|split; cbn [fst snd]].
          + rewrite upd_at_keys. exact P1.
          + destruct (exists_id i rep) eqn:Er; [rewrite upd_at_keys; exact P2|]. rewrite map_app. apply nodup_snoc; [exact P2|]. apply exists_not. exact Er.
          + intros id Ne. rewrite find_upd_at. destruct (Nat.eqb_spec id i); [contradiction|]. split; [reflexivity|].
            destruct (exists_id i rep); [rewrite find_upd_at; destruct (Nat.eqb_spec id i); [contradiction|reflexivity]|].
            rewrite find_app. cbn [find]. destruct (Nat.eqb_spec i id); [congruence|]. destruct (find id rep); reflexivity.
          + intros vs V. destruct vs as [|x q']; cbn [pholds fst snd] in V; destruct V as (V1 & V2); [congruence|].
            cbn [List.app pholds fst snd]. rewrite find_upd_at, Nat.eqb_refl, V1. cbn [option_map]. rewrite fold_left_app. split; [reflexivity|].
            unfold exists_id. rewrite V2. destruct q' as [|x' q'']; cbn [List.app].
            * rewrite find_app, V2. cbn [find]. rewrite Nat.eqb_refl. reflexivity.
            * rewrite find_upd_at, Nat.eqb_refl, V2. cbn [option_map length]. rewrite app_length. cbn [length]. f_equal. lia.
        - assert (I1 : insert i v res = Some (res ++ [(i, v)])) by (unfold insert; rewrite E; reflexivity). rewrite I1.
          eexists. split; [reflexivity|]. split; [split; cbn [fst snd]|split; cbn [fst snd]].
          + apply (insert_nodup _ _ _ _ _ I1 P1).
          + exact P2.
          + intros id Ne. rewrite (insert_find _ _ _ _ _ I1). destruct (Nat.eqb_spec id i); [contradiction|split; reflexivity].
          + intros vs V. unfold exists_id in E. destruct vs as [|x q']; cbn [pholds fst snd] in V; destruct V as (V1 & V2); [|rewrite V1 in E; discriminate].
            cbn [List.app pholds fst snd fold_left]. rewrite (insert_find _ _ _ _ _ I1), Nat.eqb_refl. split; [reflexivity|exact V2]. }
      destruct Step as (st1 & Q & P1 & F1 & H1). cbn [pour] in Q. rewrite Q. destruct (IH st1 Nr P1) as (st' & Q' & P' & H').
      { intros id. destruct (Nat.eq_dec id i) as [-> | Ne]; destruct (T i) as (ws & W); [exists (ws ++ [v]); apply H1; exact W|].
        destruct (T id) as (ws' & W'). exists ws'. destruct (F1 id Ne) as (A1 & B1). exact (pholds_ext (res, rep) st1 id ws' A1 B1 W'). }
      exists st'. split; [exact Q'|]. split; [exact P'|]. intros id vs V. cbn [find]. destruct (Nat.eqb_spec i id) as [-> | Ne].
      + specialize (H' id (vs ++ [v]) (H1 vs V)). rewrite (proj2 (find_none_keys id r) Ni), app_nil_r in H'. exact H'.
      + apply H'. destruct (F1 id (not_eq_sym Ne)) as (A1 & B1). exact (pholds_ext (res, rep) st1 id vs A1 B1 V).
  Qed.

  Definition fholds (st : list (nat * A) * list (nat * nat)) (id : nat) (vs : list A) : Prop := find id (fst st) = List.hd_error vs.
  Lemma pour_first_ok : forall d st, NoDup (map fst d) -> NoDup (map fst (fst st)) ->
    exists st', pour_first d st = Some st' /\ NoDup (map fst (fst st')) /\
      forall id vs, fholds st id vs -> fholds st' id (vs ++ match find id d with Some v => [v] | None => [] end).
  Proof.
    induction d as [|[i v] r IH]; intros st N P.
    - exists st. split; [reflexivity|]. split; [exact P|]. intros id vs H. cbn [find]. rewrite app_nil_r. exact H.
    - cbn [map fst] in N. destruct (proj1 (NoDup_cons_iff i (map fst r)) N) as (Ni & Nr). cbn [pour_first].
      destruct (exists_id i (fst st)) eqn:E; cbn [negb].
      + destruct (IH st Nr P) as (st' & Q' & P' & H'). exists st'. split; [exact Q'|]. split; [exact P'|]. intros id vs V. cbn [find].
        destruct (Nat.eqb_spec i id) as [-> | Ne]; [|exact (H' id vs V)]. specialize (H' id vs V). rewrite (proj2 (find_none_keys id r) Ni), app_nil_r in H'.
        unfold fholds in *. rewrite H'. destruct vs; [cbn in V; unfold exists_id in E; rewrite V in E; discriminate|reflexivity].
      + assert (I1 : insert i v (fst st) = Some (fst st ++ [(i, v)])) by (unfold insert; rewrite E; reflexivity). rewrite I1.
        destruct (IH (fst st ++ [(i, v)], snd st) Nr (insert_nodup _ _ _ _ _ I1 P)) as (st' & Q' & P' & H'). exists st'. split; [exact Q'|]. split; [exact P'|].
        intros id vs V. cbn [find]. destruct (Nat.eqb_spec i id) as [-> | Ne].
        * unfold exists_id in E. unfold fholds in V. destruct vs as [|x q]; [|cbn in V; rewrite V in E; discriminate].
          specialize (H' id [v]). rewrite (proj2 (find_none_keys id r) Ni), app_nil_r in H'. apply H'. unfold fholds. cbn [fst hd_error]. rewrite (insert_find _ _ _ _ _ I1), Nat.eqb_refl. reflexivity.
        * apply H'. unfold fholds in *. cbn [fst]. rewrite (insert_find _ _ _ _ _ I1). destruct (Nat.eqb_spec id i); [congruence|exact V].
  Qed.

  Lemma resolve_find : forall rep res id, NoDup (map fst rep) -> find id (resolve div res rep) = match find id rep with Some n => option_map (fun x => div x n) (find id res) | None => find id res end.
  Proof.
    unfold resolve. induction rep as [|[i n] r IH]; intros res id N; [reflexivity|]. cbn [map fst] in N. destruct (proj1 (NoDup_cons_iff i (map fst r)) N) as (Ni & Nr).
    cbn [fold_left fst snd find]. rewrite IH by exact Nr. rewrite find_upd_at. rewrite (Nat.eqb_sym id i). destruct (Nat.eqb_spec i id) as [-> | Ne]; [|reflexivity].
    rewrite (proj2 (find_none_keys id r) Ni). reflexivity.
  Qed.
  Lemma resolve_keys : forall rep res, map fst (resolve div res rep) = map fst res.
  Proof. unfold resolve. induction rep as [|[i n] r IH]; intros res; [reflexivity|]. cbn [fold_left]. rewrite IH. apply upd_at_keys. Qed.
End Pour.

(** the values of the fields, as a relation with the portions extracted *)
Section Over.
  Context {A : Type}.
  Variables (kind : nat -> nat) (mesh : nat -> geom) (pid : nat -> nat -> nat) (pid_list : nat -> list nat) (iface_of : nat -> list nat -> list nat) (near : nat -> nat -> list nat).
  Variables (g : nat) (keep : fieldv A -> nat -> Prop).
  Variable pr : list (nat * A) -> list (nat * A) * list (nat * nat) -> option (list (nat * A) * list (nat * nat)).
  Variable inv : list (nat * A) * list (nat * nat) -> Prop.
  Variable hold : list (nat * A) * list (nat * nat) -> nat -> list A -> Prop.
  Hypothesis pr_ok : forall d st, NoDup (map fst d) -> inv st -> (forall id, exists vs, hold st id vs) ->
    exists st', pr d st = Some st' /\ inv st' /\ forall id vs, hold st id vs -> hold st' id (vs ++ match find id d with Some v => [v] | None => [] end).

  Definition taken (f : fieldv A) : Prop :=
    (exists r, extract kind mesh pid pid_list iface_of near ByMap (Some g) f empty_field = Some (true, r) /\ portion f r g (keep f)) \/
    (extract kind mesh pid pid_list iface_of near ByMap (Some g) f empty_field = Some (false, empty_field) /\ forall id, ~ keep f id).

  Lemma over_ok : forall fs st, Forall taken fs -> Forall (fun f => NoDup (map fst (v_data f))) fs -> inv st -> (forall id, exists vs, hold st id vs) ->
    exists st', over_fields kind mesh pid pid_list iface_of near pr (Some g) fs st = Some st' /\ inv st' /\
      forall id vs0, hold st id vs0 -> exists vs, values_at keep id fs vs /\ hold st' id (vs0 ++ vs).
  Proof.
    induction fs as [|f r IH]; intros st Tk Nd I T.
    - exists st. split; [reflexivity|]. split; [exact I|]. intros id vs0 H. exists []. split; [constructor|]. rewrite app_nil_r. exact H.
    - destruct (proj1 (Forall_cons_iff _ _ _) Tk) as ([(e & E & (_ & _ & Ne & Pe)) | (E & Nk)] & Tr); destruct (proj1 (Forall_cons_iff _ _ _) Nd) as (Nf & Nr).
      2:{ cbn [over_fields]. rewrite E. destruct (IH st Tr Nr I T) as (st' & Q' & I' & H'). exists st'. split; [exact Q'|]. split; [exact I'|]. intros id vs0 V. destruct (H' id vs0 V) as (vs & Cv & Hv).
          exists vs. split; [|exact Hv]. apply va_skip; [|exact Cv]. intros (K & _). exact (Nk id K). }
      cbn [over_fields]. rewrite E. destruct (pr_ok (v_data e) st Ne I T) as (st1 & Q1 & I1 & H1). rewrite Q1.
      destruct (IH st1 Tr Nr I1) as (st' & Q' & I' & H').
      { intros id. destruct (T id) as (vs & V). eexists. apply H1. exact V. }
      exists st'. split; [exact Q'|]. split; [exact I'|]. intros id vs0 V. specialize (H1 id vs0 V). destruct (H' id _ H1) as (vs & Cv & Hv).
      destruct (find id (v_data e)) as [v|] eqn:F.
      + apply find_in in F. apply Pe in F. exists (v :: vs). split; [apply va_has; [exact (proj2 F)|exact (proj1 F)|exact Cv]|]. rewrite <- app_assoc in Hv. exact Hv.
      + rewrite app_nil_r in Hv. exists vs. split; [|exact Hv]. apply va_skip; [|exact Cv]. intros (K & X). apply find_some_iff in X. destruct X as (v & X). apply find_in in X.
        assert (Y : In (id, v) (v_data e)) by (apply Pe; split; assumption). apply (find_iff _ _ _ _ Ne) in Y. congruence.
  Qed.
End Over.

Lemma sum_fold : forall r v, fold_left Rplus r v = (v + ReconSpec.total r)%R.
Proof. induction r as [|x r IH]; intros v; cbn [fold_left ReconSpec.total]; [lra|]. rewrite IH. lra. Qed.
