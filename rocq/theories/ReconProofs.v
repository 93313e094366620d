(** Proofs about the reconstruction of fields. *)
From Coq Require Import List Arith Bool Reals Lia Lra Permutation.
From Verif Require Import SharedPtr SharedPtrProofs Field FieldSpec FieldProofs Vec Recon ReconSpec.
Import ListNotations.
Open Scope nat_scope.

Lemma find_iff A (l : list (nat * A)) id v : NoDup (map fst l) -> (find id l = Some v <-> In (id, v) l).
Proof.
  intros N. split; [apply find_in|]. induction l as [|[k w] r IH]; [intros []|]. cbn [map fst] in N.
  destruct (proj1 (NoDup_cons_iff k (map fst r)) N) as (A1 & B1). intros [Q | H]; cbn [find].
  - injection Q as -> ->. rewrite Nat.eqb_refl. reflexivity.
  - destruct (Nat.eqb_spec k id) as [-> | _]; [destruct A1; apply (in_map fst _ _ H)|exact (IH B1 H)].
Qed.
Lemma find_some_iff A (l : list (nat * A)) id : In id (map fst l) <-> exists v, find id l = Some v.
Proof.
  split.
  - intros H. destruct (find id l) as [v|] eqn:E; [exists v; reflexivity|]. destruct (proj1 (find_none_keys _ _) E H).
  - intros (v & E). exact (find_in_keys _ _ _ E).
Qed.
Lemma find_upd B id f (l : list (nat * B)) id' : find id' (upd id f l) = if Nat.eqb id' id then option_map f (find id' l) else find id' l.
Proof.
  induction l as [|[k v] r IH]; cbn [upd map find]; [destruct (Nat.eqb id' id); reflexivity|].
  unfold upd in IH. cbn [fst snd]. destruct (Nat.eqb_spec k id) as [-> | N]; cbn [fst snd find].
  - destruct (Nat.eqb_spec id id') as [-> | N']; [rewrite Nat.eqb_refl; reflexivity|exact IH].
  - destruct (Nat.eqb_spec k id') as [-> | N']; [|exact IH]. destruct (Nat.eqb_spec id' id); [contradiction|reflexivity].
Qed.
Lemma upd_keys B id f (l : list (nat * B)) : map fst (upd id f l) = map fst l.
Proof. unfold upd. rewrite map_map. apply map_ext. intros e. destruct (Nat.eqb (fst e) id); reflexivity. Qed.
Lemma insert_find A id (v : A) l l' : insert id v l = Some l' -> forall id', find id' l' = if Nat.eqb id' id then Some v else find id' l.
Proof.
  unfold insert, exists_id. destruct (find id l) as [w|] eqn:E; intros Q id'; [discriminate|]. injection Q as <-. rewrite find_app. cbn [find].
  rewrite (Nat.eqb_sym id id'). destruct (Nat.eqb_spec id' id) as [-> | N]; [rewrite E; reflexivity|]. destruct (find id' l); reflexivity.
Qed.
Lemma insert_nodup A id (v : A) l l' : insert id v l = Some l' -> NoDup (map fst l) -> NoDup (map fst l').
Proof.
  unfold insert. destruct (exists_id id l) eqn:E; intros Q N; [discriminate|]. injection Q as <-. rewrite map_app. apply nodup_snoc; [exact N|]. apply exists_not. exact E.
Qed.

Section Merge.
  Context {A : Type}.
  Variables (mesh : nat -> geom) (merge : A -> A -> A) (div : A -> nat -> A) (zero : A).

  Definition sync (st : list (nat * A) * list (nat * nat)) : Prop :=
    NoDup (map fst (fst st)) /\ forall id, exists_id id (fst st) = exists_id id (snd st).
  Definition holds (st : list (nat * A) * list (nat * nat)) (id : nat) (vs : list A) : Prop :=
    match vs with
    | [] => find id (fst st) = None /\ find id (snd st) = None
    | v :: r => find id (fst st) = Some (fold_left merge r v) /\ find id (snd st) = Some (S (length r))
    end.

  Lemma holds_snoc st st' id vs v : holds st id vs ->
    (find id (fst st') = match find id (fst st) with Some x => Some (merge x v) | None => Some v end) ->
    (find id (snd st') = match find id (snd st) with Some n => Some (S n) | None => Some 1 end) -> holds st' id (vs ++ [v]).
  Proof.
    intros H F C. destruct vs as [|x r]; cbn [holds List.app] in *; destruct H as (Hf & Hc); rewrite Hf in F; rewrite Hc in C.
    - split; [exact F|exact C].
    - rewrite fold_left_app, app_length, Nat.add_comm. split; [exact F|exact C].
  Qed.

  Lemma over_ids_step target data id r st v : In id target -> find id data = Some v -> sync st ->
    exists st', over_ids merge target data (id :: r) st = over_ids merge target data r st' /\ sync st' /\
      (forall id', id' <> id -> find id' (fst st') = find id' (fst st) /\ find id' (snd st') = find id' (snd st)) /\
      (forall vs, holds st id vs -> holds st' id (vs ++ [v])).
  Proof.
    intros T D (N & Y). destruct st as [res cnt]. cbn [fst snd] in *. cbn [over_ids]. rewrite (proj2 (in_existsb id target) T), D. cbn [negb].
    pose proof (Y id) as Yi. destruct (exists_id id res) eqn:E; cbn [negb].
    - exists (upd id (fun x => merge x v) res, upd id S cnt). split; [reflexivity|]. split; [split|split]; cbn [fst snd].
      + rewrite upd_keys. exact N.
      + intros i. specialize (Y i). unfold exists_id in *. rewrite !find_upd. destruct (Nat.eqb i id); [|exact Y]. destruct (find i res), (find i cnt); cbn [option_map]; exact Y.
      + intros i Hi. rewrite !find_upd. destruct (Nat.eqb_spec i id); [contradiction|split; reflexivity].
      + intros vs H. apply (holds_snoc (res, cnt)); [exact H| |]; cbn [fst snd]; rewrite find_upd, Nat.eqb_refl; unfold exists_id in *.
        * destruct (find id res); [reflexivity|discriminate].
        * destruct (find id cnt); [reflexivity|discriminate].
    - unfold insert at 1 2. rewrite E, <- Yi.
      assert (I1 : insert id v res = Some (res ++ [(id, v)])) by (unfold insert; rewrite E; reflexivity).
      assert (I2 : insert id 1 cnt = Some (cnt ++ [(id, 1)])) by (unfold insert; rewrite <- Yi; reflexivity).
      exists (res ++ [(id, v)], cnt ++ [(id, 1)]). split; [reflexivity|]. split; [split|split]; cbn [fst snd].
      + apply (insert_nodup _ _ _ _ _ I1 N).
      + intros i. specialize (Y i). unfold exists_id in *. rewrite (insert_find _ _ _ _ _ I1), (insert_find _ _ _ _ _ I2). destruct (Nat.eqb i id); [reflexivity|exact Y].
      + intros i Hi. rewrite (insert_find _ _ _ _ _ I1), (insert_find _ _ _ _ _ I2). destruct (Nat.eqb_spec i id); [contradiction|split; reflexivity].
      + intros vs H. unfold exists_id in E, Yi. apply (holds_snoc (res, cnt)); [exact H| |]; cbn [fst snd].
        * rewrite (insert_find _ _ _ _ _ I1), Nat.eqb_refl. destruct (find id res); [discriminate|reflexivity].
        * rewrite (insert_find _ _ _ _ _ I2), Nat.eqb_refl. destruct (find id cnt); [discriminate|reflexivity].
  Qed.

  Lemma over_ids_ok target data : forall ids st, NoDup ids -> sync st ->
    (forall id, In id ids -> In id target -> find id data <> None) ->
    exists st', over_ids merge target data ids st = Some st' /\ sync st' /\
      (forall id, ~ (In id ids /\ In id target) -> find id (fst st') = find id (fst st) /\ find id (snd st') = find id (snd st)) /\
      (forall id vs v, In id ids -> In id target -> find id data = Some v -> holds st id vs -> holds st' id (vs ++ [v])).
  Proof.
    induction ids as [|i r IH]; intros st N Y D.
    - exists st. split; [reflexivity|]. split; [exact Y|]. split; [split; reflexivity|]. intros id vs v [].
    - destruct (proj1 (NoDup_cons_iff i r) N) as (Ni & Nr). destruct (existsb (Nat.eqb i) target) eqn:T.
      + apply in_existsb in T. destruct (find i data) as [w|] eqn:W; [|destruct (D i (or_introl eq_refl) T W)].
        destruct (over_ids_step target data i r st w T W Y) as (st1 & Q & Y1 & F1 & H1). rewrite Q.
        destruct (IH st1 Nr Y1) as (st' & Q' & Y' & F' & H'); [intros id H; apply D; right; exact H|].
        exists st'. split; [exact Q'|]. split; [exact Y'|]. split.
        * intros id Hid. assert (Ne : id <> i) by (intros ->; apply Hid; split; [left; reflexivity|exact T]).
          destruct (F' id) as (A1 & B1); [intros (H & G); apply Hid; split; [right; exact H|exact G]|].
          destruct (F1 id Ne) as (A2 & B2). split; congruence.
        * intros id vs v [<- | H] G V Hv.
          -- rewrite W in V. injection V as <-. destruct (F' i) as (A1 & B1); [intros (X & _); exact (Ni X)|].
             specialize (H1 vs Hv). destruct vs as [|x q]; cbn [List.app holds] in *; rewrite A1, B1; exact H1.
          -- apply H'; try assumption. assert (Ne : id <> i) by (intros ->; exact (Ni H)). destruct (F1 id Ne) as (A2 & B2).
             destruct vs; cbn [holds] in *; rewrite A2, B2; exact Hv.
      + cbn [over_ids]. rewrite T. cbn [negb]. destruct (IH st Nr Y) as (st' & Q' & Y' & F' & H'); [intros id H; apply D; right; exact H|].
        assert (T' : ~ In i target) by (intros X; apply in_existsb in X; congruence).
        exists st'. split; [exact Q'|]. split; [exact Y'|]. split.
        * intros id Hid. apply F'. intros (H & G). apply Hid. split; [right; exact H|exact G].
        * intros id vs v [<- | H] G V Hv; [destruct (T' G)|apply H'; assumption].
  Qed.
  Lemma over_ids_needs target data : forall ids st st', over_ids merge target data ids st = Some st' ->
    forall id, In id ids -> In id target -> find id data <> None.
  Proof.
    induction ids as [|i r IH]; intros st st' Q id; [intros []|]. cbn [over_ids] in Q. intros [<- | H] T.
    - rewrite (proj2 (in_existsb i target) T) in Q. cbn [negb] in Q. destruct (find i data); [discriminate|discriminate].
    - destruct (negb (existsb (Nat.eqb i) target)); [exact (IH _ _ Q id H T)|].
      destruct (find i data); [|discriminate]. destruct st as [res cnt]. destruct (negb (exists_id i res)).
      + destruct (insert i a res); [|discriminate]. destruct (insert i 1 cnt); [|discriminate]. exact (IH _ _ Q id H T).
      + exact (IH _ _ Q id H T).
  Qed.

  Definition usual (loc : location) : Prop := loc = LPoint \/ loc = LCell.
  Lemma ids_of_ok loc g : usual loc -> ids_of mesh loc (Some g) = Some (elements_of (mesh g) loc).
  Proof. intros [-> | ->]; reflexivity. Qed.
  Lemma elements_nodup g loc : geom_ok g -> NoDup (elements_of g loc).
  Proof. intros (A1 & B1 & C1). destruct loc; cbn; [constructor|assumption|assumption|assumption]. Qed.
  Lemma covers_ids loc g (p : patch A) id : p_geo p = Some g -> (covers mesh loc p id <-> In id (elements_of (mesh g) loc)).
  Proof. intros G. split; [intros (g' & G' & H); congruence|intros H; exists g; split; assumption]. Qed.

  Lemma over_patches_ok loc tg : usual loc -> forall (l : list (patch A)) st, Forall (patch_ok mesh) l -> Forall (full mesh loc tg) l -> sync st ->
    exists st', over_patches mesh merge loc (elements_of (mesh tg) loc) l st = Some st' /\ sync st' /\
      (forall id, ~ In id (elements_of (mesh tg) loc) -> find id (fst st') = find id (fst st) /\ find id (snd st') = find id (snd st)) /\
      (forall id vs0, In id (elements_of (mesh tg) loc) -> holds st id vs0 -> exists vs, collects mesh loc id l vs /\ holds st' id (vs0 ++ vs)).
  Proof.
    intros U. induction l as [|p r IH]; intros st O F Y.
    - exists st. split; [reflexivity|]. split; [exact Y|]. split; [split; reflexivity|]. intros id vs0 _ H. exists []. split; [constructor|]. rewrite app_nil_r. exact H.
    - destruct (proj1 (Forall_cons_iff _ _ _) O) as ((Np & g & G & Gok) & Or). destruct (proj1 (Forall_cons_iff _ _ _) F) as (Fp & Fr).
      cbn [over_patches]. rewrite G, (ids_of_ok loc g U).
      destruct (over_ids_ok (elements_of (mesh tg) loc) (p_data p) (elements_of (mesh g) loc) st (elements_nodup _ _ Gok) Y) as (st1 & Q1 & Y1 & F1 & H1).
      { intros id H T E. destruct (Fp id) as (v & V); [apply (covers_ids loc g); assumption|exact T|]. apply (find_iff _ _ _ _ Np) in V. congruence. }
      rewrite Q1. destruct (IH st1 Or Fr Y1) as (st' & Q' & Y' & F' & H'). exists st'. split; [exact Q'|]. split; [exact Y'|]. split.
      + intros id Hid. destruct (F1 id) as (A1 & B1); [intros (_ & X); exact (Hid X)|]. destruct (F' id Hid) as (A2 & B2). split; congruence.
      + intros id vs0 T H. destruct (in_dec Nat.eq_dec id (elements_of (mesh g) loc)) as [I|I].
        * destruct (Fp id) as (v & V); [apply (covers_ids loc g); assumption|exact T|]. pose proof (proj2 (find_iff _ _ _ _ Np) V) as W.
          destruct (H' id (vs0 ++ [v]) T (H1 id vs0 v I T W H)) as (vs & C & Hv). exists (v :: vs). split.
          -- apply c_has; [apply (covers_ids loc g); assumption|exact V|exact C].
          -- rewrite <- app_assoc in Hv. exact Hv.
        * destruct (F1 id) as (A1 & B1); [intros (X & _); exact (I X)|]. destruct (H' id vs0 T) as (vs & C & Hv).
          { destruct vs0; cbn [holds] in *; rewrite A1, B1; exact H. }
          exists vs. split; [|exact Hv]. apply c_skip; [|exact C]. rewrite (covers_ids loc g); assumption.
  Qed.
  Lemma over_patches_needs loc target : usual loc -> forall (l : list (patch A)) st st', over_patches mesh merge loc target l st = Some st' ->
    forall p g id, In p l -> p_geo p = Some g -> In id (elements_of (mesh g) loc) -> In id target -> find id (p_data p) <> None.
  Proof.
    intros U. induction l as [|q r IH]; intros st st' Q p g id; [intros []|]. cbn [over_patches] in Q.
    destruct (ids_of mesh loc (p_geo q)) as [ids|] eqn:E; [|discriminate]. destruct (over_ids merge target (p_data q) ids st) as [st1|] eqn:Q1; [|discriminate].
    intros [<- | H] G I T.
    - rewrite G, (ids_of_ok loc g U) in E. injection E as <-. exact (over_ids_needs _ _ _ _ _ Q1 id I T).
    - exact (IH _ _ Q p g id H G I T).
  Qed.

  Lemma average_keys o res cnt : map fst (average div o res cnt) = map fst res.
  Proof. destruct o; try reflexivity. unfold average. rewrite map_map. reflexivity. Qed.
  Lemma average_find o res cnt id : find id (average div o res cnt) =
    match o with OAvg => option_map (fun x => div x (match find id cnt with Some n => n | None => 0 end)) (find id res) | _ => find id res end.
  Proof.
    destruct o; try reflexivity. unfold average. induction res as [|[k v] r IH]; [reflexivity|]. cbn [map find fst snd].
    destruct (Nat.eqb_spec k id) as [-> | N]; [reflexivity|exact IH].
  Qed.

  Lemma sub_ids_ok target (res : list (nat * A)) : forall ids acc, NoDup ids -> NoDup (map fst acc) ->
    (forall id, In id ids -> ~ In id (map fst acc)) -> (forall id, In id target -> In id (map fst res)) ->
    exists d, sub_ids target res ids acc = Some d /\ NoDup (map fst d) /\
      (forall id, find id d = match find id acc with Some x => Some x | None => if existsb (Nat.eqb id) ids && existsb (Nat.eqb id) target then find id res else None end).
  Proof.
    induction ids as [|i r IH]; intros acc N Na Fr Tr.
    - exists acc. split; [reflexivity|]. split; [exact Na|]. intros id. cbn [existsb andb]. destruct (find id acc); reflexivity.
    - destruct (proj1 (NoDup_cons_iff i r) N) as (Ni & Nr). cbn [sub_ids]. destruct (existsb (Nat.eqb i) target) eqn:T.
      + apply in_existsb in T. destruct (proj1 (find_some_iff _ _ _) (Tr i T)) as (v & V). rewrite V.
        assert (E : insert i v acc = Some (acc ++ [(i, v)])).
        { unfold insert. rewrite (proj2 (exists_not i acc) (Fr i (or_introl eq_refl))). reflexivity. }
        rewrite E. destruct (IH (acc ++ [(i, v)]) Nr (insert_nodup _ _ _ _ _ E Na)) as (d & Q & Nd & Fd); [|exact Tr|].
        { intros id H. rewrite map_app, in_app_iff. intros [X | [<- | []]]; [exact (Fr id (or_intror H) X)|exact (Ni H)]. }
        exists d. split; [exact Q|]. split; [exact Nd|]. intros id. rewrite Fd, (insert_find _ _ _ _ _ E id). cbn [existsb].
        destruct (Nat.eqb_spec id i) as [-> | Ne]; [|reflexivity].
        assert (Fi : find i acc = None) by (apply find_none_keys; apply (Fr i (or_introl eq_refl))).
        rewrite Fi. cbn [orb]. rewrite (proj2 (in_existsb i target) T). cbn [andb]. symmetry. exact V.
      + destruct (IH acc Nr Na) as (d & Q & Nd & Fd); [intros id H; apply Fr; right; exact H|exact Tr|].
        exists d. split; [exact Q|]. split; [exact Nd|]. intros id. rewrite Fd. cbn [existsb].
        destruct (Nat.eqb_spec id i) as [-> | Ne]; [|reflexivity]. rewrite T, !andb_false_r. reflexivity.
  Qed.

  Lemma sub_results_ok loc tg (res : list (nat * A)) : usual loc -> field_on (elements_of (mesh tg) loc) res -> forall l : list (patch A), Forall (patch_ok mesh) l ->
    exists s, sub_results mesh loc (elements_of (mesh tg) loc) res l = Some s /\
      Forall2 (fun p s => p_geo s = p_geo p /\ p_loc s = loc /\ NoDup (map fst (p_data s)) /\
                      (forall id x, In (id, x) (p_data s) <-> covers mesh loc p id /\ In (id, x) res)) l s.
  Proof.
    intros U (Nf & Hf). induction l as [|p r IH]; intros O.
    - exists []. split; [reflexivity|constructor].
    - destruct (proj1 (Forall_cons_iff _ _ _) O) as ((Np & g & G & Gok) & Or). destruct (IH Or) as (s & Q & F). cbn [sub_results].
      rewrite G, (ids_of_ok loc g U).
      destruct (sub_ids_ok (elements_of (mesh tg) loc) res (elements_of (mesh g) loc) [] (elements_nodup _ _ Gok)) as (d & Qd & Nd & Fd).
      { constructor. } { intros id _ []. } { intros id H. apply Hf. exact H. }
      rewrite Qd, Q. eexists. split; [reflexivity|]. constructor; [|exact F]. cbn [p_geo p_loc p_data]. split; [rewrite G; reflexivity|]. split; [reflexivity|]. split; [exact Nd|].
      intros id x. rewrite <- (find_iff _ d id x Nd), Fd. cbn [find]. rewrite (covers_ids loc g p id G), <- (find_iff _ res id x Nf).
      destruct (existsb (Nat.eqb id) (elements_of (mesh g) loc)) eqn:E1; cbn [andb].
      + apply in_existsb in E1. destruct (existsb (Nat.eqb id) (elements_of (mesh tg) loc)) eqn:E2.
        * tauto.
        * split; [discriminate|]. intros (_ & X). exfalso. apply find_in_keys in X. apply Hf in X. apply in_existsb in X. congruence.
      + split; [discriminate|]. intros (X & _). apply in_existsb in X. congruence.
  Qed.

  (** what a value is, from the values collected *)
  Definition outcome (o : overlap) (vs : list A) : A :=
    match vs with [] => zero | v :: r => match o with OAvg => div (fold_left merge r v) (S (length r)) | _ => fold_left merge r v end end.

  Lemma execute_ok o loc tg (l : list (patch A)) : usual loc -> geom_ok (mesh tg) -> Forall (patch_ok mesh) l -> Forall (full mesh loc tg) l ->
    exists f s, execute mesh merge div zero o loc (Some tg) l = Some (f, s) /\ rebuilt (fun vs x => x = outcome o vs) mesh loc tg l f s.
  Proof.
    intros U Tok O F. unfold execute. rewrite (ids_of_ok loc tg U).
    destruct (over_patches_ok loc tg U l ([], []) O F) as ([res cnt] & Q & (N & Y) & Out & Inn); [split; [constructor|reflexivity]|].
    rewrite Q. set (fld := {| f_geo := Some (mesh tg); f_loc := loc; f_name := data_name; f_data := average div o res cnt |}).
    assert (Fok : field_ok fld) by (split; [cbn; rewrite average_keys; exact N|exact Tok]).
    destruct (complete_missing_spec zero fld Fok) as (f' & b & C & Hd & Fok' & B & _ & B1). rewrite C.
    assert (Co : coherent fld).
    { intros id H. unfold elements. cbn. apply value_in in H. cbn in H. rewrite average_keys in H.
      destruct (in_dec Nat.eq_dec id (elements_of (mesh tg) loc)) as [I|I]; [exact I|]. destruct (Out id I) as (E & _). cbn in E.
      apply find_none_keys in E. destruct (E H). }
    assert (Bt : b = true) by (apply B; split; [discriminate|exact Co]). destruct (B1 Bt) as (Co' & Cm' & Val).
    assert (El : elements f' = elements_of (mesh tg) loc) by (unfold elements; rewrite (proj1 Hd), (proj1 (proj2 Hd)); reflexivity).
    assert (Fo : field_on (elements_of (mesh tg) loc) (f_data f')).
    { split; [exact (proj1 Fok')|]. intros id. rewrite <- (value_in f' id), <- El. split; [apply Co'|apply Cm']. }
    destruct (sub_results_ok loc tg (f_data f') U Fo l O) as (s & Qs & Fs). rewrite Qs. exists (f_data f'), s. split; [reflexivity|].
    split; [exact Fo|]. split; [|exact Fs]. intros id x H. pose proof (proj1 (proj2 Fo id) (in_map fst _ _ H)) as T.
    destruct (Inn id [] T) as (vs & Cv & Hv); [split; reflexivity|]. exists vs. split; [exact Cv|].
    apply (find_iff _ _ _ _ (proj1 Fok')) in H. change (find id (f_data f')) with (value f' id) in H. rewrite Val in H.
    unfold value in H. cbn [fld f_data] in H. rewrite average_find in H. cbn [List.app] in Hv.
    destruct vs as [|v r]; cbn [holds fst snd outcome] in *; destruct Hv as (H1 & H2); rewrite H1 in H.
    - assert (T' : existsb (Nat.eqb id) (elements fld) = true) by (apply in_existsb; exact T). rewrite T' in H. destruct o; cbn [option_map] in H; injection H as <-; reflexivity.
    - rewrite H2 in H. destruct o; cbn [option_map] in H; injection H as <-; reflexivity.
  Qed.
  Lemma execute_needs o loc tg (l : list (patch A)) r : usual loc -> Forall (patch_ok mesh) l ->
    execute mesh merge div zero o loc (Some tg) l = Some r -> Forall (full mesh loc tg) l.
  Proof.
    intros U O Q. unfold execute in Q. rewrite (ids_of_ok loc tg U) in Q.
    destruct (over_patches mesh merge loc (elements_of (mesh tg) loc) l ([], [])) as [[res cnt]|] eqn:E; [|discriminate].
    apply Forall_forall. intros p Hp id (g & G & I) T.
    pose proof (over_patches_needs loc _ U l _ _ E p g id Hp G I T) as X. destruct (find id (p_data p)) as [v|] eqn:V; [|destruct (X eq_refl)].
    exists v. apply find_in. exact V.
  Qed.
End Merge.

(** * Removal *)
Section Remove.
  Context {A : Type}.
  Variable a : option nat.
  Let clean (p : patch A) : bool := negb (is_patch a p).

  Lemma trim_some : forall r r', trim a r = Some r' -> exists d y q, r = d ++ r' /\ r' = y :: q /\ clean y = true /\ List.filter clean d = [].
  Proof.
    induction r as [|p r IH]; intros r' Q; [discriminate|]. cbn [trim] in Q. destruct (is_patch a p) eqn:E.
    - destruct (IH r' Q) as (d & y & q & H1 & H2 & H3 & H4). exists (p :: d), y, q. split; [rewrite H1; reflexivity|]. split; [exact H2|]. split; [exact H3|].
      cbn [List.filter]. unfold clean at 1. rewrite E. exact H4.
    - injection Q as <-. exists [], p, r. split; [reflexivity|]. split; [reflexivity|]. split; [unfold clean; rewrite E; reflexivity|reflexivity].
  Qed.
  Lemma trim_none : forall r, trim a r = None <-> List.filter clean r = [].
  Proof.
    induction r as [|p r IH]; [split; reflexivity|]. cbn [trim List.filter]. unfold clean at 1. destruct (is_patch a p); cbn [negb]; [exact IH|]. split; discriminate.
  Qed.
  Lemma filter_rev (l : list (patch A)) : List.filter clean (rev l) = rev (List.filter clean l).
  Proof.
    induction l as [|x r IH]; [reflexivity|]. cbn [rev List.filter]. rewrite List.filter_app, IH. cbn [List.filter]. destruct (clean x); [reflexivity|apply app_nil_r].
  Qed.
  Lemma pop_some l l' : pop_while a l = Some l' -> exists d q y, l = l' ++ d /\ l' = q ++ [y] /\ clean y = true /\ List.filter clean d = [].
  Proof.
    unfold pop_while. destruct (trim a (rev l)) as [r|] eqn:E; [|discriminate]. intros Q. injection Q as <-.
    destruct (trim_some _ _ E) as (d & y & q & H1 & H2 & H3 & H4). exists (rev d), (rev q), y. split; [|split; [|split]].
    - rewrite <- rev_app_distr, <- H1, rev_involutive. reflexivity.
    - rewrite H2. reflexivity.
    - exact H3.
    - rewrite filter_rev, H4. reflexivity.
  Qed.
  Lemma pop_none l : pop_while a l = None <-> List.filter clean l = [].
  Proof.
    unfold pop_while. rewrite <- (rev_involutive (List.filter clean l)), <- filter_rev. destruct (trim a (rev l)) as [r|] eqn:E.
    - split; [discriminate|]. intros H. destruct (List.filter clean (rev l)) eqn:F; [|cbn [rev] in H; destruct (app_cons_not_nil _ _ _ (eq_sym H))].
      apply trim_none in F. congruence.
    - split; [|reflexivity]. intros _. apply trim_none in E. rewrite E. reflexivity.
  Qed.

  Lemma sweep_ok : forall fuel i l, length l <= i + fuel -> i <= length l -> (forall k p, k < i -> nth_error l k = Some p -> clean p = true) ->
    (exists q y, l = q ++ [y] /\ clean y = true) -> exists l', sweep fuel a i l = Some l' /\ Permutation l' (List.filter clean l).
  Proof.
    induction fuel as [|k IH]; intros i l Le Li Pre (q & y & L & Y).
    - assert (i = length l) by lia. subst i. exists l. cbn [sweep]. rewrite Nat.eqb_refl. split; [reflexivity|].
      assert (F : List.filter clean l = l).
      { clear - Pre. assert (H : forall p, In p l -> clean p = true).
        { intros p Hp. destruct (In_nth_error _ _ Hp) as (n & E). apply (Pre n p); [apply nth_error_Some; congruence|exact E]. }
        clear Pre. induction l as [|x r IHl]; [reflexivity|]. cbn [List.filter]. rewrite (H x (or_introl eq_refl)). f_equal. apply IHl. intros p Hp. apply H. right. exact Hp. }
      rewrite F. apply Permutation_refl.
    - cbn [sweep]. destruct (nth_error l i) as [p|] eqn:E.
      2:{ apply nth_error_None in E. assert (i = length l) by lia. subst i. rewrite Nat.eqb_refl. exists l. split; [reflexivity|].
          assert (F : List.filter clean l = l).
          { clear - Pre. assert (H : forall p, In p l -> clean p = true).
            { intros p Hp. destruct (In_nth_error _ _ Hp) as (n & E). apply (Pre n p); [apply nth_error_Some; congruence|exact E]. }
            clear Pre. induction l as [|x r IHl]; [reflexivity|]. cbn [List.filter]. rewrite (H x (or_introl eq_refl)). f_equal. apply IHl. intros p Hp. apply H. right. exact Hp. }
          rewrite F. apply Permutation_refl. }
      assert (Lt : i < length l) by (apply nth_error_Some; congruence).
      destruct (is_patch a p) eqn:P.
      + destruct (nth_error_split l i E) as (pre & post & Spl & Lp).
        assert (Post : exists post', post = post' ++ [y]).
        { destruct (@exists_last _ (p :: post)) as (m & z & M); [discriminate|]. assert (Z : pre ++ m ++ [z] = q ++ [y]) by (rewrite <- M, <- Spl; exact L).
          rewrite app_assoc in Z. destruct (app_inj_tail _ _ _ _ Z) as (_ & ->). destruct m as [|m0 m']; cbn [List.app] in M; injection M as M1 M2.
          - subst p. unfold clean in Y. rewrite P in Y. discriminate.
          - exists m'. exact M2. }
        destruct Post as (post' & ->). assert (Rv : rev l = y :: rev q) by (rewrite L, rev_app_distr; reflexivity). rewrite Rv.
        assert (New : removelast (firstn i l ++ y :: skipn (S i) l) = pre ++ y :: post').
        { rewrite Spl, <- Lp. rewrite firstn_app, firstn_all, Nat.sub_diag. cbn [firstn]. rewrite app_nil_r.
          replace (skipn (S (length pre)) (pre ++ p :: post' ++ [y])) with (post' ++ [y]).
          2:{ rewrite skipn_app. rewrite (skipn_all2 pre) by lia. replace (S (length pre) - length pre) with 1 by lia. reflexivity. }
          change (pre ++ y :: post' ++ [y]) with (pre ++ (y :: post') ++ [y]). rewrite app_assoc, removelast_last. reflexivity. }
        rewrite New. destruct (pop_while a (pre ++ y :: post')) as [l1|] eqn:W.
        2:{ apply pop_none in W. rewrite List.filter_app in W. cbn [List.filter] in W. rewrite Y in W. destruct (app_cons_not_nil _ _ _ (eq_sym W)). }
        destruct (pop_some _ _ W) as (d & q' & y' & D & L1 & Y' & Fd).
        assert (In1 : length pre < length l1).
        { destruct (Nat.lt_ge_cases (length pre) (length l1)) as [X|X]; [exact X|exfalso].
          assert (Z : nth_error (l1 ++ d) (length pre) = Some y) by (rewrite <- D, nth_error_app2, Nat.sub_diag by lia; reflexivity).
          rewrite nth_error_app2 in Z by exact X. apply nth_error_In in Z. assert (List.In y (List.filter clean d)) by (apply filter_In; split; assumption). rewrite Fd in H. destruct H. }
        assert (Len : length l1 <= length pre + S (length post')) by (assert (X : length (pre ++ y :: post') = length (l1 ++ d)) by (rewrite D; reflexivity); rewrite !app_length in X; cbn [length] in X; lia).
        assert (Ll : length l = length pre + S (S (length post'))) by (rewrite Spl, !app_length; cbn [length]; rewrite app_length; cbn [length]; lia).
        destruct (IH (S i) l1) as (l' & Q' & Pm).
        * lia.
        * lia.
        * intros n z Hn Hz. assert (Z : nth_error (pre ++ y :: post') n = Some z) by (rewrite D, nth_error_app1 by (apply nth_error_Some; congruence); exact Hz).
          destruct (Nat.eq_dec n i) as [-> | Ne].
          -- rewrite <- Lp, nth_error_app2, Nat.sub_diag in Z by lia. injection Z as <-. exact Y.
          -- apply (Pre n z); [lia|]. rewrite Spl. rewrite nth_error_app1 in Z |- * by lia. exact Z.
        * exists q', y'. split; assumption.
        * exists l'. split; [exact Q'|]. eapply Permutation_trans; [exact Pm|].
          assert (X : List.filter clean l1 = List.filter clean (pre ++ y :: post')) by (rewrite D, List.filter_app, Fd, app_nil_r; reflexivity).
          rewrite X, Spl, !List.filter_app. cbn [List.filter]. rewrite Y. unfold clean at 4. rewrite P. cbn [negb]. rewrite List.filter_app. cbn [List.filter]. rewrite Y.
          apply Permutation_app_head. apply Permutation_cons_append.
      + destruct (IH (S i) l) as (l' & Q' & Pm); [lia|lia| |exists q, y; split; assumption|exists l'; split; assumption].
        intros n z Hn Hz. destruct (Nat.eq_dec n i) as [-> | Ne]; [|apply (Pre n z); [lia|exact Hz]]. rewrite E in Hz. injection Hz as <-. unfold clean. rewrite P. reflexivity.
  Qed.

  Lemma remove_ok l : List.filter clean l <> [] -> exists l', removeData a l = Some l' /\ Permutation l' (List.filter clean l).
  Proof.
    intros H. unfold removeData. destruct (pop_while a l) as [l1|] eqn:W; [|apply pop_none in W; contradiction].
    destruct (pop_some _ _ W) as (d & q & y & D & L1 & Y & Fd). destruct (sweep_ok (length l1) 0 l1) as (l' & Q & P); [lia|lia|intros k p Hk; lia|exists q, y; split; assumption|].
    exists l'. split; [exact Q|]. rewrite D, List.filter_app, Fd, app_nil_r. exact P.
  Qed.
  Lemma remove_none l : List.filter clean l = [] -> removeData a l = None.
  Proof. intros H. unfold removeData. rewrite (proj2 (pop_none l) H). reflexivity. Qed.
End Remove.

(** * Values *)
Lemma max_fold : forall r v, In (fold_left (merge_scalar OMax) r v) (v :: r) /\ forall y, In y (v :: r) -> (y <= fold_left (merge_scalar OMax) r v)%R.
Proof.
  induction r as [|x r IH]; intros v; cbn [fold_left]; [split; [left; reflexivity|intros y [<- | []]; lra]|].
  destruct (IH (merge_scalar OMax v x)) as (I & B). assert (M : (v <= merge_scalar OMax v x /\ x <= merge_scalar OMax v x /\ (merge_scalar OMax v x = v \/ merge_scalar OMax v x = x))%R).
  { unfold merge_scalar. destruct (Rlt_dec v x) as [H|H]; repeat split; try lra; auto. }
  destruct M as (M1 & M2 & M3). pose proof (B _ (or_introl eq_refl)) as B0. split.
  - destruct I as [I | I]; [|right; right; exact I]. rewrite <- I. destruct M3 as [-> | ->]; [left; reflexivity|right; left; reflexivity].
  - intros y [<- | [<- | H]]; [lra|lra|apply B; right; exact H].
Qed.
Lemma min_fold : forall r v, In (fold_left (merge_scalar OMin) r v) (v :: r) /\ forall y, In y (v :: r) -> (fold_left (merge_scalar OMin) r v <= y)%R.
Proof.
  induction r as [|x r IH]; intros v; cbn [fold_left]; [split; [left; reflexivity|intros y [<- | []]; lra]|].
  destruct (IH (merge_scalar OMin v x)) as (I & B). assert (M : (merge_scalar OMin v x <= v /\ merge_scalar OMin v x <= x /\ (merge_scalar OMin v x = v \/ merge_scalar OMin v x = x))%R).
  { unfold merge_scalar. destruct (Rlt_dec x v) as [H|H]; repeat split; try lra; auto. }
  destruct M as (M1 & M2 & M3). pose proof (B _ (or_introl eq_refl)) as B0. split.
  - destruct I as [I | I]; [|right; right; exact I]. rewrite <- I. destruct M3 as [-> | ->]; [left; reflexivity|right; left; reflexivity].
  - intros y [<- | [<- | H]]; [lra|lra|apply B; right; exact H].
Qed.
Lemma sum_fold : forall r v, fold_left Rplus r v = (v + total r)%R.
Proof. induction r as [|x r IH]; intros v; cbn [fold_left total]; [lra|]. rewrite IH. lra. Qed.
Lemma scalar_outcome o vs : scalar_blend o vs (outcome (merge_scalar o) (fun x n => x / INR n)%R 0%R o vs).
Proof.
  destruct vs as [|v r]; [reflexivity|]. cbn [scalar_blend outcome]. destruct o.
  - apply max_fold.
  - apply min_fold.
  - change (merge_scalar OAvg) with Rplus. rewrite sum_fold. cbn [length total]. field. apply not_0_INR. discriminate.
  - change (merge_scalar OSum) with Rplus. rewrite sum_fold. reflexivity.
Qed.

Lemma longest_fold : forall r v, exists l q, v :: r = l ++ fold_left (merge_vector OMax) r v :: q /\
  (forall y, In y l -> (norm y < norm (fold_left (merge_vector OMax) r v))%R) /\ (forall y, In y q -> (norm y <= norm (fold_left (merge_vector OMax) r v))%R).
Proof.
  induction r as [|x r IH] using rev_ind; intros v; [exists [], []; split; [reflexivity|]; split; intros y []|].
  rewrite fold_left_app. cbn [fold_left]. destruct (IH v) as (l & q & E & Hl & Hq). set (m := fold_left (merge_vector OMax) r v) in *. unfold merge_vector.
  destruct (Rlt_dec (norm m) (norm x)) as [H|H].
  - exists (v :: r), []. split; [reflexivity|]. split; [|intros y []]. intros y Hy. rewrite E in Hy. apply in_app_iff in Hy. destruct Hy as [Hy | [<- | Hy]]; [specialize (Hl y Hy); lra|exact H|specialize (Hq y Hy); lra].
  - exists l, (q ++ [x]). split; [rewrite app_comm_cons, E, <- app_assoc; reflexivity|]. split; [exact Hl|]. intros y Hy. apply in_app_iff in Hy. destruct Hy as [Hy | [<- | []]]; [exact (Hq y Hy)|lra].
Qed.
Lemma shortest_fold : forall r v, exists l q, v :: r = l ++ fold_left (merge_vector OMin) r v :: q /\
  (forall y, In y l -> (norm (fold_left (merge_vector OMin) r v) < norm y)%R) /\ (forall y, In y q -> (norm (fold_left (merge_vector OMin) r v) <= norm y)%R).
Proof.
  induction r as [|x r IH] using rev_ind; intros v; [exists [], []; split; [reflexivity|]; split; intros y []|].
  rewrite fold_left_app. cbn [fold_left]. destruct (IH v) as (l & q & E & Hl & Hq). set (m := fold_left (merge_vector OMin) r v) in *. unfold merge_vector.
  destruct (Rlt_dec (norm x) (norm m)) as [H|H].
  - exists (v :: r), []. split; [reflexivity|]. split; [|intros y []]. intros y Hy. rewrite E in Hy. apply in_app_iff in Hy. destruct Hy as [Hy | [<- | Hy]]; [specialize (Hl y Hy); lra|exact H|specialize (Hq y Hy); lra].
  - exists l, (q ++ [x]). split; [rewrite app_comm_cons, E, <- app_assoc; reflexivity|]. split; [exact Hl|]. intros y Hy. apply in_app_iff in Hy. destruct Hy as [Hy | [<- | []]]; [exact (Hq y Hy)|lra].
Qed.
Lemma vsum_fold : forall r v, fold_left vadd r v = V3 (total (map vx (v :: r))) (total (map vy (v :: r))) (total (map vz (v :: r))).
Proof.
  induction r as [|x r IH]; intros v; cbn [fold_left].
  - destruct v. cbn. f_equal; lra.
  - rewrite IH. cbn [map total vadd vx vy vz]. f_equal; lra.
Qed.
Lemma vector_outcome o vs : vector_blend o vs (outcome (merge_vector o) (fun x n => V3 (vx x / INR n) (vy x / INR n) (vz x / INR n))%R (V3 0 0 0) o vs).
Proof.
  destruct vs as [|v r]; [reflexivity|]. cbn [vector_blend outcome]. destruct o.
  - apply longest_fold.
  - apply shortest_fold.
  - change (merge_vector OAvg) with vadd. rewrite vsum_fold. unfold vscale. cbn [vx vy vz length].
    f_equal; field; apply not_0_INR; discriminate.
  - change (merge_vector OSum) with vadd. rewrite vsum_fold. reflexivity.
Qed.

(** * Order of the fields *)
Lemma collects_in A mesh loc id : forall (l : list (patch A)) vs, collects mesh loc id l vs -> forall v, In v vs -> exists p, In p l /\ In (id, v) (p_data p).
Proof. induction 1 as [|p v ps vs C D _ IH|p ps vs C _ IH]; intros w; [intros []| |]. 
  - intros [<- | H]; [exists p; split; [left; reflexivity|exact D]|]. destruct (IH w H) as (q & Hq & Dq). exists q. split; [right; exact Hq|exact Dq].
  - intros H. destruct (IH w H) as (q & Hq & Dq). exists q. split; [right; exact Hq|exact Dq].
Qed.
Lemma collects_fun A mesh loc id : forall (l : list (patch A)) vs ws, Forall (patch_ok mesh) l -> collects mesh loc id l vs -> collects mesh loc id l ws -> vs = ws.
Proof.
  intros l vs ws O C. revert ws. induction C as [|p v ps vs Cv D C IH|p ps vs Cv C IH]; intros ws C'; inversion C' as [E1 E2|q w qs us Cv' D' C'' E1 E2|q qs us Cv' C'' E1 E2]; try reflexivity; try contradiction.
  - destruct (proj1 (Forall_cons_iff _ _ _) O) as ((N & _) & Or). f_equal; [|apply IH; assumption].
    apply (find_iff _ _ _ _ N) in D. apply (find_iff _ _ _ _ N) in D'. congruence.
  - apply IH; [|assumption]. apply (proj1 (Forall_cons_iff _ _ _) O).
Qed.
Lemma collects_perm A mesh loc id : forall l l' : list (patch A), Permutation l l' -> forall vs, collects mesh loc id l vs -> exists ws, collects mesh loc id l' ws /\ Permutation vs ws.
Proof.
  induction 1 as [|p l l' P IH|p q l|l l1 l2 P1 IH1 P2 IH2]; intros vs C.
  - exists vs. split; [exact C|apply Permutation_refl].
  - inversion C as [E1 E2|p0 v ps us Cv D C' E1 E2|p0 ps us Cv C' E1 E2].
    + destruct (IH us C') as (ws & Cw & Pw). exists (v :: ws). split; [apply c_has; assumption|apply perm_skip; exact Pw].
    + destruct (IH vs C') as (ws & Cw & Pw). exists ws. split; [apply c_skip; assumption|exact Pw].
  - inversion C as [E1 E2|p0 v ps us Cv D C' E1 E2|p0 ps us Cv C' E1 E2]; inversion C' as [E3 E4|p1 v1 ps1 us1 Cv1 D1 C1 E3 E4|p1 ps1 us1 Cv1 C1 E3 E4].
    + exists (v1 :: v :: us1). split; [apply c_has; try assumption; apply c_has; assumption|apply perm_swap].
    + exists (v :: us). split; [apply c_skip; try assumption; apply c_has; assumption|apply Permutation_refl].
    + exists (v1 :: us1). split; [apply c_has; try assumption; apply c_skip; assumption|apply Permutation_refl].
    + exists vs. split; [apply c_skip; try assumption; apply c_skip; assumption|apply Permutation_refl].
  - destruct (IH1 vs C) as (ws & Cw & Pw). destruct (IH2 ws Cw) as (us & Cu & Pu). exists us. split; [exact Cu|exact (Permutation_trans Pw Pu)].
Qed.
Lemma total_perm l l' : Permutation l l' -> total l = total l'.
Proof. induction 1; cbn [total]; lra. Qed.
Lemma scalar_blend_perm o vs ws x y : Permutation vs ws -> scalar_blend o vs x -> scalar_blend o ws y -> x = y.
Proof.
  intros P. destruct vs as [|v r].
  - apply Permutation_nil in P. subst ws. cbn. congruence.
  - destruct ws as [|w q]; [apply Permutation_sym, Permutation_nil in P; discriminate|]. pose proof (total_perm _ _ P) as T. pose proof (Permutation_length P) as L.
    unfold scalar_blend. destruct o.
    + intros (I & B) (I' & B'). apply Rle_antisym; [apply B'; apply (Permutation_in _ P); exact I|apply B; apply (Permutation_in _ (Permutation_sym P)); exact I'].
    + intros (I & B) (I' & B'). apply Rle_antisym; [apply B; apply (Permutation_in _ (Permutation_sym P)); exact I'|apply B'; apply (Permutation_in _ P); exact I].
    + intros E E'. rewrite <- T, L in *. assert (N : INR (length (w :: q)) <> 0%R) by (apply not_0_INR; discriminate). apply (Rmult_eq_reg_r (INR (length (w :: q)))); [congruence|exact N].
    + congruence.
Qed.
