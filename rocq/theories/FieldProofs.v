(** Proofs about fields. *)
From Coq Require Import List Arith Bool Lia Sorted Permutation.
From Verif Require Import SharedPtr SharedPtrProofs Field FieldSpec.
Import ListNotations.

Lemma in_existsb : forall id l, existsb (Nat.eqb id) l = true <-> In id l.
Proof.
  intros id l. rewrite existsb_exists. split.
  - intros [x [H E]]. apply Nat.eqb_eq in E. subst. exact H.
  - intros H. exists id. split; [exact H|apply Nat.eqb_refl].
Qed.

Section Lists.
  Context {A : Type}.
  Implicit Types l d : list (nat * A).

  Lemma exists_in : forall id l, exists_id id l = true <-> In id (map fst l).
  Proof.
    intros id l. unfold exists_id. destruct (find id l) as [v|] eqn:E.
    - split; [intros _; exact (find_in_keys _ _ _ E)|reflexivity].
    - apply find_none_keys in E. split; [discriminate|intros H; destruct (E H)].
  Qed.
  Lemma exists_not : forall id l, exists_id id l = false <-> ~ In id (map fst l).
  Proof.
    intros id l. rewrite <- exists_in. destruct (exists_id id l); split; intros H; try discriminate; auto.
    destruct (H eq_refl).
  Qed.
  Lemma find_app : forall id l l', find id (l ++ l') = match find id l with Some v => Some v | None => find id l' end.
  Proof.
    induction l as [|[k v] r IH]; intros l'; simpl; [reflexivity|]. destruct (Nat.eqb k id); auto.
  Qed.
  Lemma nodup_snoc : forall (l : list nat) x, NoDup l -> ~ In x l -> NoDup (l ++ [x]).
  Proof.
    intros l x N H. apply (Permutation_NoDup (l := x :: l)); [apply Permutation_cons_append|constructor; assumption].
  Qed.

  Lemma fill_ok : forall ids v l, NoDup (map fst l) ->
    exists l', fill ids v l = Some l' /\ NoDup (map fst l') /\
      (forall id, find id l' = match find id l with Some x => Some x | None => if existsb (Nat.eqb id) ids then Some v else None end).
  Proof.
    induction ids as [|i r IH]; intros v l N; cbn [fill existsb].
    - exists l. split; [reflexivity|]. split; [exact N|]. intros id. destruct (find id l); reflexivity.
    - destruct (exists_id i l) eqn:E.
      + destruct (IH v l N) as [l' [F [N' H]]]. exists l'. split; [exact F|]. split; [exact N'|].
        intros id. rewrite H. destruct (find id l) as [x|] eqn:Fi; [reflexivity|].
        destruct (Nat.eqb id i) eqn:Ei; [|reflexivity].
        apply Nat.eqb_eq in Ei. subst i. unfold exists_id in E. rewrite Fi in E. discriminate.
      + unfold insert. rewrite E.
        assert (N1 : NoDup (map fst (l ++ [(i, v)]))).
        { rewrite map_app. simpl. apply nodup_snoc; [exact N|]. apply exists_not. exact E. }
        destruct (IH v _ N1) as [l' [F [N' H]]]. exists l'. split; [exact F|]. split; [exact N'|].
        intros id. rewrite H, find_app. destruct (find id l) as [x|]; [reflexivity|].
        simpl. rewrite (Nat.eqb_sym i id). destruct (Nat.eqb id i); [reflexivity|reflexivity].
  Qed.

  Lemma insert_all_ok : forall ids v l, NoDup (map fst l ++ ids) ->
    insert_all ids v l = Some (l ++ map (fun id => (id, v)) ids).
  Proof.
    induction ids as [|i r IH]; intros v l N; cbn [insert_all map].
    - rewrite app_nil_r. reflexivity.
    - unfold insert. replace (exists_id i l) with false.
      + rewrite IH; [rewrite <- app_assoc; reflexivity|]. rewrite map_app, <- app_assoc. exact N.
      + symmetry. apply exists_not. intros H. apply NoDup_remove_2 in N. apply N. apply in_or_app. left. exact H.
  Qed.

  Lemma find_const : forall ids (v : A) id, find id (map (fun i => (i, v)) ids) = if existsb (Nat.eqb id) ids then Some v else None.
  Proof.
    induction ids as [|i r IH]; intros v id; simpl; [reflexivity|]. rewrite (Nat.eqb_sym i id).
    destruct (Nat.eqb id i); simpl; [reflexivity|apply IH].
  Qed.

  Lemma get_from_ok : forall strict d l n, NoDup (map fst l) -> NoDup (map fst d) ->
    exists l' m, get_from d strict l n = Some (l', m) /\ NoDup (map fst l') /\
      (forall id, find id l' = match find id d with
                               | Some v => if exists_id id l || negb strict then Some v else None
                               | None => find id l
                               end) /\
      m = n + length (List.filter (fun e => exists_id (fst e) l || negb strict) d).
  Proof.
    intros strict. induction d as [|[i v] r IH]; intros l n N M; cbn [get_from find].
    - exists l, n. split; [reflexivity|]. split; [exact N|]. split; [reflexivity|]. simpl. lia.
    - simpl in M. apply NoDup_cons_iff in M. destruct M as [Mi M].
      assert (Fr : find i r = None) by (apply find_none_keys; exact Mi).
      cbn [List.filter fst]. destruct (exists_id i l) eqn:E.
      + assert (N1 : NoDup (map fst (set i v l))) by (apply nodup_set; exact N).
        destruct (IH (set i v l) (S n) N1 M) as [l' [m [F [N' [H Hm]]]]].
        exists l', m. split; [exact F|]. split; [exact N'|].
        assert (X : forall id, exists_id id (set i v l) = exists_id id l).
        { intros id. unfold exists_id. rewrite find_set. destruct (Nat.eqb i id) eqn:Ei; [|reflexivity].
          apply Nat.eqb_eq in Ei. subst id. unfold exists_id in E. destruct (find i l); [reflexivity|discriminate]. }
        split.
        * intros id. rewrite H, X, find_set. destruct (Nat.eqb i id) eqn:Ei.
          -- apply Nat.eqb_eq in Ei. subst id. rewrite Fr, E. reflexivity.
          -- reflexivity.
        * simpl. rewrite Hm. rewrite (filter_ext _ _ (fun e => f_equal2 orb (X (fst e)) eq_refl)). simpl. lia.
      + destruct strict.
        * destruct (IH l n N M) as [l' [m [F [N' [H Hm]]]]]. exists l', m. split; [exact F|]. split; [exact N'|].
          split; [|exact Hm]. intros id. rewrite H. destruct (Nat.eqb i id) eqn:Ei; [|reflexivity].
          apply Nat.eqb_eq in Ei. subst id. rewrite Fr, E. simpl. unfold exists_id in E.
          destruct (find i l); [discriminate|reflexivity].
        * unfold insert. rewrite E.
          assert (N1 : NoDup (map fst (l ++ [(i, v)]))).
          { rewrite map_app. simpl. apply nodup_snoc; [exact N|]. apply exists_not. exact E. }
          destruct (IH _ (S n) N1 M) as [l' [m [F [N' [H Hm]]]]]. exists l', m. split; [exact F|]. split; [exact N'|].
          split.
          -- intros id. rewrite H, find_app. simpl. destruct (Nat.eqb i id) eqn:Ei.
             ++ apply Nat.eqb_eq in Ei. subst id. rewrite Fr. rewrite orb_true_r.
                unfold exists_id in E. destruct (find i l); [discriminate|reflexivity].
             ++ rewrite !orb_true_r. destruct (find id r); [reflexivity|]. destruct (find id l); reflexivity.
          -- simpl. rewrite Hm. rewrite (filter_ext _ (fun _ => true)) by (intros; apply orb_true_r).
             rewrite (filter_ext (fun e => exists_id (fst e) l || true) (fun _ => true)) by (intros; apply orb_true_r). lia.
  Qed.

  Lemma copy_kept_ok : forall ids d acc, NoDup (map fst acc ++ map fst d) ->
    copy_kept ids d acc = Some (acc ++ List.filter (fun e => existsb (Nat.eqb (fst e)) ids) d).
  Proof.
    intros ids. induction d as [|[i v] r IH]; intros acc N; cbn [copy_kept List.filter fst].
    - rewrite app_nil_r. reflexivity.
    - simpl in N. destruct (existsb (Nat.eqb i) ids).
      + unfold insert. replace (exists_id i acc) with false.
        * rewrite IH; [rewrite <- app_assoc; reflexivity|]. rewrite map_app, <- app_assoc. exact N.
        * symmetry. apply exists_not. intros H. apply NoDup_remove_2 in N. apply N. apply in_or_app. left. exact H.
      + apply IH. apply NoDup_remove_1 in N. exact N.
  Qed.

  Definition picked (d : list (nat * A)) (id : nat) : list (nat * A) := match find id d with Some v => [(id, v)] | None => [] end.
  Lemma pick_ok : forall d ids acc, NoDup (map fst acc ++ ids) ->
    pick ids d acc = Some (acc ++ flat_map (picked d) ids).
  Proof.
    intros d. induction ids as [|i r IH]; intros acc N; cbn [pick flat_map].
    - rewrite app_nil_r. reflexivity.
    - unfold picked at 1. destruct (find i d) as [v|].
      + unfold insert. replace (exists_id i acc) with false.
        * rewrite IH; [rewrite <- app_assoc; reflexivity|]. rewrite map_app, <- app_assoc. exact N.
        * symmetry. apply exists_not. intros H. apply NoDup_remove_2 in N. apply N. apply in_or_app. left. exact H.
      + apply IH. apply NoDup_remove_1 in N. exact N.
  Qed.
  Lemma find_picked : forall d ids id, find id (flat_map (picked d) ids) = if existsb (Nat.eqb id) ids then find id d else None.
  Proof.
    intros d. induction ids as [|i r IH]; intros id; cbn [flat_map existsb]; [reflexivity|].
    rewrite find_app, IH. unfold picked. rewrite (Nat.eqb_sym id i). destruct (find i d) as [v|] eqn:F; simpl.
    - destruct (Nat.eqb i id) eqn:E; simpl; [|reflexivity]. apply Nat.eqb_eq in E. subst. symmetry. exact F.
    - destruct (Nat.eqb i id) eqn:E; simpl; [|reflexivity]. apply Nat.eqb_eq in E. subst. rewrite F.
      destruct (existsb _ r); reflexivity.
  Qed.
  Lemma picked_keys : forall d ids, map fst (flat_map (picked d) ids) = List.filter (fun id => exists_id id d) ids.
  Proof.
    intros d. induction ids as [|i r IH]; cbn [flat_map List.filter]; [reflexivity|].
    rewrite map_app, IH. unfold picked, exists_id. destruct (find i d); reflexivity.
  Qed.
  Lemma pick_dup : forall d ids acc i, In i (map fst acc) -> In i ids -> find i d <> None -> pick ids d acc = None.
  Proof.
    intros d. induction ids as [|j r IH]; intros acc i Ha Hi F; [destruct Hi|]. cbn [pick].
    destruct (find j d) as [v|] eqn:Fj.
    - unfold insert. destruct (exists_id j acc) eqn:E; [reflexivity|].
      destruct Hi as [Hi|Hi]; [subst j; apply exists_in in Ha; congruence|].
      apply (IH _ i); [|exact Hi|exact F]. rewrite map_app. apply in_or_app. left. exact Ha.
    - destruct Hi as [Hi|Hi]; [subst j; congruence|]. apply (IH _ i); assumption.
  Qed.
End Lists.

Lemma find_filter_key : forall A (p : nat -> bool) id (d : list (nat * A)),
  find id (List.filter (fun e => p (fst e)) d) = if p id then find id d else None.
Proof.
  intros A p id d. induction d as [|[k v] r IH]; simpl; [destruct (p id); reflexivity|].
  destruct (p k) eqn:P; simpl; destruct (Nat.eqb k id) eqn:E; try exact IH.
  - apply Nat.eqb_eq in E. subst. rewrite P. reflexivity.
  - apply Nat.eqb_eq in E. subst. rewrite P in *. exact IH.
Qed.

Lemma filter_sublist : forall B (p : B -> bool) l, sublist (List.filter p l) l.
Proof. induction l as [|x r IH]; simpl; [constructor|]. destruct (p x); constructor; exact IH. Qed.

Lemma nodup_filter_keys : forall A (p : nat * A -> bool) d, NoDup (map fst d) -> NoDup (map fst (List.filter p d)).
Proof. intros. apply nodup_filter. assumption. Qed.

(** Pigeonhole: distinct ids all in a list of the same length fill it. *)
Lemma pigeon : forall (l l' : list nat), NoDup l -> incl l l' -> length l' <= length l -> incl l' l.
Proof. intros l l' N I L. apply NoDup_length_incl; assumption. Qed.

Lemma loc_ids_elements : forall g l, loc_ids g l = elements_of g l.
Proof. intros g []; reflexivity. Qed.

Section FieldFacts.
  Context {A : Type}.
  Implicit Types f : mpv A.

  Lemma value_in : forall f id, value f id <> None <-> In id (map fst (f_data f)).
  Proof.
    intros f id. unfold value. split; intros H.
    - destruct (find id (f_data f)) as [v|] eqn:E; [exact (find_in_keys _ _ _ E)|destruct (H eq_refl)].
    - intros E. apply find_none_keys in E. exact (E H).
  Qed.

  Lemma elements_undef : forall f, f_loc f = LUndef -> elements f = [].
  Proof. intros f L. unfold elements. rewrite L. destruct (f_geo f); reflexivity. Qed.

  Lemma check_ids_iff : forall f, check_ids f = true <-> f_geo f <> None /\ coherent f.
  Proof.
    intros f. unfold check_ids. destruct (f_geo f) as [g|] eqn:G.
    2:{ split; [discriminate|]. intros [H _]. destruct (H eq_refl). }
    assert (E : elements f = loc_ids g (f_loc f)) by (unfold elements; rewrite G; reflexivity).
    assert (C : coherent f <-> incl (map fst (f_data f)) (loc_ids g (f_loc f))).
    { unfold coherent. rewrite E. split; intros H id K; apply H; apply value_in; exact K. }
    rewrite C. destruct (f_data f) as [|e d] eqn:D.
    - split; [intros _; split; [discriminate|intros x []]|reflexivity].
    - assert (B : forallb (fun id => existsb (Nat.eqb id) (loc_ids g (f_loc f))) (map fst (e :: d)) = true <->
                  incl (map fst (e :: d)) (loc_ids g (f_loc f))).
      { rewrite forallb_forall. split; intros H x Hx; apply in_existsb; apply H; exact Hx. }
      destruct (f_loc f) eqn:L.
      1:{ split; [discriminate|]. intros [_ H]. destruct (H (fst e)). simpl. left. reflexivity. }
      all: rewrite B; split; [intros H; split; [discriminate|exact H]|intros [_ H]; exact H].
  Qed.

  Lemma field_nodup_elements : forall f, field_ok f -> NoDup (elements f).
  Proof.
    intros f [_ H]. unfold elements. destruct (f_geo f) as [g|]; [|constructor].
    destruct H as [H1 [H2 H3]]. destruct (f_loc f); simpl; [constructor|assumption|assumption|assumption].
  Qed.

  Lemma check_size_iff : forall f, check_size f = true <->
    f_geo f <> None /\ f_loc f <> LUndef /\ length (f_data f) = length (elements f).
  Proof.
    intros f. unfold check_size, elements. destruct (f_geo f) as [g|].
    2:{ split; [discriminate|]. intros [H _]. destruct (H eq_refl). }
    destruct (f_loc f) eqn:L.
    1:{ split; [discriminate|]. intros [_ [H _]]. destruct (H eq_refl). }
    all: rewrite Nat.eqb_eq; split; [intros H; split; [discriminate|split; [discriminate|exact H]]|intros [_ [_ H]]; exact H].
  Qed.

  Lemma full_complete : forall f, field_ok f -> coherent f -> length (f_data f) = length (elements f) -> complete f.
  Proof.
    intros f [N _] C L id H. apply value_in.
    apply (pigeon _ (elements f)); [exact N| |rewrite map_length; lia|exact H].
    intros x Hx. apply C. apply value_in. exact Hx.
  Qed.
  Lemma complete_full : forall f, field_ok f -> coherent f -> complete f -> length (f_data f) = length (elements f).
  Proof.
    intros f O C K. rewrite <- (map_length fst). apply Nat.le_antisymm; apply NoDup_incl_length.
    - exact (proj1 O).
    - intros x Hx. apply C. apply value_in. exact Hx.
    - apply field_nodup_elements. exact O.
    - intros x Hx. apply value_in. apply K. exact Hx.
  Qed.

  Lemma complete_missing_spec : forall (v : A) f, field_ok f ->
    exists f' b, complete_missing v f = Some (f', b) /\ same_header f f' /\ field_ok f' /\
      (b = true <-> f_geo f <> None /\ coherent f) /\
      (b = false -> f' = f) /\
      (b = true -> coherent f' /\ complete f' /\
         forall id, value f' id = match value f id with
                                  | Some x => Some x
                                  | None => if existsb (Nat.eqb id) (elements f) then Some v else None
                                  end).
  Proof.
    intros v f O. unfold complete_missing. destruct (check_ids f) eqn:I; cbn [negb].
    - pose proof (proj1 (check_ids_iff f) I) as [G C]. destruct (check_size f) eqn:S.
      + pose proof (proj1 (check_size_iff f) S) as [_ [_ L]].
        exists f, true. split; [reflexivity|]. split; [split; [|split]; reflexivity|]. split; [exact O|].
        split; [tauto|]. split; [discriminate|]. intros _. split; [exact C|].
        pose proof (full_complete _ O C L) as K. split; [exact K|]. intros id.
        destruct (value f id) eqn:V; [reflexivity|]. destruct (existsb (Nat.eqb id) (elements f)) eqn:B; [|reflexivity].
        apply in_existsb in B. destruct (K _ B V).
      + destruct (fill_ok (geometry_ids f false) v (f_data f) (proj1 O)) as [l' [F [N' H]]]. rewrite F.
        exists (with_data l' f), true. split; [reflexivity|].
        assert (Ge : geometry_ids f false = elements f) by reflexivity. rewrite Ge in H.
        split; [split; [|split]; reflexivity|]. split; [split; [exact N'|exact (proj2 O)]|].
        split; [tauto|]. split; [discriminate|]. intros _.
        assert (El : elements (with_data l' f) = elements f) by reflexivity.
        split; [|split].
        * intros id K. rewrite El. unfold value in K. simpl in K. rewrite H in K.
          destruct (find id (f_data f)) eqn:V; [apply C; unfold value; rewrite V; discriminate|].
          destruct (existsb (Nat.eqb id) (elements f)) eqn:B; [apply in_existsb; exact B|destruct (K eq_refl)].
        * intros id K. rewrite El in K. unfold value. simpl. rewrite H. apply in_existsb in K. rewrite K.
          destruct (find id (f_data f)); discriminate.
        * intros id. unfold value. simpl. apply H.
    - exists f, false. split; [reflexivity|]. split; [split; [|split]; reflexivity|]. split; [exact O|].
      split.
      + split; [discriminate|]. intros H. apply check_ids_iff in H. congruence.
      + split; [reflexivity|discriminate].
  Qed.

  Lemma get_data_from_spec : forall f (other : mpv A) strict, field_ok f -> field_ok other ->
    exists f' n, get_data_from f other strict = Some (f', n) /\ same_header f f' /\ field_ok f' /\
      (forall id, value f' id =
         match value other id, value f id with
         | Some v, Some _ => Some v
         | Some v, None => if strict then None else Some v
         | None, x => x
         end) /\
      n = length (List.filter (fun id => negb strict || exists_id id (f_data f)) (map fst (f_data other))).
  Proof.
    intros f other strict O O'. unfold get_data_from.
    destruct (get_from_ok strict (f_data other) (f_data f) 0 (proj1 O) (proj1 O')) as [l' [m [F [N' [H Hm]]]]].
    rewrite F. exists (with_data l' f), m. split; [reflexivity|]. split; [split; [|split]; reflexivity|].
    split; [split; [exact N'|exact (proj2 O)]|]. split.
    - intros id. unfold value. simpl. rewrite H. unfold exists_id.
      destruct (find id (f_data other)), (find id (f_data f)), strict; reflexivity.
    - rewrite Hm. simpl. clear. induction (f_data other) as [|[i v] r IH]; simpl; [reflexivity|].
      rewrite orb_comm. destruct (negb strict || exists_id i (f_data f)); simpl; rewrite IH; reflexivity.
  Qed.

  Lemma squeeze_order : forall ids f, field_ok f ->
    exists f', squeeze_out_except ids true f = Some f' /\ same_header f f' /\ field_ok f' /\
      (forall id, value f' id = if existsb (Nat.eqb id) ids then value f id else None) /\
      sublist (f_data f') (f_data f).
  Proof.
    intros ids f O. unfold squeeze_out_except. rewrite copy_kept_ok by exact (proj1 O). simpl.
    eexists. split; [reflexivity|]. split; [split; [|split]; reflexivity|].
    split; [split; [apply nodup_filter_keys; exact (proj1 O)|exact (proj2 O)]|]. split.
    - intros id. unfold value. simpl. apply (find_filter_key _ (fun k => existsb (Nat.eqb k) ids)).
    - apply filter_sublist.
  Qed.

  Lemma squeeze_free : forall ids f, field_ok f -> NoDup ids ->
    exists f', squeeze_out_except ids false f = Some f' /\ same_header f f' /\ field_ok f' /\
      (forall id, value f' id = if existsb (Nat.eqb id) ids then value f id else None) /\
      sublist (map fst (f_data f')) ids.
  Proof.
    intros ids f O N. unfold squeeze_out_except. rewrite pick_ok by exact N. simpl.
    eexists. split; [reflexivity|]. split; [split; [|split]; reflexivity|].
    split; [split; [|exact (proj2 O)]|].
    - simpl. rewrite picked_keys. apply NoDup_filter. exact N.
    - split.
      + intros id. unfold value. simpl. apply find_picked.
      + simpl. rewrite picked_keys. apply filter_sublist.
  Qed.

  Lemma squeeze_dup : forall l1 i l2 l3 f, NoDup l1 -> ~ In i l1 -> value f i <> None ->
    squeeze_out_except (l1 ++ i :: l2 ++ i :: l3) false f = None.
  Proof.
    intros l1 i l2 l3 f N Ni V. unfold squeeze_out_except.
    enough (H : forall acc, NoDup (map fst acc ++ l1) -> ~ In i (map fst acc) ->
              pick (l1 ++ i :: l2 ++ i :: l3) (f_data f) acc = None).
    { rewrite (H []); [reflexivity|exact N|intros []]. }
    clear N. induction l1 as [|j r IH]; intros acc N Na.
    - cbn [app pick]. unfold value in V. destruct (find i (f_data f)) as [v|] eqn:F; [|destruct (V eq_refl)].
      unfold insert. replace (exists_id i acc) with false by (symmetry; apply exists_not; exact Na).
      apply (pick_dup _ _ _ i); [rewrite map_app; apply in_or_app; right; left; reflexivity| |rewrite F; discriminate].
      apply in_or_app. right. left. reflexivity.
    - cbn [app pick]. destruct (find j (f_data f)) as [v|] eqn:F.
      + unfold insert. destruct (exists_id j acc) eqn:E; [reflexivity|].
        apply IH.
        * intros H. apply Ni. right. exact H.
        * rewrite map_app, <- app_assoc. exact N.
        * rewrite map_app. intros H. apply in_app_or in H. destruct H as [H|[H|[]]]; [exact (Na H)|].
          simpl in H. subst j. apply Ni. left. reflexivity.
      + apply IH; [intros H; apply Ni; right; exact H|apply NoDup_remove_1 in N; exact N|exact Na].
  Qed.

  Lemma resize_spec : forall f, field_ok f ->
    f_geo (resize_coherent f) = f_geo f /\ f_loc (resize_coherent f) = f_loc f /\
    coherent (resize_coherent f) /\ sublist (f_data (resize_coherent f)) (f_data f) /\
    (forall id, In id (elements f) -> value (resize_coherent f) id = value f id).
  Proof.
    intros f O. unfold resize_coherent. destruct (f_geo f) as [g|] eqn:G.
    - cbn [f_geo f_loc f_data]. split; [reflexivity|]. split; [reflexivity|].
      assert (E : elements f = loc_ids g (f_loc f)) by (unfold elements; rewrite G; reflexivity).
      set (d := match f_loc f with LUndef => [] | l => List.filter (fun e => existsb (Nat.eqb (fst e)) (loc_ids g l)) (f_data f) end).
      assert (D : d = List.filter (fun e => existsb (Nat.eqb (fst e)) (loc_ids g (f_loc f))) (f_data f)).
      { unfold d. destruct (f_loc f); try reflexivity. simpl. induction (f_data f); [reflexivity|assumption]. }
      change ((match f_loc f with LUndef => [] | l => List.filter (fun e => existsb (Nat.eqb (fst e)) (loc_ids g l)) (f_data f) end)) with d.
      clearbody d. subst d.
      split; [|split].
      + intros id V. unfold value in V. cbn [f_data] in V.
        rewrite (find_filter_key _ (fun k => existsb (Nat.eqb k) (loc_ids g (f_loc f)))) in V.
        unfold elements. cbn [f_geo f_loc]. destruct (existsb (Nat.eqb id) (loc_ids g (f_loc f))) eqn:B;
          [apply in_existsb; exact B|destruct (V eq_refl)].
      + apply filter_sublist.
      + intros id H. unfold value. cbn [f_data].
        rewrite (find_filter_key _ (fun k => existsb (Nat.eqb k) (loc_ids g (f_loc f)))).
        rewrite E in H. apply in_existsb in H. rewrite H. reflexivity.
    - simpl. split; [reflexivity|]. split; [reflexivity|]. split; [intros id V; destruct (V eq_refl)|].
      split; [|unfold elements; rewrite G; intros id []]. induction (f_data f); constructor; assumption.
  Qed.

  Lemma initialize_spec : forall g l (v : A) f, geom_ok g -> l <> LUndef ->
    exists f', initialize (Some g) l v f = InitDone f' /\ f_geo f' = Some g /\ f_loc f' = l /\ field_ok f' /\
      map fst (f_data f') = elements_of g l /\ (forall id, In id (elements_of g l) -> value f' id = Some v).
  Proof.
    intros g l v f O L.
    assert (N : NoDup (loc_ids g l)) by (destruct O as [? [? ?]]; destruct l; [constructor|assumption|assumption|assumption]).
    unfold initialize. rewrite (insert_all_ok (loc_ids g l) v []) by exact N. simpl app.
    exists {| f_geo := Some g; f_loc := l; f_name := data_name; f_data := map (fun id => (id, v)) (loc_ids g l) |}.
    assert (M : map fst (map (fun id => (id, v)) (loc_ids g l)) = loc_ids g l) by (rewrite map_map; apply map_id).
    split; [destruct l; [destruct (L eq_refl)|reflexivity|reflexivity|reflexivity]|].
    split; [reflexivity|]. split; [reflexivity|]. split; [split; [cbn [f_data]; rewrite M; exact N|exact O]|].
    split; [exact M|]. intros id H. unfold value. cbn [f_data]. rewrite find_const, loc_ids_elements. apply in_existsb in H. rewrite H. reflexivity.
  Qed.

  (** * Reading as vectors *)
  Lemma ins_perm : forall n l, Permutation (n :: l) (ins n l).
  Proof.
    induction l as [|m r IH]; simpl; [apply Permutation_refl|]. destruct (n <=? m); [apply Permutation_refl|].
    eapply Permutation_trans; [apply perm_swap|]. apply perm_skip. exact IH.
  Qed.
  Lemma sort_perm : forall l, Permutation l (sort l).
  Proof.
    induction l as [|n r IH]; simpl; [constructor|]. eapply Permutation_trans; [apply perm_skip; exact IH|apply ins_perm].
  Qed.
  Lemma ins_sorted : forall n l, StronglySorted le l -> StronglySorted le (ins n l).
  Proof.
    intros n l S. induction S as [|m r S IH F]; simpl; [repeat constructor|].
    destruct (Nat.leb_spec n m).
    - constructor; [constructor; assumption|]. constructor; [exact H|].
      eapply Forall_impl; [|exact F]. intros a Ha. lia.
    - constructor; [exact IH|]. apply (Permutation_Forall (ins_perm n r)). constructor; [lia|exact F].
  Qed.
  Lemma sort_sorted : forall l, StronglySorted le (sort l).
  Proof. induction l as [|n r IH]; simpl; [constructor|]. apply ins_sorted. exact IH. Qed.
  Lemma get_ids_perm : forall o l, Permutation l (get_ids o l).
  Proof. intros [] l; [apply sort_perm|apply Permutation_refl]. Qed.

  Lemma opt_map : forall (F : nat -> option A) ids, (forall id, In id ids -> F id <> None) ->
    map Some (flat_map (fun id => match F id with Some v => [v] | None => [] end) ids) = map F ids.
  Proof.
    induction ids as [|i r IH]; intros H; simpl; [reflexivity|].
    destruct (F i) as [v|] eqn:E; [|destruct (H i (or_introl eq_refl) E)]. simpl. rewrite IH; [reflexivity|].
    intros id Hi. apply H. right. exact Hi.
  Qed.

  Lemma vector_spec : forall f ordered, complete f ->
    exists ids, Permutation (elements f) ids /\ (ordered = true -> StronglySorted le ids) /\
      (ordered = false -> ids = elements f) /\ map Some (data_as_vector f ordered) = map (value f) ids.
  Proof.
    intros f ordered C. exists (get_ids ordered (elements f)). split; [apply get_ids_perm|].
    split; [intros ->; apply sort_sorted|]. split; [intros ->; reflexivity|].
    assert (G : geometry_ids f ordered = get_ids ordered (elements f)).
    { unfold geometry_ids, elements. destruct (f_geo f); [reflexivity|]. destruct ordered; reflexivity. }
    unfold data_as_vector. rewrite G.
    apply (opt_map (fun id => find id (f_data f))). intros id H. apply C.
    apply (Permutation_in _ (Permutation_sym (get_ids_perm ordered (elements f)))). exact H.
  Qed.

  Lemma opt_map_filter : forall (F : nat -> option A) (keep : nat -> bool) ids, (forall id, In id ids -> F id <> None) ->
    map Some (flat_map (fun id => match F id with Some v => if keep id then [v] else [] | None => [] end) ids) = map F (List.filter keep ids).
  Proof.
    induction ids as [|i r IH]; intros H; simpl; [reflexivity|].
    destruct (F i) as [v|] eqn:E; [|destruct (H i (or_introl eq_refl) E)].
    rewrite map_app, IH by (intros id Hi; apply H; right; exact Hi).
    destruct (keep i); simpl; [rewrite E; reflexivity|reflexivity].
  Qed.
  Lemma internal_spec : forall g f ordered, complete f -> f_geo f = Some g ->
    exists ids keep, Permutation (elements f) ids /\ (ordered = true -> StronglySorted le ids) /\
      (ordered = false -> ids = elements f) /\
      map Some (internal_data f ordered) = map (value f) (List.filter keep ids) /\
      forall id, keep id = true <-> internal_element g (f_loc f) id.
  Proof.
    intros g f ordered C G. exists (get_ids ordered (elements f)).
    exists (match f_loc f with
            | LCell => fun id => g_interior g id
            | LPoint => fun id => existsb (fun c => g_interior g (fst c) && existsb (Nat.eqb id) (snd c)) (g_cells g)
            | _ => fun _ => true
            end).
    split; [apply get_ids_perm|].
    split; [intros ->; apply sort_sorted|]. split; [intros ->; reflexivity|]. split.
    - assert (E : geometry_ids f ordered = get_ids ordered (elements f)).
      { unfold geometry_ids, elements. destruct (f_geo f); [reflexivity|]. destruct ordered; reflexivity. }
      unfold internal_data. rewrite E, G.
      apply (opt_map_filter (fun id => find id (f_data f))). intros id H. apply C.
      apply (Permutation_in _ (Permutation_sym (get_ids_perm ordered (elements f)))). exact H.
    - intros id. destruct (f_loc f); simpl; try tauto. rewrite existsb_exists. split.
      + intros [[c vs] [I H]]. apply andb_true_iff in H. destruct H as [Hc Hv]. exists c, vs.
        split; [exact I|]. split; [exact Hc|]. apply in_existsb. exact Hv.
      + intros [c [vs [I [Hc Hv]]]]. exists (c, vs). split; [exact I|]. simpl. rewrite Hc. apply in_existsb. exact Hv.
  Qed.

  Lemma raw_spec : forall f ordered, field_ok f ->
    exists ids, Permutation (map fst (f_data f)) ids /\ (ordered = true -> StronglySorted le ids) /\
      (ordered = false -> ids = map fst (f_data f)) /\ map Some (raw_data f ordered) = map (value f) ids.
  Proof.
    intros f ordered O. exists (get_ids ordered (map fst (f_data f))). split; [apply get_ids_perm|].
    split; [intros ->; apply sort_sorted|]. split; [intros ->; reflexivity|].
    unfold raw_data. apply (opt_map (fun id => find id (f_data f))). intros id H. apply value_in.
    apply (Permutation_in _ (Permutation_sym (get_ids_perm ordered _))). exact H.
  Qed.

  Lemma combine_fst : forall (d : list A) k, map fst (combine (seq k (length d)) d) = seq k (length d).
  Proof. induction d as [|x r IH]; intros k; simpl; [reflexivity|]. rewrite IH. reflexivity. Qed.
  Lemma set_data_value : forall (d : list A) f id, value (set_data d f) id = nth_error d id.
  Proof.
    intros d f id. unfold set_data, value. cbn [f_data with_data].
    enough (H : forall k, find (k + id) (combine (seq k (length d)) d) = nth_error d id) by apply (H 0).
    revert id. induction d as [|x r IH]; intros id k; simpl; [destruct id; reflexivity|].
    destruct id as [|id].
    - rewrite Nat.add_0_r, Nat.eqb_refl. reflexivity.
    - replace (Nat.eqb k (k + S id)) with false by (symmetry; apply Nat.eqb_neq; lia).
      replace (k + S id) with (S k + id) by lia. apply IH.
  Qed.
  Lemma set_data_ok : forall (d : list A) f, field_ok f -> field_ok (set_data d f).
  Proof. intros d f O. split; [|exact (proj2 O)]. simpl. rewrite combine_fst. apply seq_NoDup. Qed.
  Lemma find_combine : forall (d : list A) k e, In e (combine (seq k (length d)) d) -> fst e >= k.
  Proof.
    induction d as [|x r IH]; intros k e H; [destruct H|]. simpl in H. destruct H as [H|H]; [subst e; simpl; lia|].
    specialize (IH _ _ H). lia.
  Qed.
  Lemma raw_set_data : forall (d : list A) f, raw_data (set_data d f) false = d.
  Proof.
    intros d f.
    assert (H : map Some (raw_data (set_data d f) false) = map Some d).
    { unfold raw_data. cbn [get_ids].
      rewrite (opt_map (fun id => find id (f_data (set_data d f)))).
      - cbn [set_data f_data with_data]. rewrite combine_fst.
        change (map (value (set_data d f)) (seq 0 (length d)) = map Some d).
        rewrite (map_ext _ (nth_error d)) by (intros; apply set_data_value).
        clear. induction d as [|x r IH]; simpl; [reflexivity|]. f_equal. rewrite <- seq_shift, map_map. exact IH.
      - intros id H. apply value_in. exact H. }
    revert H. generalize (raw_data (set_data d f) false). clear. intros l. revert d.
    induction l as [|x r IH]; intros [|y d] H; simpl in H; try discriminate; [reflexivity|].
    injection H as -> H. f_equal. apply IH. exact H.
  Qed.
End FieldFacts.
