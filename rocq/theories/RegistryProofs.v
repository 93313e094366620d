(** Proofs of C18, C19, C44, C45. *)
From Coq Require Import List Arith Bool Lia Permutation.
From Verif Require Import SharedPtr SharedPtrSpec SharedPtrProofs Registry RegistrySpec.
Import ListNotations.

(** * PortManager *)
Lemma find_app : forall A k (l1 l2 : list (nat * A)), find k (l1 ++ l2) = match find k l1 with Some v => Some v | None => find k l2 end.
Proof.
  induction l1 as [|[j x] l1 IH]; simpl; intros; auto. destruct (Nat.eqb j k); auto.
Qed.

Lemma cons_app : forall A (id : A -> nat) l k v, consecutive id l -> find k l = None -> id v = length l ->
  consecutive id (l ++ [(k, v)]).
Proof.
  intros A id l k v [N E] F I. split.
  - rewrite map_app. simpl. apply (Permutation_NoDup (Permutation_cons_append (map fst l) k)).
    constructor; auto. now apply find_none_keys in F.
  - rewrite map_app, app_length, seq_app, E. simpl. now rewrite I.
Qed.

Lemma add_id_cons : forall k l, consecutive (fun x => x) l -> consecutive (fun x => x) (add_id k l).
Proof.
  intros k l H. unfold add_id. destruct (find k l) eqn:E; auto. apply cons_app; auto.
Qed.

Definition good (r : registry) : Prop :=
  consecutive p_id (ports r) /\ consecutive (fun x => x) (containers r) /\ consecutive (fun x => x) (datatypes r).

Lemma add_good : forall d r c r' i, good r -> add_port d r c = Some (r', i) -> good r'.
Proof.
  intros d r c r' i (P & C & D) H. unfold add_port in H. destruct (find (c_name c) (ports r)) eqn:F.
  - destruct (d && _); [discriminate|]. injection H as <- <-. repeat split; assumption || apply P || apply C || apply D.
  - injection H as <- <-. split; [|split]; simpl.
    + apply cons_app; auto.
    + now apply add_id_cons.
    + now apply add_id_cons.
Qed.

Lemma register_good : forall d h r r' l, good r -> register d r h = Some (r', l) -> good r'.
Proof.
  induction h as [|c h IH]; simpl; intros r r' l G H; [congruence|].
  destruct (add_port d r c) as [[r1 i]|] eqn:E; [|discriminate].
  destruct (register d r1 h) as [[r2 l2]|] eqn:E2; [|discriminate]. injection H as <- <-.
  exact (IH _ _ _ (add_good _ _ _ _ _ G E) E2).
Qed.

Lemma new_good : good new_registry.
Proof. repeat split; constructor. Qed.

(** Tables only grow. *)
Definition extends {A} (l l' : list (nat * A)) : Prop := exists e, l' = l ++ e.
Lemma extends_trans : forall A (a b c : list (nat * A)), extends a b -> extends b c -> extends a c.
Proof. intros A a b c [x ->] [y ->]. exists (x ++ y). now rewrite app_assoc. Qed.
Lemma extends_refl : forall A (a : list (nat * A)), extends a a.
Proof. intros. exists []. now rewrite app_nil_r. Qed.
Lemma extends_find : forall A k v (a b : list (nat * A)), extends a b -> find k a = Some v -> find k b = Some v.
Proof. intros A k v a b [x ->] F. now rewrite find_app, F. Qed.
Lemma add_id_ext : forall k l, extends l (add_id k l).
Proof. intros. unfold add_id. destruct (find k l); [apply extends_refl|]. eexists. reflexivity. Qed.

Definition grows (r r' : registry) : Prop :=
  extends (ports r) (ports r') /\ extends (containers r) (containers r') /\ extends (datatypes r) (datatypes r').
Lemma grows_trans : forall a b c, grows a b -> grows b c -> grows a c.
Proof. intros a b c (A & B & C) (D & E & F). repeat split; eapply extends_trans; eauto. Qed.
Lemma add_grows : forall d r c r' i, add_port d r c = Some (r', i) -> grows r r'.
Proof.
  intros d r c r' i H. unfold add_port in H. destruct (find (c_name c) (ports r)) eqn:F.
  - destruct (d && _); [discriminate|]. injection H as <- <-. repeat split; apply extends_refl.
  - injection H as <- <-. split; [|split]; simpl; [eexists; reflexivity|apply add_id_ext|apply add_id_ext].
Qed.
Lemma register_grows : forall d h r r' l, register d r h = Some (r', l) -> grows r r'.
Proof.
  induction h as [|c h IH]; simpl; intros r r' l H.
  - injection H as <- <-. repeat split; apply extends_refl.
  - destruct (add_port d r c) as [[r1 i]|] eqn:E; [|discriminate].
    destruct (register d r1 h) as [[r2 l2]|] eqn:E2; [|discriminate]. injection H as <- <-.
    eapply grows_trans; [eapply add_grows; eauto|eauto].
Qed.

Lemma register_app : forall d h1 h2 r, register d r (h1 ++ h2) =
  match register d r h1 with
  | None => None
  | Some (r1, l1) => match register d r1 h2 with None => None | Some (r2, l2) => Some (r2, l1 ++ l2) end
  end.
Proof.
  induction h1 as [|c h1 IH]; simpl; intros h2 r.
  - destruct (register d r h2) as [[r2 l2]|]; reflexivity.
  - destruct (add_port d r c) as [[r1 i]|]; [|reflexivity]. rewrite IH.
    destruct (register d r1 h1) as [[r2 l2]|]; [|reflexivity].
    destruct (register d r2 h2) as [[r3 l3]|]; reflexivity.
Qed.

(** What is recorded for each name. *)
Definition recorded (i : info) (c : call) : Prop := p_con i = c_con c /\ p_dat i = c_dat c /\ p_file i = c_file c.

Lemma register_ports : forall d h r r' l, register d r h = Some (r', l) ->
  forall n, match find n (ports r) with
            | Some i => find n (ports r') = Some i
            | None => match first_call n h with
                      | Some c => exists i, find n (ports r') = Some i /\ recorded i c
                      | None => find n (ports r') = None
                      end
            end.
Proof.
  induction h as [|c h IH]; simpl; intros r r' l H n.
  - injection H as <- <-. destruct (find n (ports r)) eqn:E; auto.
  - destruct (add_port d r c) as [[r1 i]|] eqn:E; [|discriminate].
    destruct (register d r1 h) as [[r2 l2]|] eqn:E2; [|discriminate]. injection H as <- <-.
    specialize (IH _ _ _ E2 n).
    destruct (find n (ports r)) as [i0|] eqn:F.
    + rewrite (extends_find _ _ _ _ _ (proj1 (add_grows _ _ _ _ _ E)) F) in IH. exact IH.
    + unfold add_port in E. destruct (find (c_name c) (ports r)) as [j|] eqn:G.
      * destruct (d && _); [discriminate|]. injection E as <- <-. rewrite F in IH.
        destruct (Nat.eqb_spec (c_name c) n); [congruence|]. exact IH.
      * injection E as <- <-. simpl in IH. rewrite find_app, F in IH. simpl in IH.
        destruct (Nat.eqb_spec (c_name c) n); [|exact IH].
        eexists. split; [exact IH|]. repeat split.
Qed.

Lemma add_id_in : forall k l x, In x (map fst (add_id k l)) <-> x = k \/ In x (map fst l).
Proof.
  intros k l x. unfold add_id. destruct (find k l) eqn:E.
  - split; [auto|]. intros [->|H]; auto. now apply find_in_keys in E.
  - rewrite map_app, in_app_iff. simpl. intuition.
Qed.

Lemma register_names : forall d h r r' l, register d r h = Some (r', l) ->
  forall x,
  (In x (map fst (containers r')) <-> In x (map fst (containers r)) \/
     exists c, In c h /\ find (c_name c) (ports r) = None /\ first_call (c_name c) h = Some c /\ c_con c = x) /\
  (In x (map fst (datatypes r')) <-> In x (map fst (datatypes r)) \/
     exists c, In c h /\ find (c_name c) (ports r) = None /\ first_call (c_name c) h = Some c /\ c_dat c = x).
Proof.
  induction h as [|c h IH]; simpl; intros r r' l H x.
  - injection H as <- <-. split; (split; [auto|intros [A|(c & [] & _)]; exact A]).
  - destruct (add_port d r c) as [[r1 i]|] eqn:E; [|discriminate].
    destruct (register d r1 h) as [[r2 l2]|] eqn:E2; [|discriminate]. injection H as <- <-.
    destruct (IH _ _ _ E2 x) as [IHc IHd]. rewrite IHc, IHd. clear IHc IHd IH.
    unfold add_port in E. destruct (find (c_name c) (ports r)) as [j|] eqn:G.
    + destruct (d && _); [discriminate|]. injection E as <- <-.
      assert (X : forall P : call -> Prop, (exists c0, In c0 h /\ find (c_name c0) (ports r) = None /\ first_call (c_name c0) h = Some c0 /\ P c0) <->
        (exists c0, (c = c0 \/ In c0 h) /\ find (c_name c0) (ports r) = None /\ (if c_name c =? c_name c0 then Some c else first_call (c_name c0) h) = Some c0 /\ P c0)).
      { intros P. split.
        - intros (c0 & A & B & C & D). exists c0. split; auto. split; auto. split; auto.
          destruct (Nat.eqb_spec (c_name c) (c_name c0)); [congruence|auto].
        - intros (c0 & [->|A] & B & C & D); [congruence|]. exists c0. split; auto. split; auto. split; auto.
          destruct (Nat.eqb_spec (c_name c) (c_name c0)) as [e|e]; [congruence|auto]. }
      rewrite (X (fun c => c_con c = x)), (X (fun c => c_dat c = x)). tauto.
    + injection E as <- <-. simpl. rewrite !add_id_in.
      assert (X : forall P : call -> Prop, P c \/ (exists c0, In c0 h /\ find (c_name c0) (ports r ++ [(c_name c, {| p_id := length (ports r); p_con := c_con c; p_dat := c_dat c; p_file := c_file c |})]) = None /\ first_call (c_name c0) h = Some c0 /\ P c0) <->
        (exists c0, (c = c0 \/ In c0 h) /\ find (c_name c0) (ports r) = None /\ (if c_name c =? c_name c0 then Some c else first_call (c_name c0) h) = Some c0 /\ P c0)).
      { intros P. split.
        - intros [A|(c0 & A & B & C & D)].
          + exists c. split; auto. split; auto. rewrite Nat.eqb_refl. auto.
          + rewrite find_app in B. destruct (find (c_name c0) (ports r)) eqn:Q; [discriminate|].
            simpl in B. destruct (Nat.eqb_spec (c_name c) (c_name c0)) as [e|e]; [discriminate|].
            exists c0. split; auto. split; auto. destruct (Nat.eqb_spec (c_name c) (c_name c0)); [congruence|auto].
        - intros (c0 & A & B & C & D). destruct (Nat.eqb_spec (c_name c) (c_name c0)) as [e|e].
          + injection C as <-. auto.
          + right. destruct A as [->|A]; [congruence|]. exists c0. split; auto. split; auto.
            rewrite find_app, B. simpl. destruct (Nat.eqb_spec (c_name c) (c_name c0)); [congruence|auto]. }
      pose proof (X (fun c => c_con c = x)) as X1. pose proof (X (fun c => c_dat c = x)) as X2. simpl in X1, X2.
      rewrite <- X1, <- X2. clear. intuition.
Qed.

(** The value returned by each call is the id of the port. *)
Lemma register_returns : forall d h r r' l, register d r h = Some (r', l) ->
  length l = length h /\
  forall k c i, nth_error h k = Some c -> nth_error l k = Some i ->
    exists f, find (c_name c) (ports r') = Some f /\ p_id f = i.
Proof.
  induction h as [|c h IH]; simpl; intros r r' l H.
  - injection H as <- <-. split; auto. intros [|k] c i; discriminate.
  - destruct (add_port d r c) as [[r1 i]|] eqn:E; [|discriminate].
    destruct (register d r1 h) as [[r2 l2]|] eqn:E2; [|discriminate]. injection H as <- <-.
    destruct (IH _ _ _ E2) as [L R]. split; [simpl; congruence|].
    intros [|k] c' i' A B; simpl in *; [|eauto]. injection A as <-. injection B as <-.
    assert (X : exists f, find (c_name c) (ports r1) = Some f /\ p_id f = i).
    { unfold add_port in E. destruct (find (c_name c) (ports r)) as [j|] eqn:G.
      - destruct (d && _); [discriminate|]. injection E as <- <-. eauto.
      - injection E as <- <-. simpl. rewrite find_app, G. simpl. rewrite Nat.eqb_refl. eexists. split; reflexivity. }
    destruct X as (f & X1 & X2). exists f. split; auto.
    eapply extends_find; [exact (proj1 (register_grows _ _ _ _ _ E2))|exact X1].
Qed.

(** The debug build stops exactly at a conflicting registration; the release build never. *)
Lemma register_release : forall h r, exists x, register false r h = Some x.
Proof.
  induction h as [|c h IH]; simpl; intros r; [eauto|].
  unfold add_port. destruct (find (c_name c) (ports r)) eqn:F; simpl.
  - destruct (IH r) as [[r2 l] ->]. eauto.
  - match goal with |- context[register false ?r1 h] => destruct (IH r1) as [[r2 l] ->] end. eauto.
Qed.

Lemma first_in : forall n h c, first_call n h = Some c -> In c h /\ c_name c = n.
Proof.
  induction h as [|x h IH]; simpl; [discriminate|]. intros c. destruct (Nat.eqb_spec (c_name x) n).
  - intros [= <-]. auto.
  - intros H. destruct (IH _ H). auto.
Qed.

Lemma register_debug : forall h r,
  (exists x, register true r h = Some x) <->
  (forall c, In c h -> match find (c_name c) (ports r) with
                       | Some i => p_con i = c_con c /\ p_dat i = c_dat c
                       | None => match first_call (c_name c) h with
                                 | Some c0 => c_con c0 = c_con c /\ c_dat c0 = c_dat c
                                 | None => False
                                 end
                       end).
Proof.
  induction h as [|c h IH]; intros r.
  - split; [intros _ c []|]. intros _. simpl. eauto.
  - simpl register. unfold add_port. destruct (find (c_name c) (ports r)) as [i|] eqn:F.
    + destruct (true && negb ((p_con i =? c_con c) && (p_dat i =? c_dat c))) eqn:B.
      * split; [intros [x X]; discriminate|]. intros H. exfalso. specialize (H c (or_introl eq_refl)).
        rewrite F in H. destruct H as [H1 H2]. rewrite H1, H2, !Nat.eqb_refl in B. discriminate.
      * assert (X : (exists x, match register true r h with Some (r2, l) => Some (r2, p_id i :: l) | None => None end = Some x) <-> exists x, register true r h = Some x).
        { destruct (register true r h) as [[r2 l]|]; split; intros [x X]; eauto; discriminate. }
        rewrite X, IH. simpl in B. apply negb_false_iff, andb_true_iff in B. destruct B as [B1 B2].
        apply Nat.eqb_eq in B1, B2. split.
        -- intros H c' [<-|J]; [rewrite F; auto|]. specialize (H c' J).
           destruct (find (c_name c') (ports r)) eqn:Q; auto. simpl.
           destruct (Nat.eqb_spec (c_name c) (c_name c')); [congruence|auto].
        -- intros H c' J. specialize (H c' (or_intror J)). simpl in H.
           destruct (find (c_name c') (ports r)) eqn:Q; auto.
           destruct (Nat.eqb_spec (c_name c) (c_name c')); [congruence|auto].
    + set (r1 := {| ports := _; containers := _; datatypes := _ |}).
      assert (X : (exists x, match register true r1 h with Some (r2, l) => Some (r2, length (ports r) :: l) | None => None end = Some x) <-> exists x, register true r1 h = Some x).
      { destruct (register true r1 h) as [[r2 l]|]; split; intros [x X]; eauto; discriminate. }
      rewrite X, IH. clear X IH. unfold r1. simpl. split.
      * intros H c' [<-|J].
        -- rewrite F, Nat.eqb_refl. auto.
        -- specialize (H c' J). rewrite find_app in H. destruct (find (c_name c') (ports r)); auto.
           simpl in H. destruct (Nat.eqb (c_name c) (c_name c')); auto.
      * intros H c' J. specialize (H c' (or_intror J)). rewrite find_app.
        destruct (find (c_name c') (ports r)); auto. simpl.
        destruct (Nat.eqb (c_name c) (c_name c')); auto.
Qed.

Lemma registry_ok : forall debug h r ids, register debug new_registry h = Some (r, ids) ->
  consecutive p_id (ports r) /\ consecutive (fun x => x) (containers r) /\ consecutive (fun x => x) (datatypes r) /\
  (forall n, match first_call n h with
             | None => contains n (ports r) = false
             | Some c => exists i, find n (ports r) = Some i /\ p_con i = c_con c /\ p_dat i = c_dat c /\ p_file i = c_file c
             end) /\
  (forall x, In x (map fst (containers r)) <-> exists c, is_first h c /\ c_con c = x) /\
  (forall x, In x (map fst (datatypes r)) <-> exists c, is_first h c /\ c_dat c = x) /\
  length ids = length h /\
  (forall k c i, nth_error h k = Some c -> nth_error ids k = Some i ->
     exists f, find (c_name c) (ports r) = Some f /\ p_id f = i).
Proof.
  intros d h r ids H.
  destruct (register_good _ _ _ _ _ new_good H) as (A & B & C).
  destruct (register_returns _ _ _ _ _ H) as [L R].
  pose proof (register_ports _ _ _ _ _ H) as P. pose proof (register_names _ _ _ _ _ H) as N. simpl in P, N.
  split; [exact A|]. split; [exact B|]. split; [exact C|].
  split; [intros n; specialize (P n); destruct (first_call n h); [exact P|unfold contains; now rewrite P]|].
  split; [|split; [|split; [exact L|exact R]]].
  - intros x. destruct (N x) as [Nx _]. rewrite Nx. unfold is_first. split.
    + intros [[]|(c & I & _ & F & E)]. eauto.
    + intros (c & [I F] & E). right. eauto.
  - intros x. destruct (N x) as [_ Nx]. rewrite Nx. unfold is_first. split.
    + intros [[]|(c & I & _ & F & E)]. eauto.
    + intros (c & [I F] & E). right. eauto.
Qed.

Lemma registry_stable : forall debug h1 h2 r1 ids1 r2 ids2,
  register debug new_registry h1 = Some (r1, ids1) -> register debug new_registry (h1 ++ h2) = Some (r2, ids2) ->
  (forall n i, find n (ports r1) = Some i -> find n (ports r2) = Some i) /\
  (forall x i, find x (containers r1) = Some i -> find x (containers r2) = Some i) /\
  (forall x i, find x (datatypes r1) = Some i -> find x (datatypes r2) = Some i).
Proof.
  intros d h1 h2 r1 l1 r2 l2 H1 H2. rewrite register_app, H1 in H2.
  destruct (register d r1 h2) as [[r3 l3]|] eqn:E; [|discriminate]. injection H2 as <- <-.
  destruct (register_grows _ _ _ _ _ E) as (A & B & C).
  split; [|split]; intros; eapply extends_find; eauto.
Qed.

Lemma registry_debug : forall h, (exists x, register true new_registry h = Some x) <->
  (forall c c', In c h -> In c' h -> c_name c = c_name c' -> c_con c = c_con c' /\ c_dat c = c_dat c').
Proof.
  intros h. rewrite register_debug. simpl. split.
  - intros H c c' I I' E. pose proof (H c I) as A. pose proof (H c' I') as B. rewrite E in A.
    destruct (first_call (c_name c') h) as [c0|]; [|destruct A]. destruct A, B. split; congruence.
  - intros H c I. destruct (first_call (c_name c) h) as [c0|] eqn:F.
    + apply first_in in F. destruct F as [F1 F2]. apply (H c0 c); auto.
    + assert (X : forall m, first_call (c_name c) m = None -> ~ In c m).
      { induction m as [|y m IH]; simpl; auto. destruct (Nat.eqb_spec (c_name y) (c_name c)); [discriminate|].
        intros Q [->|J]; [congruence|]. now apply IH. }
      now apply (X h).
Qed.

(** * Factory *)
Record finv (f : factory) (h : list fop) : Prop := {
  fk : NoDup (map fst (creators f));
  fr : forall n, find n (creators f) = registered n h;
  fd : NoDup (deleted f);
  fi : forall n c, In (n, c) (creators f) -> In c (added h) /\ ~ In c (deleted f);
  fu : forall n n' c, In (n, c) (creators f) -> In (n', c) (creators f) -> n = n';
  fa : forall c, In c (deleted f) -> In c (added h);
  fl : forall c, In c (added h) -> In c (deleted f) \/ exists n, In (n, c) (creators f)
}.

Lemma registered_app : forall n h x, registered n (h ++ [x]) =
  match x with
  | AddCreator m c => if Nat.eqb m n then Some c else registered n h
  | RemoveCreator m => if Nat.eqb m n then None else registered n h
  | Create _ => registered n h
  end.
Proof. intros. unfold registered. rewrite fold_left_app. simpl. destruct x; reflexivity. Qed.

Lemma added_app : forall h x, added (h ++ [x]) = added h ++ match x with AddCreator _ c => [c] | _ => [] end.
Proof. intros. unfold added. rewrite flat_map_app. simpl. now rewrite app_nil_r. Qed.

Lemma existsb_eqb : forall c l, existsb (Nat.eqb c) l = true <-> In c l.
Proof.
  intros c l. rewrite existsb_exists. split.
  - intros (x & I & E). apply Nat.eqb_eq in E. now subst.
  - intros I. exists c. split; auto. apply Nat.eqb_refl.
Qed.
Lemma existsb_not : forall c l, ~ In c l -> existsb (Nat.eqb c) l = false.
Proof. intros c l N. apply not_true_is_false. rewrite existsb_eqb. exact N. Qed.

Lemma in_del : forall A n m (c : A) l, In (m, c) (del n l) <-> In (m, c) l /\ m <> n.
Proof.
  intros. unfold del. rewrite filter_In. simpl. rewrite negb_true_iff, Nat.eqb_neq. tauto.
Qed.

Lemma remove_inv : forall f h n, finv f h -> exists f', remove_creator n f = Some f' /\ finv f' (h ++ [RemoveCreator n]) /\
  find n (creators f') = None.
Proof.
  intros f h n I. unfold remove_creator. destruct (find n (creators f)) as [c|] eqn:F.
  - pose proof (find_in _ _ _ F) as J. destruct (fi _ _ I _ _ J) as [Ca Cd].
    unfold delete. rewrite (existsb_not _ _ Cd). eexists. split; [reflexivity|]. simpl. split.
    + constructor; simpl; rewrite ?added_app, ?app_nil_r.
      * apply nodup_filter, I.
      * intros m. rewrite find_del, registered_app. destruct (Nat.eqb n m); auto. apply I.
      * constructor; auto. apply I.
      * intros m c' K. apply in_del in K. destruct K as [K D]. destruct (fi _ _ I _ _ K) as [X Y]. split; auto.
        intros [<-|Z]; [|tauto]. apply D. exact (fu _ _ I _ _ _ K J).
      * intros m m' c' K K'. apply in_del in K, K'. exact (fu _ _ I _ _ _ (proj1 K) (proj1 K')).
      * intros c' [<-|K]; [auto|]. now apply (fa _ _ I).
      * intros c' K. destruct (fl _ _ I _ K) as [X|[m X]]; [left; now right|].
        destruct (Nat.eq_dec m n) as [->|D].
        -- left. left. apply in_find in X; [|apply I]. congruence.
        -- right. exists m. apply in_del. auto.
    + rewrite find_del, Nat.eqb_refl. reflexivity.
  - exists f. split; [reflexivity|]. split; [|exact F]. constructor; rewrite ?added_app, ?app_nil_r; try apply I.
    intros m. rewrite registered_app. destruct (Nat.eqb_spec n m) as [<-|D]; auto. apply I.
Qed.

Lemma add_inv : forall f h n c, finv f h -> ~ In c (added h) ->
  exists f' k, add_creator n c f = Some (f', k) /\ finv f' (h ++ [AddCreator n c]) /\ k = length (creators f') + 1.
Proof.
  intros f h n c I N. destruct (remove_inv f h n I) as (f1 & E & I1 & F1). unfold add_creator. rewrite E.
  eexists. eexists. split; [reflexivity|]. simpl. split; [|reflexivity].
  assert (Cn : ~ In c (added (h ++ [RemoveCreator n]))) by (rewrite added_app, app_nil_r; exact N).
  assert (IS : forall m c', In (m, c') (set n c (creators f1)) <-> (m = n /\ c' = c) \/ (m <> n /\ In (m, c') (creators f1))).
  { intros m c'. split.
    - intros J. apply in_find in J; [|apply nodup_set, I1]. rewrite find_set in J. destruct (Nat.eqb_spec n m) as [<-|D].
      + left. split; congruence.
      + right. split; auto. now apply find_in.
    - intros [[-> ->]|[D J]]; apply find_in; rewrite find_set.
      + now rewrite Nat.eqb_refl.
      + destruct (Nat.eqb_spec n m); [congruence|]. apply in_find; auto. apply I1. }
  pose proof I1 as I1'. destruct I1' as [K1 K2 K3 K4 K5 K6 K7]. rewrite added_app, app_nil_r in *.
  constructor; simpl; rewrite ?added_app.
  - now apply nodup_set.
  - intros m. rewrite find_set, registered_app. destruct (Nat.eqb_spec n m); auto.
    rewrite K2, registered_app. destruct (Nat.eqb_spec n m); [congruence|reflexivity].
  - exact K3.
  - intros m c' J. apply IS in J. destruct J as [[-> ->]|[D J]].
    + split; [apply in_app_iff; right; now left|]. intros X. apply N. auto.
    + destruct (K4 _ _ J). split; auto. apply in_app_iff. auto.
  - intros m m' c' J J'. apply IS in J, J'. destruct J as [[-> ->]|[D J]], J' as [[-> E']|[D' J']]; auto.
    + exfalso. apply N. apply (K4 _ _ J').
    + subst. exfalso. apply N. apply (K4 _ _ J).
    + eapply K5; eauto.
  - intros c' J. apply in_app_iff. left. auto.
  - intros c' J. apply in_app_iff in J. destruct J as [J|[<-|[]]].
    + destruct (K7 _ J) as [X|[m X]]; auto. right. exists m. apply IS. right. split; auto.
      intros ->. apply in_find in X; auto. congruence.
    + right. exists n. apply IS. auto.
Qed.

Lemma frun_app : forall h1 h2 f, frun f (h1 ++ h2) = match frun f h1 with None => None | Some f => frun f h2 end.
Proof. induction h1 as [|x h1 IH]; simpl; intros; auto. destruct (fstep f x); auto. Qed.

Lemma frun_inv : forall h, NoDup (added h) -> exists f, frun new_factory h = Some f /\ finv f h.
Proof.
  induction h as [|x h IH] using rev_ind; intros N.
  - exists new_factory. split; [reflexivity|]. constructor; simpl; try constructor; simpl; tauto.
  - rewrite added_app in N. assert (Nh : NoDup (added h)).
    { clear - N. induction (added h) as [|y l IHl]; [constructor|]. simpl in N. apply NoDup_cons_iff in N.
      destruct N as [A B]. constructor; auto. intros X. apply A, in_app_iff. auto. }
    destruct (IH Nh) as (f & E & I). rewrite frun_app, E. simpl. destruct x as [n c|n|n]; simpl.
    + assert (Nc : ~ In c (added h)).
      { apply NoDup_remove_2 with (l' := []) in N. now rewrite app_nil_r in N. }
      destruct (add_inv f h n c I Nc) as (f' & k & A & B & _). rewrite A. simpl. eauto.
    + destruct (remove_inv f h n I) as (f' & A & B & _). rewrite A. eauto.
    + unfold create. destruct (find n (creators f)) as [c|] eqn:F.
      * apply find_in in F. destruct (fi _ _ I _ _ F) as [_ D]. rewrite (existsb_not _ _ D).
        exists f. split; [reflexivity|]. destruct I. constructor; rewrite ?added_app, ?app_nil_r; auto.
        intros m. rewrite registered_app. auto.
      * exists f. split; [reflexivity|]. destruct I. constructor; rewrite ?added_app, ?app_nil_r; auto.
        intros m. rewrite registered_app. auto.
Qed.

Lemma factory_ok : forall h, NoDup (added h) -> exists f, frun new_factory h = Some f /\
  (forall n, create n f = Some (registered n h)) /\
  NoDup (registered_blocks f) /\
  (forall n, In n (registered_blocks f) <-> exists c, registered n h = Some c).
Proof.
  intros h N. destruct (frun_inv h N) as (f & E & I). exists f. split; [exact E|]. split; [|split].
  - intros n. unfold create. pose proof (fr _ _ I n) as R. destruct (find n (creators f)) as [c|] eqn:F.
    + apply find_in in F. destruct (fi _ _ I _ _ F) as [_ D]. rewrite (existsb_not _ _ D). congruence.
    + congruence.
  - apply I.
  - intros n. rewrite <- (fr _ _ I n). unfold registered_blocks. split.
    + intros J. destruct (find n (creators f)) eqn:F; eauto. apply find_none_keys in F. exfalso. now apply F.
    + intros [c F]. now apply find_in_keys in F.
Qed.

Lemma delete_all_ok : forall l f, NoDup l -> NoDup (deleted f) -> (forall c, In c l -> ~ In c (deleted f)) ->
  exists f', delete_all l f = Some f' /\ NoDup (deleted f') /\ forall c, In c (deleted f') <-> In c l \/ In c (deleted f).
Proof.
  induction l as [|c l IH]; simpl; intros f N D H.
  - exists f. split; auto. split; auto. intros; tauto.
  - apply NoDup_cons_iff in N. destruct N as [N1 N2]. unfold delete. rewrite existsb_not by (apply H; auto).
    destruct (IH {| creators := creators f; deleted := c :: deleted f |} N2) as (f' & E & D' & S).
    + simpl. constructor; auto.
    + simpl. intros x J [<-|K]; [tauto|]. apply (H x); auto.
    + exists f'. split; auto. split; auto. intros x. rewrite S. simpl. tauto.
Qed.

Lemma factory_deletes_once : forall h, NoDup (added h) -> exists f f', frun new_factory h = Some f /\
  NoDup (deleted f) /\
  (forall c, In c (deleted f) <-> In c (added h) /\ forall n, registered n h <> Some c) /\
  destroy_factory f = Some f' /\ NoDup (deleted f') /\ (forall c, In c (deleted f') <-> In c (added h)).
Proof.
  intros h N. destruct (frun_inv h N) as (f & E & I). exists f.
  assert (NV : NoDup (map snd (creators f))).
  { pose proof (fk _ _ I) as K. pose proof (fu _ _ I) as U. clear - K U.
    induction (creators f) as [|[n c] l IH]; simpl in *; [constructor|]. apply NoDup_cons_iff in K. destruct K as [K1 K2].
    constructor.
    - intros J. apply in_map_iff in J. destruct J as ([m c'] & X & J). simpl in X. subst c'.
      apply K1. rewrite (U n m c) by auto. apply in_map_iff. exists (m, c). auto.
    - apply IH; auto. intros; eapply U; eauto. }
  destruct (delete_all_ok (map snd (creators f)) f NV (fd _ _ I)) as (f' & E' & D' & S').
  { intros c J. apply in_map_iff in J. destruct J as ([n c'] & <- & J). apply (fi _ _ I _ _ J). }
  exists f'. split; [exact E|]. split; [apply I|]. split.
  { intros c. split.
    - intros J. split; [now apply (fa _ _ I)|]. intros n R. rewrite <- (fr _ _ I n) in R. apply find_in in R.
      now apply (fi _ _ I _ _ R).
    - intros [A R]. destruct (fl _ _ I _ A) as [X|[n X]]; auto. exfalso. apply (R n). rewrite <- (fr _ _ I n).
      apply in_find; auto. apply I. }
  split; [exact E'|]. split; [exact D'|]. intros c. rewrite S'. split.
  - intros [J|J]; [|now apply (fa _ _ I)]. apply in_map_iff in J. destruct J as ([n c'] & <- & J). apply (fi _ _ I _ _ J).
  - intros A. destruct (fl _ _ I _ A) as [X|[n X]]; auto. left. apply in_map_iff. exists (n, c). auto.
Qed.

Lemma add_returns : forall h n c, NoDup (added (h ++ [AddCreator n c])) -> exists f f' k,
  frun new_factory h = Some f /\ add_creator n c f = Some (f', k) /\
  k = length (registered_blocks f') + 1.
Proof.
  intros h n c N. rewrite added_app in N.
  assert (Nc : ~ In c (added h)) by (apply NoDup_remove_2 with (l' := []) in N; now rewrite app_nil_r in N).
  apply NoDup_remove_1 with (l' := []) in N. rewrite app_nil_r in N.
  destruct (frun_inv h N) as (f & E & I). destruct (add_inv f h n c I Nc) as (f' & k & A & _ & B).
  exists f, f', k. split; [exact E|]. split; [exact A|]. unfold registered_blocks. now rewrite map_length.
Qed.
