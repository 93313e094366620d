From Coq Require Import List Arith Bool Lia ZArith Permutation.
From Verif Require Import Chain Pins PinsSpec.
Import ListNotations.

(** * Tables *)
Lemma lookup_update : forall {A} (l : list (nat * A)) k f k',
  lookup k' (update k f l) = if Nat.eqb k' k then option_map f (lookup k l) else lookup k' l.
Proof.
  induction l as [|[h v] l IH]; intros k f k'; simpl.
  - destruct (k' =? k); reflexivity.
  - destruct (Nat.eqb_spec h k).
    + subst h. simpl. destruct (Nat.eqb_spec k' k).
      * subst. rewrite Nat.eqb_refl. reflexivity.
      * destruct (Nat.eqb_spec k k'); [congruence|reflexivity].
    + simpl. rewrite IH. destruct (Nat.eqb_spec h k'); [|reflexivity].
      subst. destruct (Nat.eqb_spec k' k); [congruence|reflexivity].
Qed.

Lemma keys_update : forall {A} (l : list (nat * A)) k f, map fst (update k f l) = map fst l.
Proof.
  induction l as [|[h v] l IH]; intros; simpl; [reflexivity|].
  destruct (h =? k); simpl; [reflexivity|]. rewrite IH. reflexivity.
Qed.

Lemma lookup_app : forall {A} (l1 l2 : list (nat * A)) k,
  lookup k (l1 ++ l2) = match lookup k l1 with Some v => Some v | None => lookup k l2 end.
Proof.
  induction l1 as [|[h v] l IH]; intros; simpl; [reflexivity|]. destruct (h =? k); [reflexivity|apply IH].
Qed.

Lemma lookup_none : forall {A} (l : list (nat * A)) k, lookup k l = None <-> ~ In k (map fst l).
Proof.
  induction l as [|[h v] l IH]; intros k; simpl.
  - tauto.
  - destruct (Nat.eqb_spec h k).
    + subst. split; [discriminate|]. tauto.
    + rewrite IH. tauto.
Qed.

Lemma lookup_in : forall {A} (l : list (nat * A)) k v, lookup k l = Some v -> In (k, v) l.
Proof.
  induction l as [|[h u] l IH]; intros k v; simpl; [discriminate|].
  destruct (Nat.eqb_spec h k).
  - intros [= ->]. subst. auto.
  - auto.
Qed.

Lemma in_lookup : forall {A} (l : list (nat * A)) k v, NoDup (map fst l) -> In (k, v) l -> lookup k l = Some v.
Proof.
  induction l as [|[h u] l IH]; intros k v N H; simpl in *; [tauto|].
  apply NoDup_cons_iff in N. destruct N as [N1 N2]. destruct H as [[= -> ->]|H].
  - rewrite Nat.eqb_refl. reflexivity.
  - destruct (Nat.eqb_spec h k); [|auto].
    subst. destruct N1. apply (in_map fst) in H. exact H.
Qed.

Lemma lookup_erase : forall {A} (l : list (nat * A)) k k', NoDup (map fst l) ->
  lookup k' (erase k l) = if Nat.eqb k' k then None else lookup k' l.
Proof.
  induction l as [|[h v] l IH]; intros k k' N; simpl.
  - destruct (k' =? k); reflexivity.
  - simpl in N. apply NoDup_cons_iff in N. destruct N as [N1 N2].
    destruct (Nat.eqb_spec h k).
    + subst h. destruct (Nat.eqb_spec k' k).
      * subst. apply lookup_none. exact N1.
      * destruct (Nat.eqb_spec k k'); [congruence|reflexivity].
    + simpl. rewrite IH by exact N2. destruct (Nat.eqb_spec h k').
      * subst. destruct (Nat.eqb_spec k' k); [congruence|reflexivity].
      * reflexivity.
Qed.

Lemma in_erase : forall {A} (l : list (nat * A)) k x, In x (erase k l) -> In x l.
Proof.
  induction l as [|[h v] l IH]; intros k x; simpl; [tauto|]. destruct (h =? k); simpl; intuition eauto.
Qed.

Lemma keys_erase_in : forall {A} (l : list (nat * A)) k x, In x (map fst (erase k l)) -> In x (map fst l).
Proof.
  intros A l k x H. apply in_map_iff in H. destruct H as [y [E H]]. subst. apply in_map. eapply in_erase; eauto.
Qed.

Lemma nodup_erase : forall {A} (l : list (nat * A)) k, NoDup (map fst l) -> NoDup (map fst (erase k l)).
Proof.
  induction l as [|[h v] l IH]; intros k N; simpl in *; [constructor|].
  apply NoDup_cons_iff in N. destruct N as [N1 N2].
  destruct (h =? k); [assumption|]. simpl. constructor; [|auto].
  intro H. apply keys_erase_in in H. tauto.
Qed.

Definition get (k : nat) (l : list (nat * nat)) : nat := match lookup k l with Some n => n | None => 0 end.

Lemma table_pos : forall l k n, table_ok l -> lookup k l = Some n -> 1 <= n.
Proof. intros l k n [_ H] E. apply lookup_in in E. eauto. Qed.

Lemma get_incr : forall l k k', get k' (incr k l) = get k' l + (if Nat.eqb k' k then 1 else 0).
Proof.
  intros. unfold incr, get. destruct (lookup k l) eqn:E.
  - rewrite lookup_update. destruct (Nat.eqb_spec k' k).
    + subst. rewrite E. simpl. lia.
    + lia.
  - rewrite lookup_app. simpl. destruct (Nat.eqb_spec k' k).
    + subst. rewrite E, Nat.eqb_refl. reflexivity.
    + destruct (lookup k' l); [lia|]. destruct (Nat.eqb_spec k k'); [congruence|lia].
Qed.

Lemma in_update : forall {A} (l : list (nat * A)) k f k' v,
  In (k', v) (update k f l) -> In (k', v) l \/ exists u, v = f u /\ In (k', u) l.
Proof.
  induction l as [|[h u] l IH]; intros k f k' v; simpl; [tauto|].
  destruct (h =? k); simpl.
  - intros [[= -> <-]|H]; [right; eauto|auto].
  - intros [[= -> ->]|H]; [auto|]. apply IH in H. destruct H as [H|[u' [E H]]]; [auto|right; eauto].
Qed.

Lemma table_incr : forall l k, table_ok l -> table_ok (incr k l).
Proof.
  intros l k [N P]. unfold incr. destruct (lookup k l) eqn:E.
  - split; [rewrite keys_update; assumption|].
    intros k' n' H. apply in_update in H. destruct H as [H|[u [-> H]]]; [eauto|lia].
  - apply lookup_none in E. split.
    + rewrite map_app. simpl.
      apply Permutation_NoDup with (l := k :: map fst l).
      * apply Permutation_cons_append.
      * constructor; assumption.
    + intros k' n' H. apply in_app_or in H. destruct H as [H|[[= <- <-]|[]]]; [eauto|lia].
Qed.

Lemma get_decr : forall l k k', table_ok l -> get k' (decr k l) = if Nat.eqb k' k then get k l - 1 else get k' l.
Proof.
  intros l k k' T. assert (N := proj1 T). unfold decr. unfold get at 2 3.
  destruct (lookup k l) eqn:E.
  - destruct (Nat.ltb_spec (n - 1) 1).
    + unfold get. rewrite lookup_erase by exact N. destruct (k' =? k); lia.
    + unfold get. rewrite lookup_update. destruct (k' =? k); [rewrite E; simpl; lia|reflexivity].
  - unfold get. destruct (Nat.eqb_spec k' k); [subst; rewrite E; reflexivity|reflexivity].
Qed.

Lemma table_decr : forall l k, table_ok l -> table_ok (decr k l).
Proof.
  intros l k [N P]. unfold decr. destruct (lookup k l) eqn:E; [|split; assumption].
  destruct (Nat.ltb_spec (n - 1) 1).
  - split; [apply nodup_erase; assumption|]. intros k' n' H'. apply in_erase in H'. eauto.
  - split; [rewrite keys_update; assumption|].
    intros k' n' H'.
    assert (N' : NoDup (map fst (update k (fun n => n - 1) l))) by (rewrite keys_update; exact N).
    apply in_lookup in H'; [|exact N']. rewrite lookup_update in H'.
    destruct (Nat.eqb_spec k' k).
    + subst. rewrite E in H'. simpl in H'. injection H'. lia.
    + apply lookup_in in H'. eauto.
Qed.

Lemma get_zero_not_key : forall l k, table_ok l -> get k l = 0 -> ~ In k (map fst l).
Proof.
  intros l k T G H. unfold get in G. destruct (lookup k l) eqn:E.
  - apply (table_pos _ _ _ T) in E. lia.
  - apply lookup_none in E. tauto.
Qed.

Lemma key_get_pos : forall l k, table_ok l -> In k (map fst l) <-> 1 <= get k l.
Proof.
  intros l k T. unfold get. destruct (lookup k l) eqn:E.
  - split; intros; [eapply table_pos; eauto|]. apply lookup_in in E. apply (in_map fst) in E. exact E.
  - apply lookup_none in E. split; [tauto|lia].
Qed.

Definition decr_n (n : nat) (k : nat) (l : list (nat * nat)) := Nat.iter n (decr k) l.

Lemma decr_n_ok : forall n k l, table_ok l -> table_ok (decr_n n k l).
Proof. induction n; intros; simpl; [assumption|apply table_decr; auto]. Qed.

Lemma get_decr_n : forall n k l k', table_ok l ->
  get k' (decr_n n k l) = if Nat.eqb k' k then get k l - n else get k' l.
Proof.
  induction n; intros k l k' T; simpl.
  - destruct (Nat.eqb_spec k' k); [subst; lia|reflexivity].
  - rewrite get_decr by (apply decr_n_ok; assumption). rewrite !IHn by assumption.
    destruct (Nat.eqb_spec k' k); [|reflexivity]. rewrite Nat.eqb_refl. lia.
Qed.

Lemma decr_n_add : forall n m k l, decr_n n k (decr_n m k l) = decr_n (n + m) k l.
Proof. induction n; intros; simpl; [reflexivity|]. f_equal. apply IHn. Qed.

(** * Lists *)
Lemma drift_shift : forall {A} (m : A -> bool) snap pre cur i,
  drift m snap (length pre + i) (pre ++ cur) = pre ++ drift m snap i cur.
Proof.
  induction snap as [|x r IH]; intros pre cur i; simpl; [reflexivity|].
  destruct (m x).
  - replace (remove_nth (length pre + i) (pre ++ cur)) with (pre ++ remove_nth i cur).
    + rewrite plus_n_Sm. apply IH.
    + clear. induction pre; simpl; [reflexivity|]. f_equal. assumption.
  - rewrite plus_n_Sm. apply IH.
Qed.

Lemma drift_none : forall {A} (m : A -> bool) snap i cur,
  filter m snap = [] -> drift m snap i cur = cur.
Proof.
  induction snap as [|x r IH]; intros i cur H; simpl in *; [reflexivity|].
  destruct (m x); [discriminate|]. apply IH. exact H.
Qed.

Lemma filter_neg_none : forall {A} (m : A -> bool) l, filter m l = [] -> filter (fun x => negb (m x)) l = l.
Proof.
  induction l as [|x r IH]; intros H; simpl in *; [reflexivity|].
  destruct (m x); [discriminate|]. simpl. f_equal. auto.
Qed.

Lemma drift_single : forall {A} (m : A -> bool) l,
  length (filter m l) <= 1 -> drift m l 0 l = filter (fun x => negb (m x)) l.
Proof.
  induction l as [|x r IH]; intros H; simpl in *; [reflexivity|].
  destruct (m x) eqn:E; simpl in *.
  - assert (F : filter m r = []) by (destruct (filter m r); [reflexivity|simpl in H; lia]).
    rewrite drift_none by exact F. rewrite filter_neg_none by exact F. reflexivity.
  - pose proof (drift_shift m r [x] r 0) as D. simpl in D. rewrite D. f_equal. auto.
Qed.

Lemma count_filter : forall l a, count_occ Nat.eq_dec l a = length (filter (fun x => Nat.eqb x a) l).
Proof.
  induction l as [|x r IH]; intros a; simpl; [reflexivity|].
  destruct (Nat.eq_dec x a); destruct (Nat.eqb_spec x a); try contradiction; simpl; rewrite IH; reflexivity.
Qed.

Lemma count_to_obj : forall (l : list (obj * pid)) b,
  count_occ Nat.eq_dec (map fst l) b = length (filter (to_obj b) l).
Proof.
  induction l as [|[x p] r IH]; intros b; simpl; [reflexivity|]. unfold to_obj at 1; simpl.
  destruct (Nat.eq_dec x b); destruct (Nat.eqb_spec x b); try contradiction; simpl; rewrite IH; reflexivity.
Qed.

(** * Observations of the elementary updates *)
Lemma out_links_set : forall w a s f x p,
  f [] = [] ->
  out_links (set_out_links w a s f) x p
  = if Nat.eqb x a && Nat.eqb p s then f (out_links w a s) else out_links w x p.
Proof.
  intros w a s f x p F. unfold out_links, set_out_links, upd.
  destruct (Nat.eqb_spec x a); simpl; [|reflexivity]. subst x.
  rewrite lookup_update. destruct (Nat.eqb_spec p s); [|reflexivity]. subst.
  destruct (lookup s (b_outs (w a))); simpl; [reflexivity|]. symmetry; exact F.
Qed.

Lemma out_links_set_has : forall w a s f x p,
  has_key s (b_outs (w a)) = true ->
  out_links (set_out_links w a s f) x p
  = if Nat.eqb x a && Nat.eqb p s then f (out_links w a s) else out_links w x p.
Proof.
  intros w a s f x p F. unfold has_key in F. unfold out_links, set_out_links, upd.
  destruct (Nat.eqb_spec x a); simpl; [|reflexivity]. subst x.
  rewrite lookup_update. destruct (Nat.eqb_spec p s); [|reflexivity]. subst.
  destruct (lookup s (b_outs (w a))); simpl; [reflexivity|discriminate].
Qed.

Lemma in_links_set : forall w a s f x p,
  f [] = [] ->
  in_links (set_in_links w a s f) x p
  = if Nat.eqb x a && Nat.eqb p s then f (in_links w a s) else in_links w x p.
Proof.
  intros w a s f x p F. unfold in_links, set_in_links, upd.
  destruct (Nat.eqb_spec x a); simpl; [|reflexivity]. subst x.
  rewrite lookup_update. destruct (Nat.eqb_spec p s); [|reflexivity]. subst.
  destruct (lookup s (b_ins (w a))); simpl; [reflexivity|]. symmetry; exact F.
Qed.

Lemma in_links_set_has : forall w a s f x p,
  has_key s (b_ins (w a)) = true ->
  in_links (set_in_links w a s f) x p
  = if Nat.eqb x a && Nat.eqb p s then f (in_links w a s) else in_links w x p.
Proof.
  intros w a s f x p F. unfold has_key in F. unfold in_links, set_in_links, upd.
  destruct (Nat.eqb_spec x a); simpl; [|reflexivity]. subst x.
  rewrite lookup_update. destruct (Nat.eqb_spec p s); [|reflexivity]. subst.
  destruct (lookup s (b_ins (w a))); simpl; [reflexivity|discriminate].
Qed.

Ltac proj_tac :=
  intros; unfold out_links, in_links, out_ports, in_ports, set_out_links, set_in_links,
    add_child, add_parent, unset_child, unset_parent, upd, has_key;
  match goal with |- context [Nat.eqb ?x ?y] => destruct (Nat.eqb_spec x y); subst; simpl; rewrite ?keys_update; try reflexivity end.

Lemma so_in : forall w a s f x p, in_links (set_out_links w a s f) x p = in_links w x p. Proof. proj_tac. Qed.
Lemma so_op : forall w a s f x, out_ports (set_out_links w a s f) x = out_ports w x. Proof. proj_tac. Qed.
Lemma so_ip : forall w a s f x, in_ports (set_out_links w a s f) x = in_ports w x. Proof. proj_tac. Qed.
Lemma so_chi : forall w a s f x, b_chi (set_out_links w a s f x) = b_chi (w x). Proof. proj_tac. Qed.
Lemma so_par : forall w a s f x, b_par (set_out_links w a s f x) = b_par (w x). Proof. proj_tac. Qed.
Lemma si_out : forall w a s f x p, out_links (set_in_links w a s f) x p = out_links w x p. Proof. proj_tac. Qed.
Lemma si_op : forall w a s f x, out_ports (set_in_links w a s f) x = out_ports w x. Proof. proj_tac. Qed.
Lemma si_ip : forall w a s f x, in_ports (set_in_links w a s f) x = in_ports w x. Proof. proj_tac. Qed.
Lemma si_chi : forall w a s f x, b_chi (set_in_links w a s f x) = b_chi (w x). Proof. proj_tac. Qed.
Lemma si_par : forall w a s f x, b_par (set_in_links w a s f x) = b_par (w x). Proof. proj_tac. Qed.

Lemma ac_out : forall w a b x p, out_links (add_child w a b) x p = out_links w x p. Proof. proj_tac. Qed.
Lemma ac_in : forall w a b x p, in_links (add_child w a b) x p = in_links w x p. Proof. proj_tac. Qed.
Lemma ac_op : forall w a b x, out_ports (add_child w a b) x = out_ports w x. Proof. proj_tac. Qed.
Lemma ac_ip : forall w a b x, in_ports (add_child w a b) x = in_ports w x. Proof. proj_tac. Qed.
Lemma ac_par : forall w a b x, b_par (add_child w a b x) = b_par (w x). Proof. proj_tac. Qed.
Lemma ac_chi : forall w a b x, b_chi (add_child w a b x) = if Nat.eqb x a then incr b (b_chi (w a)) else b_chi (w x). Proof. proj_tac. Qed.
Lemma ap_out : forall w a b x p, out_links (add_parent w a b) x p = out_links w x p. Proof. proj_tac. Qed.
Lemma ap_in : forall w a b x p, in_links (add_parent w a b) x p = in_links w x p. Proof. proj_tac. Qed.
Lemma ap_op : forall w a b x, out_ports (add_parent w a b) x = out_ports w x. Proof. proj_tac. Qed.
Lemma ap_ip : forall w a b x, in_ports (add_parent w a b) x = in_ports w x. Proof. proj_tac. Qed.
Lemma ap_chi : forall w a b x, b_chi (add_parent w a b x) = b_chi (w x). Proof. proj_tac. Qed.
Lemma ap_par : forall w a b x, b_par (add_parent w a b x) = if Nat.eqb x a then incr b (b_par (w a)) else b_par (w x). Proof. proj_tac. Qed.
Lemma uc_out : forall w a b x p, out_links (unset_child w a b) x p = out_links w x p. Proof. proj_tac. Qed.
Lemma uc_in : forall w a b x p, in_links (unset_child w a b) x p = in_links w x p. Proof. proj_tac. Qed.
Lemma uc_op : forall w a b x, out_ports (unset_child w a b) x = out_ports w x. Proof. proj_tac. Qed.
Lemma uc_ip : forall w a b x, in_ports (unset_child w a b) x = in_ports w x. Proof. proj_tac. Qed.
Lemma uc_par : forall w a b x, b_par (unset_child w a b x) = b_par (w x). Proof. proj_tac. Qed.
Lemma uc_chi : forall w a b x, b_chi (unset_child w a b x) = if Nat.eqb x a then decr b (b_chi (w a)) else b_chi (w x). Proof. proj_tac. Qed.
Lemma up_out : forall w a b x p, out_links (unset_parent w a b) x p = out_links w x p. Proof. proj_tac. Qed.
Lemma up_in : forall w a b x p, in_links (unset_parent w a b) x p = in_links w x p. Proof. proj_tac. Qed.
Lemma up_op : forall w a b x, out_ports (unset_parent w a b) x = out_ports w x. Proof. proj_tac. Qed.
Lemma up_ip : forall w a b x, in_ports (unset_parent w a b) x = in_ports w x. Proof. proj_tac. Qed.
Lemma up_chi : forall w a b x, b_chi (unset_parent w a b x) = b_chi (w x). Proof. proj_tac. Qed.
Lemma up_par : forall w a b x, b_par (unset_parent w a b x) = if Nat.eqb x a then decr b (b_par (w a)) else b_par (w x). Proof. proj_tac. Qed.

#[global] Hint Rewrite so_in so_op so_ip so_chi so_par si_out si_op si_ip si_chi si_par
  ac_out ac_in ac_op ac_ip ac_par ac_chi ap_out ap_in ap_op ap_ip ap_chi ap_par
  uc_out uc_in uc_op uc_ip uc_par uc_chi up_out up_in up_op up_ip up_chi up_par : pins.

Lemma has_key_ports : forall {A} k (l : list (nat * A)), has_key k l = true <-> In k (map fst l).
Proof.
  intros. unfold has_key. destruct (lookup k l) eqn:E.
  - split; [|reflexivity]. intros _. apply lookup_in in E. apply (in_map fst) in E. exact E.
  - apply lookup_none in E. split; [discriminate|tauto].
Qed.

Lemma has_key_false_out : forall w a s, has_key s (b_outs (w a)) = false -> out_links w a s = [].
Proof. intros w a s H. unfold has_key in H. unfold out_links. destruct (lookup s (b_outs (w a))); [discriminate|reflexivity]. Qed.
Lemma has_key_false_in : forall w a s, has_key s (b_ins (w a)) = false -> in_links w a s = [].
Proof. intros w a s H. unfold has_key in H. unfold in_links. destruct (lookup s (b_ins (w a))); [discriminate|reflexivity]. Qed.

Lemma out_links_port : forall w a s, out_links w a s <> [] -> In s (out_ports w a).
Proof.
  intros w a s H. apply has_key_ports. destruct (has_key s (b_outs (w a))) eqn:E; [reflexivity|].
  apply has_key_false_out in E. contradiction.
Qed.
Lemma in_links_port : forall w a s, in_links w a s <> [] -> In s (in_ports w a).
Proof.
  intros w a s H. apply has_key_ports. destruct (has_key s (b_ins (w a))) eqn:E; [reflexivity|].
  apply has_key_false_in in E. contradiction.
Qed.

(** * addPin *)
Section Add.
Variables (w : world) (a b : obj) (s r : pid) (forced : bool).

Definition accepts : Prop :=
  b_ct (w a) <> BACKWARD /\ b_ct (w b) <> FORWARD /\
  exists po pi, lookup s (b_outs (w a)) = Some po /\ lookup r (b_ins (w b)) = Some pi /\
    (forced = true \/ po_type po = pi_type pi).

Lemma dtype_eqb_spec : forall x y, dtype_eqb x y = true <-> x = y.
Proof.
  intros [c d] [c' d']. unfold dtype_eqb; simpl. rewrite andb_true_iff, !Nat.eqb_eq.
  split; [intros [-> ->]; reflexivity|intros [= -> ->]; auto].
Qed.

Lemma add_pin_built_done : snd (add_pin_built w a b s r forced) = true <-> accepts.
Proof.
  unfold add_pin_built, accepts, check_compatibility, has_key.
  destruct (b_ct (w a)) eqn:CA; simpl; try (split; [discriminate|intros [H _]; congruence]);
  destruct (b_ct (w b)) eqn:CB; simpl; try (split; [discriminate|intros [_ [H _]]; congruence]);
  (destruct (lookup s (b_outs (w a))) as [po|] eqn:LS; simpl;
   [|split; [discriminate|intros [_ [_ [po [pi [H _]]]]]; discriminate]]);
  (destruct (lookup r (b_ins (w b))) as [pi|] eqn:LR; simpl;
   [|split; [discriminate|intros [_ [_ [po' [pi [_ [H _]]]]]]; discriminate]]);
  (destruct (forced || dtype_eqb (po_type po) (pi_type pi)) eqn:F; simpl;
   [ split; [intros _|reflexivity]; repeat split; try discriminate;
     exists po, pi; repeat split; try reflexivity;
     apply orb_prop in F; destruct F; [left; assumption|right; apply dtype_eqb_spec; assumption]
   | split; [discriminate|]; intros [_ [_ [po' [pi' [[= <-] [[= <-] [H|H]]]]]]];
     apply orb_false_elim in F; destruct F as [F1 F2]; [congruence|];
     apply dtype_eqb_spec in H; congruence ]).
Qed.

Lemma add_pin_built_false : snd (add_pin_built w a b s r forced) = false ->
  fst (add_pin_built w a b s r forced) = w.
Proof.
  unfold add_pin_built.
  destruct (_ && _); [|reflexivity]. destruct (_ && _); [|reflexivity]. destruct (_ || _); [discriminate|reflexivity].
Qed.

Lemma add_pin_built_effect : snd (add_pin_built w a b s r forced) = true ->
  let w' := fst (add_pin_built w a b s r forced) in
  (forall x p, out_links w' x p = out_links w x p ++ (if Nat.eqb x a && Nat.eqb p s then [(b, r)] else [])) /\
  (forall x p, in_links w' x p = in_links w x p ++ (if Nat.eqb x b && Nat.eqb p r then [a] else [])) /\
  (forall x, out_ports w' x = out_ports w x) /\ (forall x, in_ports w' x = in_ports w x) /\
  (forall x, b_chi (w' x) = if Nat.eqb x a then incr b (b_chi (w a)) else b_chi (w x)) /\
  (forall x, b_par (w' x) = if Nat.eqb x b then incr a (b_par (w b)) else b_par (w x)) /\
  In s (out_ports w a) /\ In r (in_ports w b).
Proof.
  unfold add_pin_built.
  destruct (_ && _); [|discriminate].
  destruct (has_key s (b_outs (w a))) eqn:HS; [|discriminate].
  destruct (has_key r (b_ins (w b))) eqn:HR; [|discriminate]. simpl.
  destruct (_ || _); [|discriminate]. intros _. simpl.
  unfold add_pin_out. rewrite HS, HR. unfold add_pin_in.
  assert (HR' : has_key r (b_ins (set_out_links w a s (fun l => l ++ [(b, r)]) b)) = true).
  { apply has_key_ports. change (In r (in_ports (set_out_links w a s (fun l => l ++ [(b, r)])) b)).
    rewrite so_ip. apply has_key_ports. exact HR. }
  rewrite HR'. repeat split; intros; autorewrite with pins; try reflexivity.
  - rewrite out_links_set_has by exact HS.
    destruct (Nat.eqb_spec x a); destruct (Nat.eqb_spec p s); simpl; rewrite ?app_nil_r; try reflexivity.
    subst. reflexivity.
  - rewrite in_links_set_has by exact HR'. autorewrite with pins.
    destruct (Nat.eqb_spec x b); destruct (Nat.eqb_spec p r); simpl; rewrite ?app_nil_r; try reflexivity.
    subst. reflexivity.
  - apply has_key_ports. exact HS.
  - apply has_key_ports. exact HR.
Qed.
End Add.

(** * Counting *)
Lemma count_flat_same : forall {A} (dec : forall x y : A, {x = y} + {x <> y}) (f g : nat -> list A) ks x,
  (forall k, In k ks -> count_occ dec (g k) x = count_occ dec (f k) x) ->
  count_occ dec (flat_map g ks) x = count_occ dec (flat_map f ks) x.
Proof.
  induction ks as [|k ks IH]; intros x H; simpl; [reflexivity|].
  rewrite !count_occ_app, (H k) by (simpl; auto). f_equal. apply IH. intros. apply H. simpl; auto.
Qed.

Lemma count_flat_one : forall {A} (dec : forall x y : A, {x = y} + {x <> y}) (f g : nat -> list A) ks s x d,
  NoDup ks -> In s ks ->
  (forall k, k <> s -> count_occ dec (g k) x = count_occ dec (f k) x) ->
  count_occ dec (g s) x = count_occ dec (f s) x + d ->
  count_occ dec (flat_map g ks) x = count_occ dec (flat_map f ks) x + d.
Proof.
  induction ks as [|k ks IH]; intros s x d N I H1 H2; simpl in *; [tauto|].
  apply NoDup_cons_iff in N. destruct N as [N1 N2]. rewrite !count_occ_app.
  destruct (Nat.eq_dec k s).
  - subst. rewrite H2.
    rewrite (count_flat_same dec f g ks x); [lia|]. intros k' H'. apply H1. intro; subst; tauto.
  - destruct I as [I|I]; [congruence|]. rewrite (H1 k) by assumption.
    rewrite (IH s x d); auto. lia.
Qed.

Lemma map_flat_map : forall {A B} (h : A -> B) (f : nat -> list A) ks,
  map h (flat_map f ks) = flat_map (fun k => map h (f k)) ks.
Proof. induction ks; simpl; [reflexivity|]. rewrite map_app, IHks. reflexivity. Qed.

Lemma n_to_eq : forall w a b, n_to w a b = count_occ Nat.eq_dec (flat_map (fun s => map fst (out_links w a s)) (out_ports w a)) b.
Proof. intros. unfold n_to, all_out. rewrite map_flat_map. reflexivity. Qed.

Lemma chi_mult_get : forall w a b, chi_mult w a b = get b (b_chi (w a)).
Proof. reflexivity. Qed.
Lemma par_mult_get : forall w a b, par_mult w a b = get b (b_par (w a)).
Proof. reflexivity. Qed.

Lemma add_inv : forall w a b s r f,
  well_formed w -> graph_ok w ->
  well_formed (fst (add_pin_built w a b s r f)) /\ graph_ok (fst (add_pin_built w a b s r f)).
Proof.
  intros w a b s r f W G.
  destruct (snd (add_pin_built w a b s r f)) eqn:D.
  2:{ rewrite add_pin_built_false by exact D. auto. }
  destruct (add_pin_built_effect _ _ _ _ _ _ D) as (EO & EI & OP & IP & EC & EP & IS & IR).
  set (w' := fst (add_pin_built w a b s r f)) in *.
  assert (W' : well_formed w').
  { intros o. rewrite OP, IP, EC, EP. destruct (W o) as (A1 & A2 & A3 & A4).
    split; [assumption|]. split; [assumption|]. split.
    - destruct (Nat.eqb_spec o a); [subst; apply table_incr|]; assumption.
    - destruct (Nat.eqb_spec o b); [subst; apply table_incr|]; assumption. }
  split; [exact W'|].
  destruct G as (G1 & G2 & G3). split; [|split].
  - intros x y p. unfold n_sent, n_received. specialize (G1 x y p). unfold n_sent, n_received in G1.
    unfold all_out in *. rewrite OP, EI, count_occ_app, <- G1.
    destruct (Nat.eqb_spec x a).
    + subst x. apply (count_flat_one pair_dec (out_links w a) (out_links w' a) (out_ports w a) s).
      * apply W.
      * exact IS.
      * intros k K. rewrite EO. destruct (Nat.eqb_spec k s); [congruence|]. rewrite andb_false_r, app_nil_r. reflexivity.
      * rewrite EO, !Nat.eqb_refl. simpl. rewrite count_occ_app. f_equal. simpl.
        destruct (pair_dec (b, r) (y, p)) as [E|E].
        -- injection E as -> ->. rewrite !Nat.eqb_refl. simpl. destruct (pair_dec (y, p) (y, p)); destruct (Nat.eq_dec a a); congruence.
        -- destruct (Nat.eqb_spec y b), (Nat.eqb_spec p r); subst; simpl; try reflexivity. congruence.
    + replace (count_occ Nat.eq_dec (if (y =? b) && (p =? r) then [a] else []) x) with 0.
      * rewrite Nat.add_0_r. apply count_flat_same. intros k _. rewrite EO.
        destruct (Nat.eqb_spec x a); [congruence|]. simpl. rewrite app_nil_r. reflexivity.
      * destruct (_ && _); [|reflexivity]. simpl. destruct (Nat.eq_dec a x); congruence.
  - intros x y. rewrite chi_mult_get, EC. specialize (G2 x y). rewrite chi_mult_get in G2.
    rewrite n_to_eq in *. rewrite OP.
    destruct (Nat.eqb_spec x a).
    + subst x. rewrite get_incr, G2. symmetry.
      apply (count_flat_one Nat.eq_dec (fun s => map fst (out_links w a s)) (fun s => map fst (out_links w' a s)) (out_ports w a) s).
      * apply W.
      * exact IS.
      * intros k K. rewrite EO. destruct (Nat.eqb_spec k s); [congruence|]. rewrite andb_false_r, app_nil_r. reflexivity.
      * rewrite EO, !Nat.eqb_refl. simpl. rewrite map_app, count_occ_app. f_equal. simpl.
        destruct (Nat.eqb_spec y b), (Nat.eq_dec b y); congruence.
    + rewrite G2. symmetry. apply count_flat_same. intros k _. rewrite EO.
      destruct (Nat.eqb_spec x a); [congruence|]. simpl. rewrite app_nil_r. reflexivity.
  - intros x y. rewrite par_mult_get, EP. specialize (G3 x y). rewrite par_mult_get in G3.
    unfold n_from, all_in in *. rewrite IP.
    destruct (Nat.eqb_spec y b).
    + subst y. rewrite get_incr, G3. symmetry.
      apply (count_flat_one Nat.eq_dec (in_links w b) (in_links w' b) (in_ports w b) r).
      * apply W.
      * exact IR.
      * intros k K. rewrite EI. destruct (Nat.eqb_spec k r); [congruence|]. rewrite andb_false_r, app_nil_r. reflexivity.
      * rewrite EI, !Nat.eqb_refl. simpl. rewrite count_occ_app. f_equal. simpl.
        destruct (Nat.eqb_spec x a), (Nat.eq_dec a x); congruence.
    + rewrite G3. symmetry. apply count_flat_same. intros k _. rewrite EI.
      destruct (Nat.eqb_spec y b); [congruence|]. simpl. rewrite app_nil_r. reflexivity.
Qed.

(** Building the ports of a block that has none yet. *)
Definition lazy_ok (w : world) : Prop :=
  forall o, (b_built (w o) = false -> b_outs (w o) = [] /\ b_ins (w o) = []) /\
    (forall os is, b_proto (w o) = Some (os, is) ->
       NoDup (map fst os) /\ NoDup (map fst is) /\
       (forall k p, In (k, p) os -> po_links p = []) /\ (forall k p, In (k, p) is -> pi_links p = [])).

Lemma build_links : forall w o w', lazy_ok w -> build_ports w o = Some w' ->
  (forall x p, out_links w' x p = out_links w x p) /\ (forall x p, in_links w' x p = in_links w x p) /\
  (forall x, b_chi (w' x) = b_chi (w x)) /\ (forall x, b_par (w' x) = b_par (w x)) /\
  b_built (w' o) = true.
Proof.
  intros w o w' L H. unfold build_ports in H. destruct (b_built (w o)) eqn:B.
  { injection H as <-. auto. }
  destruct (b_proto (w o)) as [[os is]|] eqn:P; [|discriminate]. injection H as <-.
  destruct (L o) as [L1 L2]. destruct (L1 B) as [Eo Ei]. destruct (L2 _ _ P) as (N1 & N2 & O1 & O2).
  unfold out_links, in_links, upd. repeat split; intros; try (destruct (Nat.eqb_spec x o); subst; reflexivity).
  - destruct (Nat.eqb_spec x o); [|reflexivity]. subst. simpl. rewrite Eo. simpl.
    destruct (lookup p os) eqn:E; [|reflexivity]. apply lookup_in in E. eauto.
  - destruct (Nat.eqb_spec x o); [|reflexivity]. subst. simpl. rewrite Ei. simpl.
    destruct (lookup p is) eqn:E; [|reflexivity]. apply lookup_in in E. eauto.
  - rewrite Nat.eqb_refl. reflexivity.
Qed.

Lemma flat_map_nil : forall {A B} (f : A -> list B) l, (forall x, f x = []) -> flat_map f l = [].
Proof. induction l; intros; simpl; [reflexivity|]. rewrite H, IHl; auto. Qed.

Lemma build_inv : forall w o w', lazy_ok w -> well_formed w -> graph_ok w -> build_ports w o = Some w' ->
  well_formed w' /\ graph_ok w'.
Proof.
  intros w o w' L W G H. pose proof H as H0. destruct (build_links _ _ _ L H) as (EO & EI & EC & EP & _).
  unfold build_ports in H. destruct (b_built (w o)) eqn:B.
  { injection H as <-. auto. }
  destruct (b_proto (w o)) as [[os is]|] eqn:P; [|discriminate].
  destruct (L o) as [L1 L2]. destruct (L1 B) as [Eo Ei]. destruct (L2 _ _ P) as (N1 & N2 & O1 & O2).
  assert (PO : forall x, x <> o -> out_ports w' x = out_ports w x).
  { intros x X. injection H as <-. unfold out_ports, upd. destruct (Nat.eqb_spec x o); [congruence|reflexivity]. }
  assert (PI : forall x, x <> o -> in_ports w' x = in_ports w x).
  { intros x X. injection H as <-. unfold in_ports, upd. destruct (Nat.eqb_spec x o); [congruence|reflexivity]. }
  assert (OO : forall p, out_links w' o p = []) by (intros p; rewrite EO; unfold out_links; rewrite Eo; reflexivity).
  assert (OI : forall p, in_links w' o p = []) by (intros p; rewrite EI; unfold in_links; rewrite Ei; reflexivity).
  assert (AO : forall x, all_out w' x = all_out w x).
  { intros x. destruct (Nat.eq_dec x o).
    - subst x. unfold all_out. rewrite flat_map_nil by exact OO.
      unfold out_ports. rewrite Eo. reflexivity.
    - unfold all_out. rewrite PO by assumption. apply flat_map_ext. intros p. apply EO. }
  assert (AI : forall x, all_in w' x = all_in w x).
  { intros x. destruct (Nat.eq_dec x o).
    - subst x. unfold all_in. rewrite flat_map_nil by exact OI.
      unfold in_ports. rewrite Ei. reflexivity.
    - unfold all_in. rewrite PI by assumption. apply flat_map_ext. intros p. apply EI. }
  split.
  - intros x. rewrite EC, EP. destruct (W x) as (A1 & A2 & A3 & A4).
    destruct (Nat.eq_dec x o).
    + subst x. injection H as <-. unfold out_ports, in_ports, upd. rewrite Nat.eqb_refl. simpl. auto.
    + rewrite PO, PI by assumption. auto.
  - destruct G as (G1 & G2 & G3). split; [|split].
    + intros. unfold n_sent, n_received. rewrite AO, EI. apply G1.
    + intros. unfold chi_mult, n_to. rewrite AO, EC. apply G2.
    + intros. unfold par_mult, n_from. rewrite AI, EP. apply G3.
Qed.

Lemma build_lazy : forall w o w', lazy_ok w -> build_ports w o = Some w' -> lazy_ok w'.
Proof.
  intros w o w' L H. unfold build_ports in H. destruct (b_built (w o)) eqn:B.
  { injection H as <-. auto. }
  destruct (b_proto (w o)) as [[os is]|] eqn:P; [|discriminate]. injection H as <-.
  intros x. unfold upd. destruct (Nat.eqb_spec x o); [|apply L]. subst. simpl. split; [discriminate|].
  intros os' is' H. apply L in H. exact H.
Qed.

Lemma add_lazy : forall w a b s r f, lazy_ok w -> lazy_ok (fst (add_pin_built w a b s r f)).
Proof.
  intros w a b s r f L. unfold add_pin_built.
  destruct (_ && _); [|assumption]. destruct (has_key s _) eqn:HS; [|assumption]. destruct (has_key r _) eqn:HR; [|assumption].
  simpl. destruct (_ || _); [|assumption]. simpl.
  assert (K : forall w o g, lazy_ok w -> (forall B, b_built (g B) = b_built B) -> (forall B, b_proto (g B) = b_proto B) ->
              (forall B, b_outs B = [] -> b_outs (g B) = []) -> (forall B, b_ins B = [] -> b_ins (g B) = []) ->
              lazy_ok (upd w o g)).
  { clear. intros w o g L H1 H2 H3 H4 x. unfold upd. destruct (Nat.eqb_spec x o); [|apply L].
    rewrite H1, H2. destruct (L o) as [L1 L2]. split; [|exact L2]. intros B. destruct (L1 B). auto. }
  unfold add_parent, add_child, add_pin_in, add_pin_out. rewrite HS, HR.
  apply K; try reflexivity; auto. apply K; try reflexivity; auto.
  assert (L1 : lazy_ok (set_out_links w a s (fun l => l ++ [(b, r)]))).
  { apply K; try reflexivity; auto. intros B E. simpl. rewrite E. reflexivity. }
  destruct (has_key r (b_ins (set_out_links w a s _ b))); [|exact L1].
  apply K; try reflexivity; auto. intros B E. simpl. rewrite E. reflexivity.
Qed.

Lemma add_pin_inv : forall w a b s r f w' d, lazy_ok w -> well_formed w -> graph_ok w ->
  add_pin w a b s r f = PinDone w' d -> lazy_ok w' /\ well_formed w' /\ graph_ok w'.
Proof.
  intros w a b s r f w' d L W G H. unfold add_pin in H.
  destruct (build_ports w a) as [w1|] eqn:B1; [|discriminate].
  destruct (build_inv _ _ _ L W G B1) as [W1 G1]. assert (L1 := build_lazy _ _ _ L B1).
  destruct (build_ports w1 b) as [w2|] eqn:B2; [|discriminate].
  destruct (build_inv _ _ _ L1 W1 G1 B2) as [W2 G2]. assert (L2 := build_lazy _ _ _ L1 B2).
  pose proof (add_inv w2 a b s r f W2 G2) as [W3 G3]. pose proof (add_lazy w2 a b s r f L2) as L3.
  destruct (add_pin_built w2 a b s r f) as [w3 d3]. injection H as <- <-. auto.
Qed.

Lemma no_pins_inv : forall w, no_pins_yet w -> lazy_ok w /\ well_formed w /\ graph_ok w.
Proof.
  intros w H. split; [|split].
  - intros o. destruct (H o) as (_ & _ & _ & _ & _ & _ & A & B). auto.
  - intros o. destruct (H o) as (C & P & NO & NI & _). rewrite C, P. unfold table_ok. simpl.
    split; [assumption|]. split; [assumption|]. repeat split; (constructor || (intros; tauto)).
  - assert (AO : forall x, all_out w x = []) by (intros; apply flat_map_nil; apply H).
    assert (AI : forall x, all_in w x = []) by (intros; apply flat_map_nil; apply H).
    split; [|split]; intros.
    + unfold n_sent, n_received. rewrite AO. destruct (H b) as (_ & _ & _ & _ & _ & I & _). rewrite I. reflexivity.
    + unfold chi_mult, n_to. rewrite AO. destruct (H a) as (C & _). rewrite C. reflexivity.
    + unfold par_mult, n_from. rewrite AI. destruct (H b) as (_ & P & _). rewrite P. reflexivity.
Qed.

Lemma adds_inv : forall ops w w', lazy_ok w -> well_formed w -> graph_ok w -> Forall is_add ops ->
  pin_run w ops = Some w' -> lazy_ok w' /\ well_formed w' /\ graph_ok w'.
Proof.
  induction ops as [|op ops IH]; intros w w' L W G F H; simpl in H.
  - injection H as <-. auto.
  - inversion F as [|? ? F1 F2]; subst. destruct op; try contradiction. simpl in H.
    destruct (add_pin w a b s r forced) as [|w1 d] eqn:E; [discriminate|].
    destruct (add_pin_inv _ _ _ _ _ _ _ _ L W G E) as (L1 & W1 & G1). eauto.
Qed.

(** * removeAllPins *)
Definition nmatch_out b (l : list (obj * pid)) := length (filter (to_obj b) l).
Definition nmatch_in a (l : list obj) := length (filter (fun x => Nat.eqb x a) l).

Lemma rpo_links : forall w a s j x p,
  out_links (remove_pin_out_at w a s j) x p = if Nat.eqb x a && Nat.eqb p s then remove_nth j (out_links w a s) else out_links w x p.
Proof.
  intros. unfold remove_pin_out_at. destruct (has_key s (b_outs (w a))) eqn:E.
  - apply out_links_set_has. exact E.
  - apply has_key_false_out in E. destruct (Nat.eqb_spec x a), (Nat.eqb_spec p s); simpl; subst; rewrite ?E; try reflexivity; destruct j; reflexivity.
Qed.
Lemma rpi_links : forall w a s j x p,
  in_links (remove_pin_in_at w a s j) x p = if Nat.eqb x a && Nat.eqb p s then remove_nth j (in_links w a s) else in_links w x p.
Proof.
  intros. unfold remove_pin_in_at. destruct (has_key s (b_ins (w a))) eqn:E.
  - apply in_links_set_has. exact E.
  - apply has_key_false_in in E. destruct (Nat.eqb_spec x a), (Nat.eqb_spec p s); simpl; subst; rewrite ?E; try reflexivity; destruct j; reflexivity.
Qed.

Ltac rp_tac := intros; unfold remove_pin_out_at, remove_pin_in_at; destruct (has_key _ _); autorewrite with pins; reflexivity.
Lemma rpo_in : forall w a s j x p, in_links (remove_pin_out_at w a s j) x p = in_links w x p. Proof. rp_tac. Qed.
Lemma rpo_op : forall w a s j x, out_ports (remove_pin_out_at w a s j) x = out_ports w x. Proof. rp_tac. Qed.
Lemma rpo_ip : forall w a s j x, in_ports (remove_pin_out_at w a s j) x = in_ports w x. Proof. rp_tac. Qed.
Lemma rpo_chi : forall w a s j x, b_chi (remove_pin_out_at w a s j x) = b_chi (w x). Proof. rp_tac. Qed.
Lemma rpo_par : forall w a s j x, b_par (remove_pin_out_at w a s j x) = b_par (w x). Proof. rp_tac. Qed.
Lemma rpi_out : forall w a s j x p, out_links (remove_pin_in_at w a s j) x p = out_links w x p. Proof. rp_tac. Qed.
Lemma rpi_op : forall w a s j x, out_ports (remove_pin_in_at w a s j) x = out_ports w x. Proof. rp_tac. Qed.
Lemma rpi_ip : forall w a s j x, in_ports (remove_pin_in_at w a s j) x = in_ports w x. Proof. rp_tac. Qed.
Lemma rpi_chi : forall w a s j x, b_chi (remove_pin_in_at w a s j x) = b_chi (w x). Proof. rp_tac. Qed.
Lemma rpi_par : forall w a s j x, b_par (remove_pin_in_at w a s j x) = b_par (w x). Proof. rp_tac. Qed.
#[global] Hint Rewrite rpo_links rpi_links rpo_in rpo_op rpo_ip rpo_chi rpo_par rpi_out rpi_op rpi_ip rpi_chi rpi_par : pins.

Lemma decr_n_S : forall n k l, decr_n n k (decr k l) = decr_n (S n) k l.
Proof. induction n; intros; simpl; [reflexivity|]. f_equal. apply IHn. Qed.

Lemma out_loop_spec : forall linked w a b s j,
  (forall x p, out_links (out_loop w a b s linked j) x p
     = if Nat.eqb x a && Nat.eqb p s then drift (to_obj b) linked j (out_links w a s) else out_links w x p) /\
  (forall x p, in_links (out_loop w a b s linked j) x p = in_links w x p) /\
  (forall x, out_ports (out_loop w a b s linked j) x = out_ports w x) /\
  (forall x, in_ports (out_loop w a b s linked j) x = in_ports w x) /\
  (forall x, b_chi (out_loop w a b s linked j x) = if Nat.eqb x a then decr_n (nmatch_out b linked) b (b_chi (w a)) else b_chi (w x)) /\
  (forall x, b_par (out_loop w a b s linked j x) = b_par (w x)).
Proof.
  induction linked as [|l r IH]; intros w a b s j; simpl.
  - repeat split; intros; try reflexivity.
    + destruct (Nat.eqb_spec x a), (Nat.eqb_spec p s); subst; reflexivity.
    + destruct (Nat.eqb_spec x a); subst; reflexivity.
  - unfold nmatch_out in *; simpl. destruct (to_obj b l) eqn:T.
    + destruct (IH (unset_child (remove_pin_out_at w a s j) a b) a b s (S j)) as (I1 & I2 & I3 & I4 & I5 & I6).
      repeat split; intros.
      * rewrite I1. autorewrite with pins. rewrite !Nat.eqb_refl. simpl.
        destruct (Nat.eqb_spec x a), (Nat.eqb_spec p s); reflexivity.
      * rewrite I2. autorewrite with pins. reflexivity.
      * rewrite I3. autorewrite with pins. reflexivity.
      * rewrite I4. autorewrite with pins. reflexivity.
      * rewrite I5. autorewrite with pins. rewrite Nat.eqb_refl.
        destruct (Nat.eqb_spec x a); [|reflexivity]. rewrite decr_n_S. reflexivity.
      * rewrite I6. autorewrite with pins. reflexivity.
    + apply IH.
Qed.

Lemma in_loop_spec : forall linked w a b s j,
  (forall x p, in_links (in_loop w a b s linked j) x p
     = if Nat.eqb x b && Nat.eqb p s then drift (fun x => Nat.eqb x a) linked j (in_links w b s) else in_links w x p) /\
  (forall x p, out_links (in_loop w a b s linked j) x p = out_links w x p) /\
  (forall x, out_ports (in_loop w a b s linked j) x = out_ports w x) /\
  (forall x, in_ports (in_loop w a b s linked j) x = in_ports w x) /\
  (forall x, b_par (in_loop w a b s linked j x) = if Nat.eqb x b then decr_n (nmatch_in a linked) a (b_par (w b)) else b_par (w x)) /\
  (forall x, b_chi (in_loop w a b s linked j x) = b_chi (w x)).
Proof.
  induction linked as [|l r IH]; intros w a b s j; simpl.
  - repeat split; intros; try reflexivity.
    + destruct (Nat.eqb_spec x b), (Nat.eqb_spec p s); subst; reflexivity.
    + destruct (Nat.eqb_spec x b); subst; reflexivity.
  - unfold nmatch_in in *; simpl. destruct (Nat.eqb l a) eqn:T.
    + destruct (IH (unset_parent (remove_pin_in_at w b s j) b a) a b s (S j)) as (I1 & I2 & I3 & I4 & I5 & I6).
      repeat split; intros.
      * rewrite I1. autorewrite with pins. rewrite !Nat.eqb_refl. simpl.
        destruct (Nat.eqb_spec x b), (Nat.eqb_spec p s); reflexivity.
      * rewrite I2. autorewrite with pins. reflexivity.
      * rewrite I3. autorewrite with pins. reflexivity.
      * rewrite I4. autorewrite with pins. reflexivity.
      * rewrite I5. autorewrite with pins. rewrite Nat.eqb_refl.
        destruct (Nat.eqb_spec x b); [|reflexivity]. rewrite decr_n_S. reflexivity.
      * rewrite I6. autorewrite with pins. reflexivity.
    + apply IH.
Qed.

Definition memb (k : nat) (l : list nat) : bool := existsb (Nat.eqb k) l.
Lemma memb_spec : forall k l, memb k l = true <-> In k l.
Proof.
  intros. unfold memb. rewrite existsb_exists. split.
  - intros [x [H E]]. apply Nat.eqb_eq in E. subst. exact H.
  - intros H. exists k. split; [exact H|apply Nat.eqb_refl].
Qed.

Definition sumf (f : nat -> nat) (l : list nat) : nat := fold_right (fun k n => f k + n) 0 l.

Lemma out_fold_spec : forall ps w a b, NoDup ps ->
  let w' := fold_left (fun w s => out_loop w a b s (out_links w a s) 0) ps w in
  (forall x p, out_links w' x p
     = if Nat.eqb x a && memb p ps then drift (to_obj b) (out_links w a p) 0 (out_links w a p) else out_links w x p) /\
  (forall x p, in_links w' x p = in_links w x p) /\
  (forall x, out_ports w' x = out_ports w x) /\
  (forall x, in_ports w' x = in_ports w x) /\
  (forall x, b_chi (w' x) = if Nat.eqb x a then decr_n (sumf (fun p => nmatch_out b (out_links w a p)) ps) b (b_chi (w a)) else b_chi (w x)) /\
  (forall x, b_par (w' x) = b_par (w x)).
Proof.
  induction ps as [|s ps IH]; intros w a b N; simpl.
  - repeat split; intros; try reflexivity.
    + rewrite andb_false_r. reflexivity.
    + destruct (Nat.eqb_spec x a); subst; reflexivity.
  - apply NoDup_cons_iff in N. destruct N as [N1 N2].
    destruct (out_loop_spec (out_links w a s) w a b s 0) as (L1 & L2 & L3 & L4 & L5 & L6).
    set (w1 := out_loop w a b s (out_links w a s) 0) in *.
    destruct (IH w1 a b N2) as (I1 & I2 & I3 & I4 & I5 & I6).
    assert (K : forall p, In p ps -> out_links w1 a p = out_links w a p).
    { intros p P. rewrite L1, Nat.eqb_refl. destruct (Nat.eqb_spec p s); [subst; tauto|reflexivity]. }
    repeat split; intros.
    + rewrite I1, (L1 x p). destruct (Nat.eqb_spec x a); simpl; [|reflexivity]. subst x.
      destruct (Nat.eqb_spec p s); simpl.
      * subst p. destruct (memb s ps) eqn:M; [apply memb_spec in M; tauto|]. reflexivity.
      * destruct (memb p ps) eqn:M; [|reflexivity]. rewrite K by (apply memb_spec; exact M). reflexivity.
    + rewrite I2, L2. reflexivity.
    + rewrite I3, L3. reflexivity.
    + rewrite I4, L4. reflexivity.
    + rewrite I5, !L5, Nat.eqb_refl. destruct (Nat.eqb_spec x a); [|reflexivity].
      rewrite decr_n_add. f_equal. rewrite Nat.add_comm. f_equal.
      clear - K. induction ps as [|p ps IH]; simpl; [reflexivity|].
      rewrite K by (simpl; auto). f_equal. apply IH. intros. apply K. simpl; auto.
    + rewrite I6, L6. reflexivity.
Qed.

Lemma in_fold_spec : forall ps w a b, NoDup ps ->
  let w' := fold_left (fun w s => in_loop w a b s (in_links w b s) 0) ps w in
  (forall x p, in_links w' x p
     = if Nat.eqb x b && memb p ps then drift (fun x => Nat.eqb x a) (in_links w b p) 0 (in_links w b p) else in_links w x p) /\
  (forall x p, out_links w' x p = out_links w x p) /\
  (forall x, out_ports w' x = out_ports w x) /\
  (forall x, in_ports w' x = in_ports w x) /\
  (forall x, b_par (w' x) = if Nat.eqb x b then decr_n (sumf (fun p => nmatch_in a (in_links w b p)) ps) a (b_par (w b)) else b_par (w x)) /\
  (forall x, b_chi (w' x) = b_chi (w x)).
Proof.
  induction ps as [|s ps IH]; intros w a b N; simpl.
  - repeat split; intros; try reflexivity.
    + rewrite andb_false_r. reflexivity.
    + destruct (Nat.eqb_spec x b); subst; reflexivity.
  - apply NoDup_cons_iff in N. destruct N as [N1 N2].
    destruct (in_loop_spec (in_links w b s) w a b s 0) as (L1 & L2 & L3 & L4 & L5 & L6).
    set (w1 := in_loop w a b s (in_links w b s) 0) in *.
    destruct (IH w1 a b N2) as (I1 & I2 & I3 & I4 & I5 & I6).
    assert (K : forall p, In p ps -> in_links w1 b p = in_links w b p).
    { intros p P. rewrite L1, Nat.eqb_refl. destruct (Nat.eqb_spec p s); [subst; tauto|reflexivity]. }
    repeat split; intros.
    + rewrite I1, (L1 x p). destruct (Nat.eqb_spec x b); simpl; [|reflexivity]. subst x.
      destruct (Nat.eqb_spec p s); simpl.
      * subst p. destruct (memb s ps) eqn:M; [apply memb_spec in M; tauto|]. reflexivity.
      * destruct (memb p ps) eqn:M; [|reflexivity]. rewrite K by (apply memb_spec; exact M). reflexivity.
    + rewrite I2, L2. reflexivity.
    + rewrite I3, L3. reflexivity.
    + rewrite I4, L4. reflexivity.
    + rewrite I5, !L5, Nat.eqb_refl. destruct (Nat.eqb_spec x b); [|reflexivity].
      rewrite decr_n_add. f_equal. rewrite Nat.add_comm. f_equal.
      clear - K. induction ps as [|p ps IH]; simpl; [reflexivity|].
      rewrite K by (simpl; auto). f_equal. apply IH. intros. apply K. simpl; auto.
    + rewrite I6, L6. reflexivity.
Qed.

Lemma sumf_out : forall w a b, sumf (fun p => nmatch_out b (out_links w a p)) (out_ports w a) = n_to w a b.
Proof.
  intros. rewrite n_to_eq. induction (out_ports w a) as [|p ps IH]; simpl; [reflexivity|].
  rewrite count_occ_app, <- IH. f_equal. rewrite count_to_obj. reflexivity.
Qed.
Lemma sumf_in : forall w a b, sumf (fun p => nmatch_in a (in_links w b p)) (in_ports w b) = n_from w a b.
Proof.
  intros. unfold n_from, all_in. induction (in_ports w b) as [|p ps IH]; simpl; [reflexivity|].
  rewrite count_occ_app, <- IH. f_equal. rewrite count_filter. reflexivity.
Qed.

(** What removeAllPins computes, for every world. *)
Lemma remove_all_effect : forall w a b, well_formed w ->
  let w' := remove_all_pins w a b in
  (forall x p, out_links w' x p = if Nat.eqb x a then drift (to_obj b) (out_links w a p) 0 (out_links w a p) else out_links w x p) /\
  (forall x p, in_links w' x p = if Nat.eqb x b then drift (fun y => Nat.eqb y a) (in_links w b p) 0 (in_links w b p) else in_links w x p) /\
  (forall x, out_ports w' x = out_ports w x) /\
  (forall x, in_ports w' x = in_ports w x) /\
  (forall x, b_chi (w' x) = if Nat.eqb x a then decr_n (n_to w a b) b (b_chi (w a)) else b_chi (w x)) /\
  (forall x, b_par (w' x) = if Nat.eqb x b then decr_n (n_from w a b) a (b_par (w b)) else b_par (w x)).
Proof.
  intros w a b W. unfold remove_all_pins, remove_all_in, remove_all_out.
  destruct (out_fold_spec (out_ports w a) w a b (proj1 (W a))) as (L1 & L2 & L3 & L4 & L5 & L6).
  set (w1 := fold_left _ (out_ports w a) w) in *.
  assert (N1 : NoDup (in_ports w1 b)) by (rewrite L4; apply W).
  destruct (in_fold_spec (in_ports w1 b) w1 a b N1) as (I1 & I2 & I3 & I4 & I5 & I6).
  simpl. repeat split; intros.
  - rewrite I2, L1. destruct (Nat.eqb_spec x a); simpl; [|reflexivity]. subst x.
    destruct (memb p (out_ports w a)) eqn:M; [reflexivity|].
    destruct (out_links w a p) eqn:E; [reflexivity|].
    assert (In p (out_ports w a)) by (apply out_links_port; rewrite E; discriminate).
    apply memb_spec in H. congruence.
  - rewrite I1, !L2, L4. destruct (Nat.eqb_spec x b); simpl; [|reflexivity]. subst x.
    destruct (memb p (in_ports w b)) eqn:M; [reflexivity|].
    destruct (in_links w b p) eqn:E; [reflexivity|].
    assert (In p (in_ports w b)) by (apply in_links_port; rewrite E; discriminate).
    apply memb_spec in H. congruence.
  - rewrite I3, L3. reflexivity.
  - rewrite I4, L4. reflexivity.
  - rewrite I6, L5. rewrite sumf_out. reflexivity.
  - rewrite I5, !L6. destruct (Nat.eqb_spec x b); [|reflexivity]. f_equal.
    rewrite <- sumf_in, L4. clear - L2. induction (in_ports w b); simpl; [reflexivity|]. rewrite L2, IHl. reflexivity.
Qed.

Lemma remove_all_single : forall w a b, well_formed w -> single_links w a b ->
  let w' := remove_all_pins w a b in
  (forall x p, out_links w' x p = if Nat.eqb x a then filter (fun l => negb (to_obj b l)) (out_links w a p) else out_links w x p) /\
  (forall x p, in_links w' x p = if Nat.eqb x b then filter (fun y => negb (Nat.eqb y a)) (in_links w b p) else in_links w x p).
Proof.
  intros w a b W [S1 S2]. destruct (remove_all_effect w a b W) as (E1 & E2 & _). simpl. split; intros.
  - rewrite E1. destruct (x =? a); [|reflexivity]. apply drift_single. rewrite <- count_to_obj. apply S1.
  - rewrite E2. destruct (x =? b); [|reflexivity]. apply drift_single. rewrite <- count_filter. apply S2.
Qed.

Lemma count_filter_out : forall l a x,
  count_occ Nat.eq_dec (filter (fun y => negb (Nat.eqb y a)) l) x = if Nat.eqb x a then 0 else count_occ Nat.eq_dec l x.
Proof.
  induction l as [|y l IH]; intros a x; simpl.
  - destruct (x =? a); reflexivity.
  - destruct (Nat.eqb_spec y a); simpl.
    + rewrite IH. subst. destruct (Nat.eqb_spec x a); [reflexivity|]. destruct (Nat.eq_dec a x); congruence.
    + rewrite IH. destruct (Nat.eq_dec y x); [|reflexivity]. subst. destruct (Nat.eqb_spec x a); congruence.
Qed.

Lemma count_filter_out_pair : forall l b x,
  count_occ pair_dec (filter (fun y => negb (to_obj b y)) l) x = if Nat.eqb (fst x) b then 0 else count_occ pair_dec l x.
Proof.
  induction l as [|y l IH]; intros b x; simpl.
  - destruct (fst x =? b); reflexivity.
  - unfold to_obj at 1. destruct (Nat.eqb_spec (fst y) b); simpl.
    + rewrite IH. destruct (Nat.eqb_spec (fst x) b); [reflexivity|]. destruct (pair_dec y x); [subst; congruence|reflexivity].
    + rewrite IH. destruct (pair_dec y x); [|reflexivity]. subst. destruct (Nat.eqb_spec (fst x) b); congruence.
Qed.

Lemma count_filter_out_fst : forall l b x,
  count_occ Nat.eq_dec (map fst (filter (fun y => negb (to_obj b y)) l)) x = if Nat.eqb x b then 0 else count_occ Nat.eq_dec (map fst l) x.
Proof.
  induction l as [|y l IH]; intros b x; simpl.
  - destruct (x =? b); reflexivity.
  - unfold to_obj at 1. destruct (Nat.eqb_spec (fst y) b); simpl.
    + rewrite IH. destruct (Nat.eqb_spec x b); [reflexivity|]. destruct (Nat.eq_dec (fst y) x); [subst; congruence|reflexivity].
    + rewrite IH. destruct (Nat.eq_dec (fst y) x); [|reflexivity]. subst. destruct (Nat.eqb_spec (fst y) b); congruence.
Qed.

Lemma filter_flat_map : forall {A B} (m : B -> bool) (f : A -> list B) l,
  filter m (flat_map f l) = flat_map (fun x => filter m (f x)) l.
Proof. induction l; simpl; [reflexivity|]. rewrite filter_app, IHl. reflexivity. Qed.

Lemma remove_all_inv : forall w a b, well_formed w -> graph_ok w -> single_links w a b ->
  well_formed (remove_all_pins w a b) /\ graph_ok (remove_all_pins w a b).
Proof.
  intros w a b W G S. destruct (remove_all_effect w a b W) as (_ & _ & OP & IP & EC & EP).
  destruct (remove_all_single w a b W S) as (EO & EI).
  set (w' := remove_all_pins w a b) in *.
  assert (AO : forall x, all_out w' x = if Nat.eqb x a then filter (fun l => negb (to_obj b l)) (all_out w a) else all_out w x).
  { intros x. unfold all_out. rewrite OP. destruct (Nat.eqb_spec x a).
    - subst. rewrite filter_flat_map. apply flat_map_ext. intros p. rewrite EO, Nat.eqb_refl. reflexivity.
    - apply flat_map_ext. intros p. rewrite EO. destruct (Nat.eqb_spec x a); congruence. }
  assert (AI : forall x, all_in w' x = if Nat.eqb x b then filter (fun y => negb (Nat.eqb y a)) (all_in w b) else all_in w x).
  { intros x. unfold all_in. rewrite IP. destruct (Nat.eqb_spec x b).
    - subst. rewrite filter_flat_map. apply flat_map_ext. intros p. rewrite EI, Nat.eqb_refl. reflexivity.
    - apply flat_map_ext. intros p. rewrite EI. destruct (Nat.eqb_spec x b); congruence. }
  split.
  - intros o. rewrite OP, IP, EC, EP. destruct (W o) as (A1 & A2 & A3 & A4).
    split; [assumption|]. split; [assumption|]. split.
    + destruct (Nat.eqb_spec o a); [subst; apply decr_n_ok|]; assumption.
    + destruct (Nat.eqb_spec o b); [subst; apply decr_n_ok|]; assumption.
  - destruct G as (G1 & G2 & G3). split; [|split].
    + intros x y r. unfold n_sent, n_received. rewrite AO, EI.
      destruct (Nat.eqb_spec x a).
      * subst x. rewrite count_filter_out_pair. simpl. destruct (Nat.eqb_spec y b).
        -- subst. rewrite count_filter_out, Nat.eqb_refl. reflexivity.
        -- apply G1.
      * destruct (Nat.eqb_spec y b).
        -- subst. rewrite count_filter_out. destruct (Nat.eqb_spec x a); [congruence|]. apply G1.
        -- apply G1.
    + intros x y. rewrite chi_mult_get, EC. unfold n_to. rewrite AO. destruct (Nat.eqb_spec x a).
      * subst. rewrite count_filter_out_fst, get_decr_n by apply W.
        destruct (Nat.eqb_spec y b); [|apply G2].
        specialize (G2 a b). rewrite chi_mult_get in G2. unfold n_to in G2. lia.
      * apply G2.
    + intros x y. rewrite par_mult_get, EP. unfold n_from. rewrite AI. destruct (Nat.eqb_spec y b).
      * subst. rewrite count_filter_out, get_decr_n by apply W.
        destruct (Nat.eqb_spec x a); [|apply G3]. subst.
        specialize (G3 a b). rewrite par_mult_get in G3. unfold n_from in *. lia.
      * apply G3.
Qed.

Lemma filter_length_mono : forall {A} (f g : A -> bool) l,
  length (filter f (filter g l)) <= length (filter f l).
Proof.
  induction l as [|x l IH]; simpl; [lia|]. destruct (g x), (f x) eqn:E; simpl; rewrite ?E; simpl; lia.
Qed.

Lemma remove_all_keeps_single : forall w a b c d, well_formed w -> single_links w a b ->
  single_links w c d -> single_links (remove_all_pins w a b) c d.
Proof.
  intros w a b c d W S [T1 T2]. destruct (remove_all_single w a b W S) as (EO & EI). split; intros.
  - rewrite EO. destruct (Nat.eqb_spec c a); [|apply T1]. subst.
    rewrite count_to_obj. eapply Nat.le_trans; [apply filter_length_mono|]. rewrite <- count_to_obj. apply T1.
  - rewrite EI. destruct (Nat.eqb_spec d b); [|apply T2]. subst.
    rewrite count_filter. eapply Nat.le_trans; [apply filter_length_mono|]. rewrite <- count_filter. apply T2.
Qed.

(** * removePins *)
Lemma keys_decr_n_incl : forall n k l, incl (map fst (decr_n n k l)) (map fst l).
Proof.
  induction n; intros k l; simpl; [apply incl_refl|].
  intros x H. apply (IHn k l). revert H. generalize (decr_n n k l). intros l'. unfold decr.
  destruct (lookup k l'); [|auto]. destruct (_ <? _).
  - apply keys_erase_in.
  - rewrite keys_update. auto.
Qed.

Lemma keys_decr_n_lt : forall n k l, table_ok l -> get k l <= n -> In k (map fst l) ->
  length (decr_n n k l) < length l.
Proof.
  intros n k l T G I.
  assert (Z : get k (decr_n n k l) = 0) by (rewrite get_decr_n, Nat.eqb_refl by exact T; lia).
  pose proof (decr_n_ok n k l T) as T'.
  apply (get_zero_not_key _ _ T') in Z.
  assert (L : length (k :: map fst (decr_n n k l)) <= length (map fst l)).
  { apply NoDup_incl_length.
    - constructor; [exact Z|apply T'].
    - intros x [<-|H]; [exact I|]. revert H. apply keys_decr_n_incl. }
  simpl in L. rewrite !map_length in L. exact L.
Qed.

Lemma in_key : forall {A} (l : list (nat * A)) k v r, l = (k, v) :: r -> In k (map fst l).
Proof. intros; subst; simpl; auto. Qed.

Definition singles (w : world) (o : obj) : Prop := forall x, single_links w x o /\ single_links w o x.

Lemma singles_remove : forall w a b o, well_formed w -> single_links w a b -> singles w o ->
  singles (remove_all_pins w a b) o.
Proof. intros w a b o W S T x. destruct (T x). split; apply remove_all_keeps_single; assumption. Qed.

Lemma filter_filter_absorb : forall {A} (f g : A -> bool) l,
  (forall x, f x = true -> g x = true) -> filter f (filter g l) = filter f l.
Proof.
  induction l as [|x l IH]; intros H; simpl; [reflexivity|].
  destruct (g x) eqn:G; simpl.
  - rewrite IH by exact H. reflexivity.
  - destruct (f x) eqn:F; [rewrite (H _ F) in G; discriminate|]. auto.
Qed.

Lemma drops_refl : forall w o, drops_only w w o.
Proof. intros w o x p. auto. Qed.
Lemma drops_trans : forall w1 w2 w3 o, drops_only w1 w2 o -> drops_only w2 w3 o -> drops_only w1 w3 o.
Proof.
  intros w1 w2 w3 o H K x p. destruct (H x p) as (A & B & C & D). destruct (K x p) as (A' & B' & C' & D').
  rewrite A', B', C', D'. auto.
Qed.

Lemma filter_false : forall {A} (l : list A), filter (fun _ => false) l = [].
Proof. induction l; simpl; auto. Qed.

Lemma drops_remove : forall w a b o, well_formed w -> single_links w a b -> a = o \/ b = o ->
  drops_only w (remove_all_pins w a b) o.
Proof.
  intros w a b o W S E x p. destruct (remove_all_effect w a b W) as (_ & _ & OP & IP & _).
  destruct (remove_all_single w a b W S) as (EO & EI). rewrite OP, IP, EO, EI. repeat split.
  - destruct (Nat.eqb_spec x a); [|reflexivity]. subst x.
    destruct (Nat.eqb_spec a o); [simpl; rewrite !filter_false; reflexivity|].
    destruct E; [congruence|]. subst b. simpl. apply filter_filter_absorb. auto.
  - destruct (Nat.eqb_spec x b); [|reflexivity]. subst x.
    destruct (Nat.eqb_spec b o); [simpl; rewrite !filter_false; reflexivity|].
    destruct E; [|congruence]. subst a. simpl. apply filter_filter_absorb. auto.
Qed.

Lemma remove_pins_in_ok : forall fuel w o, well_formed w -> graph_ok w -> singles w o ->
  length (b_par (w o)) <= fuel ->
  exists w', remove_pins_in fuel w o = Some w' /\ well_formed w' /\ graph_ok w' /\ singles w' o /\
    b_par (w' o) = [] /\ drops_only w w' o /\ length (b_chi (w' o)) <= length (b_chi (w o)).
Proof.
  induction fuel; intros w o W G S L.
  - exists w. simpl. destruct (b_par (w o)) eqn:E; [|simpl in L; lia].
    repeat (split; [solve [auto using drops_refl]|]). auto.
  - simpl. destruct (b_par (w o)) as [|[p n] t] eqn:E.
    + exists w. repeat (split; [solve [auto using drops_refl]|]). auto.
    + pose proof (proj1 (S p)) as Sp.
      destruct (remove_all_inv w p o W G Sp) as [W1 G1].
      pose proof (singles_remove w p o o W Sp S) as S1.
      destruct (remove_all_effect w p o W) as (_ & _ & _ & _ & EC & EP).
      assert (P1 : length (b_par (remove_all_pins w p o o)) <= fuel).
      { rewrite EP, Nat.eqb_refl.
        assert (length (decr_n (n_from w p o) p (b_par (w o))) < length (b_par (w o))).
        { apply keys_decr_n_lt; [apply W| |eapply in_key; exact E].
          destruct G as (_ & _ & G3). rewrite <- G3. apply Nat.le_refl. }
        rewrite E in *. simpl in *. lia. }
      destruct (IHfuel _ o W1 G1 S1 P1) as (w' & R & W' & G' & S' & Pz & D & C).
      exists w'. split; [exact R|]. repeat (split; [assumption|]). split.
      * eapply drops_trans; [|exact D]. apply drops_remove; auto.
      * eapply Nat.le_trans; [exact C|]. rewrite EC. destruct (Nat.eqb_spec o p); [|lia]. subst.
        destruct (in_dec Nat.eq_dec p (map fst (b_chi (w p)))) as [I|I].
        -- apply Nat.lt_le_incl. apply keys_decr_n_lt; [apply W| |exact I].
           destruct G as (_ & G2 & _). rewrite <- G2. apply Nat.le_refl.
        -- replace (decr_n (n_to w p p) p (b_chi (w p))) with (b_chi (w p)); [lia|].
           apply lookup_none in I. generalize (n_to w p p). induction n0; simpl; [reflexivity|].
           rewrite <- IHn0. unfold decr. rewrite I. reflexivity.
Qed.

Lemma decr_nil : forall n k, decr_n n k [] = [].
Proof. induction n; intros; simpl; [reflexivity|]. rewrite IHn. reflexivity. Qed.

Lemma remove_pins_out_ok : forall fuel w o, well_formed w -> graph_ok w -> singles w o -> b_par (w o) = [] ->
  length (b_chi (w o)) <= fuel ->
  exists w', remove_pins_out fuel w o = Some w' /\ well_formed w' /\ graph_ok w' /\
    b_par (w' o) = [] /\ b_chi (w' o) = [] /\ drops_only w w' o.
Proof.
  induction fuel; intros w o W G S P L.
  - exists w. simpl. destruct (b_chi (w o)) eqn:E; [|simpl in L; lia]. auto 10 using drops_refl.
  - simpl. destruct (b_chi (w o)) as [|[c n] t] eqn:E.
    + exists w. auto 10 using drops_refl.
    + pose proof (proj2 (S c)) as Sc.
      destruct (remove_all_inv w o c W G Sc) as [W1 G1].
      pose proof (singles_remove w o c o W Sc S) as S1.
      destruct (remove_all_effect w o c W) as (_ & _ & _ & _ & EC & EP).
      assert (C1 : length (b_chi (remove_all_pins w o c o)) <= fuel).
      { rewrite EC, Nat.eqb_refl.
        assert (length (decr_n (n_to w o c) c (b_chi (w o))) < length (b_chi (w o))).
        { apply keys_decr_n_lt; [apply W| |eapply in_key; exact E].
          destruct G as (_ & G2 & _). rewrite <- G2. apply Nat.le_refl. }
        rewrite E in *. simpl in *. lia. }
      assert (P1 : b_par (remove_all_pins w o c o) = []).
      { rewrite EP. destruct (Nat.eqb_spec o c); [|exact P]. subst. rewrite P. apply decr_nil. }
      destruct (IHfuel _ o W1 G1 S1 P1 C1) as (w' & R & W' & G' & P' & C' & D).
      exists w'. split; [exact R|]. repeat (split; [assumption|]).
      eapply drops_trans; [|exact D]. apply drops_remove; auto.
Qed.

Lemma count_zero_all : forall w o, well_formed w -> graph_ok w -> b_par (w o) = [] -> b_chi (w o) = [] ->
  (forall p, out_links w o p = []) /\ (forall p, in_links w o p = []) /\
  (forall x p r, ~ In (o, r) (out_links w x p)) /\ (forall x p, ~ In o (in_links w x p)) /\
  (forall x, ~ In o (map fst (b_par (w x)))) /\ (forall x, ~ In o (map fst (b_chi (w x)))).
Proof.
  intros w o W (G1 & G2 & G3) P C.
  assert (IO : forall x p r, In (x, r) (out_links w o p) -> False).
  { intros x p r I. specialize (G2 o x). unfold chi_mult in G2. rewrite C in G2. simpl in G2.
    unfold n_to in G2. symmetry in G2. apply count_occ_not_In in G2. apply G2.
    apply in_map_iff. exists (x, r). split; [reflexivity|]. apply in_flat_map. exists p. split; [|exact I].
    apply out_links_port. intro Z. rewrite Z in I. destruct I. }
  assert (II : forall x p, In x (in_links w o p) -> False).
  { intros x p I. specialize (G3 x o). unfold par_mult in G3. rewrite P in G3. simpl in G3.
    unfold n_from in G3. symmetry in G3. apply count_occ_not_In in G3. apply G3.
    apply in_flat_map. exists p. split; [|exact I]. apply in_links_port. intro Z. rewrite Z in I. destruct I. }
  assert (OX : forall x p r, In (o, r) (out_links w x p) -> False).
  { intros x p r I. specialize (G1 x o r). unfold n_sent, n_received in G1.
    assert (In (o, r) (all_out w x)).
    { apply in_flat_map. exists p. split; [|exact I]. apply out_links_port. intro Z. rewrite Z in I. destruct I. }
    apply (count_occ_In pair_dec) in H. rewrite G1 in H. apply count_occ_In in H. eauto. }
  assert (IX : forall x p, In o (in_links w x p) -> False).
  { intros x p I. specialize (G1 o x p). unfold n_sent, n_received in G1.
    apply (count_occ_In Nat.eq_dec) in I. rewrite <- G1 in I. apply count_occ_In in I.
    apply in_flat_map in I. destruct I as [q [_ I]]. eauto. }
  repeat split.
  - intros p. destruct (out_links w o p) as [|[x r] l] eqn:E; [reflexivity|]. exfalso. apply (IO x p r). rewrite E. simpl; auto.
  - intros p. destruct (in_links w o p) as [|x l] eqn:E; [reflexivity|]. exfalso. apply (II x p). rewrite E. simpl; auto.
  - exact OX.
  - exact IX.
  - intros x. apply get_zero_not_key; [apply W|]. change (par_mult w x o = 0). rewrite G3.
    apply count_occ_not_In. intro I. apply in_flat_map in I. destruct I as [q [_ I]]. eauto.
  - intros x. apply get_zero_not_key; [apply W|]. change (chi_mult w x o = 0). rewrite G2.
    apply count_occ_not_In. intro I. apply in_map_iff in I. destruct I as [[y r] [Y I]]. simpl in Y. subst.
    apply in_flat_map in I. destruct I as [q [_ I]]. eauto.
Qed.

(** * removePin *)
Lemma filter_one_split : forall {A} (m : A -> bool) l x, length (filter m l) = 1 -> In x l -> m x = true ->
  exists l1 l2, l = l1 ++ x :: l2 /\ filter (fun y => negb (m y)) l = l1 ++ l2 /\
    (forall y, In y (l1 ++ l2) -> m y = false).
Proof.
  induction l as [|y l IH]; intros x L I M; simpl in *; [tauto|].
  destruct (m y) eqn:Y; simpl in *.
  - assert (F : filter m l = []) by (destruct (filter m l); [reflexivity|simpl in L; lia]).
    assert (N : forall z, In z l -> m z = false).
    { intros z Z. destruct (m z) eqn:E; [|reflexivity]. assert (In z (filter m l)) by (apply filter_In; auto). rewrite F in H. destruct H. }
    destruct I as [->|I].
    + exists [], l. simpl. rewrite filter_neg_none by exact F. auto.
    + rewrite (N _ I) in M. discriminate.
  - destruct I as [->|I]; [congruence|]. destruct (IH x L I M) as (l1 & l2 & E1 & E2 & E3).
    exists (y :: l1), l2. simpl. rewrite E1 at 1. rewrite E2. repeat split. intros z [<-|Z]; auto.
Qed.

Lemma remove_pin_obs : forall w a b s r,
  let w' := remove_pin w a b s r in
  (forall x p, out_links w' x p = if Nat.eqb x a && Nat.eqb p s then drift (to_obj b) (out_links w a s) 0 (out_links w a s) else out_links w x p) /\
  (forall x p, in_links w' x p = if Nat.eqb x b && Nat.eqb p r then drift (fun y => Nat.eqb y a) (in_links w b r) 0 (in_links w b r) else in_links w x p) /\
  (forall x, out_ports w' x = out_ports w x) /\
  (forall x, in_ports w' x = in_ports w x) /\
  (forall x, b_chi (w' x) = if Nat.eqb x a then decr b (b_chi (w a)) else b_chi (w x)) /\
  (forall x, b_par (w' x) = if Nat.eqb x b then decr a (b_par (w b)) else b_par (w x)).
Proof.
  intros w a b s r. unfold remove_pin.
  assert (A : forall x p, out_links (remove_pin_out w a b s) x p = if Nat.eqb x a && Nat.eqb p s then drift (to_obj b) (out_links w a s) 0 (out_links w a s) else out_links w x p).
  { intros. unfold remove_pin_out. destruct (has_key s (b_outs (w a))) eqn:E.
    - apply (out_links_set_has w a s (fun l => drift (to_obj b) l 0 l)); exact E.
    - apply has_key_false_out in E. destruct (Nat.eqb_spec x a), (Nat.eqb_spec p s); simpl; subst; rewrite ?E; reflexivity. }
  assert (B : forall w x p, in_links (remove_pin_in w b a r) x p = if Nat.eqb x b && Nat.eqb p r then drift (fun y => Nat.eqb y a) (in_links w b r) 0 (in_links w b r) else in_links w x p).
  { intros. unfold remove_pin_in. destruct (has_key r (b_ins (w0 b))) eqn:E.
    - apply (in_links_set_has w0 b r (fun l => drift (fun x => Nat.eqb x a) l 0 l)); exact E.
    - apply has_key_false_in in E. destruct (Nat.eqb_spec x b), (Nat.eqb_spec p r); simpl; subst; rewrite ?E; reflexivity. }
  assert (A2 : forall x p, in_links (remove_pin_out w a b s) x p = in_links w x p).
  { intros. unfold remove_pin_out. destruct (has_key _ _); autorewrite with pins; reflexivity. }
  simpl. split; [|split].
  - intros. autorewrite with pins. unfold remove_pin_in at 1. destruct (has_key _ _); autorewrite with pins; apply A.
  - intros. autorewrite with pins. rewrite B, !A2. reflexivity.
  - repeat split; intros; autorewrite with pins; unfold remove_pin_in; destruct (has_key r _); autorewrite with pins;
    unfold remove_pin_out; destruct (has_key s _); autorewrite with pins; reflexivity.
Qed.

Lemma remove_pin_sole : forall w a b s r, well_formed w -> graph_ok w -> sole_pin w a b s r ->
  let w' := remove_pin w a b s r in
  (exists l1 l2, out_links w a s = l1 ++ (b, r) :: l2 /\ out_links w' a s = l1 ++ l2) /\
  (exists l1 l2, in_links w b r = l1 ++ a :: l2 /\ in_links w' b r = l1 ++ l2) /\
  (forall x p, (x, p) <> (a, s) -> out_links w' x p = out_links w x p) /\
  (forall x p, (x, p) <> (b, r) -> in_links w' x p = in_links w x p) /\
  well_formed w' /\ graph_ok w'.
Proof.
  intros w a b s r W G (P1 & P2 & P3). destruct (remove_pin_obs w a b s r) as (EO & EI & OP & IP & EC & EP).
  simpl in *. set (w' := remove_pin w a b s r) in *.
  rewrite count_to_obj in P2. rewrite count_filter in P3.
  rewrite drift_single in EO by lia. rewrite drift_single in EI by lia.
  destruct (filter_one_split _ _ _ P2 P1) as (o1 & o2 & O1 & O2 & O3).
  { unfold to_obj. simpl. apply Nat.eqb_refl. }
  assert (IA : In a (in_links w b r)).
  { destruct (filter (fun x => Nat.eqb x a) (in_links w b r)) as [|y t] eqn:F; [simpl in P3; lia|].
    assert (In y (filter (fun x => Nat.eqb x a) (in_links w b r))) by (rewrite F; simpl; auto).
    apply filter_In in H. destruct H as [H E]. apply Nat.eqb_eq in E. subst. exact H. }
  destruct (filter_one_split _ _ _ P3 IA) as (i1 & i2 & I1 & I2 & I3).
  { apply Nat.eqb_refl. }
  assert (OA : out_links w' a s = o1 ++ o2) by (rewrite EO, !Nat.eqb_refl; exact O2).
  assert (IB : in_links w' b r = i1 ++ i2) by (rewrite EI, !Nat.eqb_refl; exact I2).
  assert (OX : forall x p, (x, p) <> (a, s) -> out_links w' x p = out_links w x p).
  { intros x p N. rewrite EO. destruct (Nat.eqb_spec x a), (Nat.eqb_spec p s); subst; try reflexivity. congruence. }
  assert (IX : forall x p, (x, p) <> (b, r) -> in_links w' x p = in_links w x p).
  { intros x p N. rewrite EI. destruct (Nat.eqb_spec x b), (Nat.eqb_spec p r); subst; try reflexivity. congruence. }
  assert (PS : In s (out_ports w a)) by (apply out_links_port; intro Z; rewrite Z in P1; destruct P1).
  assert (PR : In r (in_ports w b)) by (apply in_links_port; intro Z; rewrite Z in IA; destruct IA).
  assert (NW : forall x, NoDup (out_ports w' x) /\ NoDup (in_ports w' x)).
  { intros x. rewrite OP, IP. split; apply W. }
  split; [eauto|]. split; [eauto|]. split; [exact OX|]. split; [exact IX|]. split.
  - intros o. rewrite EC, EP. destruct (W o) as (A1 & A2 & A3 & A4). destruct (NW o).
    split; [assumption|]. split; [assumption|]. split.
    + destruct (Nat.eqb_spec o a); [subst; apply table_decr|]; assumption.
    + destruct (Nat.eqb_spec o b); [subst; apply table_decr|]; assumption.
  - destruct G as (G1 & G2 & G3).
    assert (CO : forall x y q, n_sent w x y q = n_sent w' x y q + (if Nat.eqb x a && (Nat.eqb y b && Nat.eqb q r) then 1 else 0)).
    { intros x y q. unfold n_sent, all_out. rewrite OP. destruct (Nat.eqb_spec x a).
      - subst x. simpl. apply (count_flat_one pair_dec (out_links w' a) (out_links w a) (out_ports w a) s).
        + apply W.
        + exact PS.
        + intros k K. rewrite OX by congruence. reflexivity.
        + rewrite OA, O1, !count_occ_app. simpl. destruct (pair_dec (b, r) (y, q)) as [E|E].
          * injection E as -> ->. rewrite !Nat.eqb_refl. simpl. lia.
          * destruct (Nat.eqb_spec y b), (Nat.eqb_spec q r); subst; simpl; try lia. congruence.
      - simpl. rewrite Nat.add_0_r. apply count_flat_same. intros k _. rewrite OX by congruence. reflexivity. }
    assert (CI : forall x y q, n_received w x y q = n_received w' x y q + (if Nat.eqb x a && (Nat.eqb y b && Nat.eqb q r) then 1 else 0)).
    { intros x y q. unfold n_received. destruct (Nat.eqb_spec y b); [destruct (Nat.eqb_spec q r)|].
      - subst. rewrite I1, IB, !count_occ_app. simpl. destruct (Nat.eq_dec a x), (Nat.eqb_spec x a); subst; simpl; try lia; congruence.
      - rewrite IX by congruence. simpl. rewrite andb_false_r. lia.
      - rewrite IX by congruence. simpl. rewrite andb_false_r. lia. }
    split; [|split].
    + intros x y q. specialize (G1 x y q). rewrite CO, CI in G1. lia.
    + intros x y. specialize (G2 x y). rewrite chi_mult_get in *. rewrite EC.
      rewrite n_to_eq in *. rewrite OP. destruct (Nat.eqb_spec x a).
      * subst x. rewrite get_decr by apply W.
        assert (E : count_occ Nat.eq_dec (flat_map (fun s0 => map fst (out_links w a s0)) (out_ports w a)) y
          = count_occ Nat.eq_dec (flat_map (fun s0 => map fst (out_links w' a s0)) (out_ports w a)) y + (if Nat.eqb y b then 1 else 0)).
        { apply (count_flat_one Nat.eq_dec (fun s0 => map fst (out_links w' a s0)) (fun s0 => map fst (out_links w a s0)) (out_ports w a) s).
          - apply W.
          - exact PS.
          - intros k K. rewrite OX by congruence. reflexivity.
          - rewrite OA, O1, !map_app, !count_occ_app. simpl. destruct (Nat.eq_dec b y), (Nat.eqb_spec y b); subst; try lia; congruence. }
        destruct (Nat.eqb_spec y b); [subst|]; lia.
      * rewrite G2. apply count_flat_same. intros k _. rewrite OX by congruence. reflexivity.
    + intros x y. specialize (G3 x y). rewrite par_mult_get in *. rewrite EP.
      unfold n_from, all_in in *. rewrite IP. destruct (Nat.eqb_spec y b).
      * subst y. rewrite get_decr by apply W.
        assert (E : count_occ Nat.eq_dec (flat_map (in_links w b) (in_ports w b)) x
          = count_occ Nat.eq_dec (flat_map (in_links w' b) (in_ports w b)) x + (if Nat.eqb x a then 1 else 0)).
        { apply (count_flat_one Nat.eq_dec (in_links w' b) (in_links w b) (in_ports w b) r).
          - apply W.
          - exact PR.
          - intros k K. rewrite IX by congruence. reflexivity.
          - rewrite IB, I1, !count_occ_app. simpl. destruct (Nat.eq_dec a x), (Nat.eqb_spec x a); subst; try lia; congruence. }
        destruct (Nat.eqb_spec x a); [subst|]; lia.
      * rewrite G3. apply count_flat_same. intros k _. rewrite IX by congruence. reflexivity.
Qed.

Lemma remove_pins_ok : forall w o, well_formed w -> graph_ok w -> singles w o ->
  exists n w', (forall fuel, n <= fuel -> remove_pins fuel w o = Some w') /\
    drops_only w w' o /\ well_formed w' /\ graph_ok w' /\
    (forall p, out_links w' o p = []) /\ (forall p, in_links w' o p = []) /\
    (forall x p r, ~ In (o, r) (out_links w' x p)) /\ (forall x p, ~ In o (in_links w' x p)) /\
    (forall x, ~ In o (map fst (b_par (w' x)))) /\ (forall x, ~ In o (map fst (b_chi (w' x)))) /\
    b_par (w' o) = [] /\ b_chi (w' o) = [].
Proof.
  intros w o W G S.
  assert (MI : forall f w o w', remove_pins_in f w o = Some w' -> forall g, f <= g -> remove_pins_in g w o = Some w').
  { clear. induction f; intros w o w' H g L; simpl in H.
    - destruct g; simpl; destruct (b_par (w o)) as [|[p n] t]; congruence.
    - destruct g; [lia|]. simpl. destruct (b_par (w o)) as [|[p n] t]; [assumption|]. apply IHf; [assumption|lia]. }
  assert (MO : forall f w o w', remove_pins_out f w o = Some w' -> forall g, f <= g -> remove_pins_out g w o = Some w').
  { clear. induction f; intros w o w' H g L; simpl in H.
    - destruct g; simpl; destruct (b_chi (w o)) as [|[p n] t]; congruence.
    - destruct g; [lia|]. simpl. destruct (b_chi (w o)) as [|[p n] t]; [assumption|]. apply IHf; [assumption|lia]. }
  destruct (remove_pins_in_ok _ w o W G S (Nat.le_refl _)) as (w1 & R1 & W1 & G1 & S1 & P1 & D1 & _).
  destruct (remove_pins_out_ok _ w1 o W1 G1 S1 P1 (Nat.le_refl _)) as (w2 & R2 & W2 & G2 & P2 & C2 & D2).
  exists (length (b_par (w o)) + length (b_chi (w1 o))), w2. split.
  - intros fuel L. unfold remove_pins. rewrite (MI _ _ _ _ R1 fuel) by lia. apply (MO _ _ _ _ R2). lia.
  - split; [eapply drops_trans; eauto|]. split; [exact W2|]. split; [exact G2|].
    destruct (count_zero_all w2 o W2 G2 P2 C2) as (Q1 & Q2 & Q3 & Q4 & Q5 & Q6). auto 10.
Qed.

(** * Statements used by the property file *)
Lemma add_pin_spec : forall w a b s r forced, b_built (w a) = true -> b_built (w b) = true ->
  exists w' done, add_pin w a b s r forced = PinDone w' done /\
    (done = true <-> accepts w a b s r forced) /\
    (done = false -> w' = w) /\
    (done = true ->
       (forall x p, out_links w' x p = out_links w x p ++ (if Nat.eqb x a && Nat.eqb p s then [(b, r)] else [])) /\
       (forall x p, in_links w' x p = in_links w x p ++ (if Nat.eqb x b && Nat.eqb p r then [a] else [])) /\
       (forall x y, chi_mult w' x y = chi_mult w x y + (if Nat.eqb x a && Nat.eqb y b then 1 else 0)) /\
       (forall x y, par_mult w' x y = par_mult w x y + (if Nat.eqb x b && Nat.eqb y a then 1 else 0))).
Proof.
  intros w a b s r forced Ba Bb.
  exists (fst (add_pin_built w a b s r forced)), (snd (add_pin_built w a b s r forced)). split; [|split; [|split]].
  - unfold add_pin, build_ports. rewrite Ba, Bb. destruct (add_pin_built w a b s r forced). reflexivity.
  - apply add_pin_built_done.
  - apply add_pin_built_false.
  - intros D. destruct (add_pin_built_effect _ _ _ _ _ _ D) as (EO & EI & _ & _ & EC & EP & _).
    split; [exact EO|]. split; [exact EI|]. split; intros x y.
    + rewrite !chi_mult_get, EC. destruct (Nat.eqb_spec x a); simpl; [subst; apply get_incr|lia].
    + rewrite !par_mult_get, EP. destruct (Nat.eqb_spec x b); simpl; [subst; apply get_incr|lia].
Qed.

Lemma build_built : forall w o w', build_ports w o = Some w' -> b_built (w' o) = true /\
  forall x, b_built (w x) = true -> b_built (w' x) = true.
Proof.
  intros w o w' H. unfold build_ports in H. destruct (b_built (w o)) eqn:B.
  - injection H as <-. auto.
  - destruct (b_proto (w o)) as [[os is]|]; [|discriminate]. injection H as <-. unfold upd. split.
    + rewrite Nat.eqb_refl. reflexivity.
    + intros x X. destruct (x =? o); [reflexivity|exact X].
Qed.

Lemma add_pin_builds : forall w a b s r forced,
  match build_ports w a with
  | None => add_pin w a b s r forced = PinThrow
  | Some w1 => match build_ports w1 b with
               | None => add_pin w a b s r forced = PinThrow
               | Some w2 => b_built (w2 a) = true /\ b_built (w2 b) = true /\
                            add_pin w a b s r forced = add_pin w2 a b s r forced
               end
  end.
Proof.
  intros. unfold add_pin. destruct (build_ports w a) as [w1|] eqn:B1; [|reflexivity].
  destruct (build_ports w1 b) as [w2|] eqn:B2; [|reflexivity].
  destruct (build_built _ _ _ B1) as [A1 _]. destruct (build_built _ _ _ B2) as [A2 K]. specialize (K _ A1).
  split; [exact K|]. split; [exact A2|].
  replace (build_ports w2 a) with (Some w2) by (unfold build_ports; rewrite K; reflexivity).
  replace (build_ports w2 b) with (Some w2) by (unfold build_ports; rewrite A2; reflexivity). reflexivity.
Qed.

Lemma graph_listing : forall w, well_formed w -> graph_ok w ->
  (forall a b, In a (map fst (b_par (w b))) <-> exists r, In a (in_links w b r)) /\
  (forall a b, In b (map fst (b_chi (w a))) <-> exists s r, In (b, r) (out_links w a s)) /\
  (forall a b, In a (map fst (b_par (w b))) <-> In b (map fst (b_chi (w a)))).
Proof.
  intros w W (G1 & G2 & G3).
  assert (P : forall a b, In a (map fst (b_par (w b))) <-> exists r, In a (in_links w b r)).
  { intros a b. rewrite key_get_pos by apply W. change (get a (b_par (w b))) with (par_mult w b a). rewrite G3.
    unfold n_from. split.
    - intros H. assert (I : In a (all_in w b)) by (apply (count_occ_In Nat.eq_dec); lia).
      apply in_flat_map in I. destruct I as [r [_ I]]. eauto.
    - intros [r I]. apply (count_occ_In Nat.eq_dec). apply in_flat_map. exists r. split; [|exact I].
      apply in_links_port. intro Z. rewrite Z in I. destruct I. }
  assert (C : forall a b, In b (map fst (b_chi (w a))) <-> exists s r, In (b, r) (out_links w a s)).
  { intros a b. rewrite key_get_pos by apply W. change (get b (b_chi (w a))) with (chi_mult w a b). rewrite G2.
    unfold n_to. split.
    - intros H. assert (I : In b (map fst (all_out w a))) by (apply (count_occ_In Nat.eq_dec); lia).
      apply in_map_iff in I. destruct I as ([b' r] & E & I). simpl in E. subst.
      apply in_flat_map in I. destruct I as [s [_ I]]. eauto.
    - intros [s [r I]]. apply (count_occ_In Nat.eq_dec). apply in_map_iff. exists (b, r). split; [reflexivity|].
      apply in_flat_map. exists s. split; [|exact I]. apply out_links_port. intro Z. rewrite Z in I. destruct I. }
  split; [exact P|]. split; [exact C|]. intros a b. rewrite P, C. split.
  - intros [r I]. apply (count_occ_In Nat.eq_dec) in I. fold (n_received w a b r) in I. rewrite <- G1 in I.
    apply count_occ_In in I. apply in_flat_map in I. destruct I as [s [_ I]]. eauto.
  - intros [s [r I]]. exists r. apply (count_occ_In Nat.eq_dec). fold (n_received w a b r). rewrite <- G1.
    apply count_occ_In. apply in_flat_map. exists s. split; [|exact I]. apply out_links_port. intro Z. rewrite Z in I. destruct I.
Qed.

Lemma adds_agree : forall w ops w', no_pins_yet w -> Forall is_add ops -> pin_run w ops = Some w' ->
  graph_ok w' /\
  (forall a b, In a (map fst (b_par (w' b))) <-> exists r, In a (in_links w' b r)) /\
  (forall a b, In b (map fst (b_chi (w' a))) <-> exists s r, In (b, r) (out_links w' a s)) /\
  (forall a b, In a (map fst (b_par (w' b))) <-> In b (map fst (b_chi (w' a)))).
Proof.
  intros w ops w' N F R. destruct (no_pins_inv _ N) as (L & W & G).
  destruct (adds_inv _ _ _ L W G F R) as (_ & W' & G'). split; [exact G'|]. apply graph_listing; assumption.
Qed.

Lemma remove_all_partial : forall w a b, well_formed w -> graph_ok w -> single_links w a b ->
  let w' := remove_all_pins w a b in
  (forall p, out_links w' a p = filter (fun l => negb (Nat.eqb (fst l) b)) (out_links w a p)) /\
  (forall p, in_links w' b p = filter (fun y => negb (Nat.eqb y a)) (in_links w b p)) /\
  (forall x p, x <> a -> out_links w' x p = out_links w x p) /\
  (forall x p, x <> b -> in_links w' x p = in_links w x p) /\
  ~ In a (map fst (b_par (w' b))) /\ ~ In b (map fst (b_chi (w' a))) /\
  well_formed w' /\ graph_ok w'.
Proof.
  intros w a b W G S w'. destruct (remove_all_single w a b W S) as [EO EI].
  destruct (remove_all_inv w a b W G S) as [W' G'].
  destruct (graph_listing _ W' G') as (LP & LC & _). fold w' in EO, EI, W', G', LP, LC.
  split; [intros p; rewrite EO, Nat.eqb_refl; reflexivity|].
  split; [intros p; rewrite EI, Nat.eqb_refl; reflexivity|].
  split; [intros x p N; rewrite EO; destruct (Nat.eqb_spec x a); congruence|].
  split; [intros x p N; rewrite EI; destruct (Nat.eqb_spec x b); congruence|].
  split; [|split; [|auto]].
  - rewrite LP. intros [r I]. rewrite EI, Nat.eqb_refl in I. apply filter_In in I. destruct I as [_ I].
    rewrite Nat.eqb_refl in I. discriminate.
  - rewrite LC. intros [s [r I]]. rewrite EO, Nat.eqb_refl in I. apply filter_In in I. destruct I as [_ I].
    unfold to_obj in I. simpl in I. rewrite Nat.eqb_refl in I. discriminate.
Qed.
