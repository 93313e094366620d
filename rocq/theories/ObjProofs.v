(** Lemmas on Obj.v. *)
From Coq Require Import String List Arith Bool ZArith Reals Lia.
From Verif Require Import Vec SharedPtr Obj ObjSpec.
Import ListNotations.
Open Scope list_scope.
Open Scope nat_scope.

(** ** Sets and maps *)
Lemma zin_iff p l : zin p l = true <-> In p l.
Proof.
  unfold zin. rewrite existsb_exists. split; [intros [x [H E]]; apply Z.eqb_eq in E; subst; exact H|].
  intros H. exists p. split; [exact H|apply Z.eqb_refl].
Qed.
Lemma zin_false p l : zin p l = false <-> ~ In p l.
Proof. rewrite <- zin_iff. destruct (zin p l); split; [discriminate|intros H; destruct (H eq_refl)|intros _ H; discriminate|reflexivity]. Qed.
Lemma in_zadd p q l : In q (zadd p l) <-> q = p \/ In q l.
Proof.
  unfold zadd. destruct (zin p l) eqn:E; [apply zin_iff in E; split; [intros H; right; exact H|intros [->|H]; assumption]|].
  rewrite in_app_iff. cbn [In]. split; [intros [H|[H|[]]]; [right|left]; congruence|intros [H|H]; [right; left|left]; congruence].
Qed.
Lemma nodup_snoc : forall A (l : list A) x, NoDup l -> ~ In x l -> NoDup (l ++ [x]).
Proof.
  induction l as [|a l IH]; intros x N H; cbn [List.app]; [constructor; [intros []|constructor]|].
  apply NoDup_cons_iff in N. destruct N as [N1 N2]. constructor; [|apply IH; [exact N2|intros K; apply H; right; exact K]].
  rewrite in_app_iff. intros [K|[K|[]]]; [exact (N1 K)|apply H; left; congruence].
Qed.
Lemma nodup_zadd p l : NoDup l -> NoDup (zadd p l).
Proof. intros N. unfold zadd. destruct (zin p l) eqn:E; [exact N|]. apply nodup_snoc; [exact N|apply zin_false, E]. Qed.
Lemma in_fold_zadd : forall A (f : A -> Z) xs acc q, In q (fold_left (fun l e => zadd (f e) l) xs acc) <-> In q acc \/ exists e, In e xs /\ f e = q.
Proof.
  induction xs as [|x xs IH]; intros acc q; cbn [fold_left]; [split; [left; assumption|intros [H|[e [[] _]]]; exact H]|].
  rewrite IH, in_zadd. split.
  - intros [[->|H]|[e [He E]]]; [right; exists x; split; [left|]; reflexivity|left; exact H|right; exists e; split; [right|]; assumption].
  - intros [H|[e [[->|He] E]]]; [left; right; exact H|left; left; congruence|right; exists e; split; assumption].
Qed.
Lemma nodup_fold_zadd : forall A (f : A -> Z) xs acc, NoDup acc -> NoDup (fold_left (fun l e => zadd (f e) l) xs acc).
Proof. induction xs as [|x xs IH]; intros acc N; cbn [fold_left]; [exact N|]. apply IH, nodup_zadd, N. Qed.

Definition keys (l : list (Z * string)) : list Z := map fst l.
Lemma nfind_none : forall l p, nfind p l = None <-> ~ In p (keys l).
Proof.
  induction l as [|[q s] l IH]; intros p; cbn [nfind keys map fst In]; [split; [intros _ []|reflexivity]|].
  destruct (Z.eqb_spec q p) as [E|E]; [split; [discriminate|intros H; destruct (H (or_introl E))]|].
  rewrite IH. unfold keys. split; [intros H [K|K]; [exact (E K)|exact (H K)]|intros H K; apply H; right; exact K].
Qed.
Lemma nfind_some : forall l p s, NoDup (keys l) -> nfind p l = Some s <-> In (p, s) l.
Proof.
  induction l as [|[q t] l IH]; intros p s N; cbn [nfind In]; [split; [discriminate|intros []]|]. cbn [keys map fst] in N.
  apply NoDup_cons_iff in N. destruct N as [N1 N2]. destruct (Z.eqb_spec q p) as [E|E].
  - split; [intros H; injection H as ->; left; congruence|intros [H|H]; [congruence|]]. destruct N1. apply in_map_iff. exists (p, s). split; [cbn; congruence|exact H].
  - rewrite (IH p s N2). split; [right; assumption|intros [H|H]; [congruence|exact H]].
Qed.
Lemma nfind_app : forall l l' p, nfind p (l ++ l') = match nfind p l with Some s => Some s | None => nfind p l' end.
Proof. induction l as [|[q s] l IH]; intros l' p; cbn [nfind List.app]; [reflexivity|]. destruct (Z.eqb q p); [reflexivity|apply IH]. Qed.
Lemma nfind_nadd p s l q : nfind q (nadd p s l) = match nfind q l with Some t => Some t | None => if Z.eqb p q then Some s else None end.
Proof.
  unfold nadd. destruct (nfind p l) as [t|] eqn:E.
  - destruct (nfind q l) as [u|] eqn:F; [reflexivity|]. destruct (Z.eqb_spec p q) as [->|_]; [congruence|reflexivity].
  - rewrite nfind_app. cbn [nfind]. destruct (nfind q l); [reflexivity|]. destruct (Z.eqb p q); reflexivity.
Qed.
Lemma keys_nadd p s l : NoDup (keys l) -> NoDup (keys (nadd p s l)).
Proof.
  intros N. unfold nadd. destruct (nfind p l) eqn:E; [exact N|]. unfold keys. rewrite map_app. cbn [map fst]. apply nodup_snoc; [exact N|]. apply nfind_none, E.
Qed.
Lemma nfind_nput : forall l p s q, nfind q (nput p s l) = if Z.eqb p q then Some s else nfind q l.
Proof.
  induction l as [|[r t] l IH]; intros p s q; cbn [nput nfind]; [reflexivity|].
  destruct (Z.eqb_spec r p) as [->|E]; cbn [nfind]; [destruct (Z.eqb p q); reflexivity|]. rewrite IH.
  destruct (Z.eqb_spec r q) as [->|F]; [|reflexivity]. destruct (Z.eqb_spec p q); [congruence|reflexivity].
Qed.
Lemma keys_nput : forall l p s, In p (keys l) -> keys (nput p s l) = keys l.
Proof.
  unfold keys. induction l as [|[r t] l IH]; intros p s H; cbn [nput map fst] in *; [destruct H|].
  destruct (Z.eqb_spec r p) as [->|E]; cbn [map fst]; [reflexivity|]. f_equal. apply IH. destruct H as [H|H]; [congruence|exact H].
Qed.
Lemma nfind_fold : forall (name : Z -> string) ps acc p,
  nfind p (fold_left (fun n q => nadd q (name q) n) ps acc) = match nfind p acc with Some s => Some s | None => if zin p ps then Some (name p) else None end.
Proof.
  intros name. induction ps as [|q ps IH]; intros acc p; cbn [fold_left zin existsb]; [destruct (nfind p acc); reflexivity|].
  rewrite IH, nfind_nadd. fold (zin p ps). rewrite (Z.eqb_sym p q). destruct (nfind p acc); [reflexivity|].
  destruct (Z.eqb_spec q p) as [->|]; [reflexivity|]. reflexivity.
Qed.
Lemma keys_fold : forall (name : Z -> string) ps acc, NoDup (keys acc) -> NoDup (keys (fold_left (fun n q => nadd q (name q) n) ps acc)).
Proof. intros name. induction ps as [|q ps IH]; intros acc N; cbn [fold_left]; [exact N|]. apply IH, keys_nadd, N. Qed.
Lemma to_int_id p : int_range p -> to_int p = p.
Proof. unfold int_range, to_int. intros H. rewrite Z.mod_small by lia. lia. Qed.
Lemma to_int_range p : int_range (to_int p).
Proof. unfold int_range, to_int. pose proof (Z.mod_pos_bound (p + 2 ^ 31) (2 ^ 32) ltac:(lia)). lia. Qed.

Lemma has_iff A id (l : list (nat * A)) : has id l = true <-> In id (map fst l).
Proof.
  unfold has. induction l as [|[i v] l IH]; cbn [find map fst In]; [split; [discriminate|intros []]|].
  destruct (Nat.eqb_spec i id) as [E|E]; [split; [left; exact E|reflexivity]|]. rewrite IH. split; [right; assumption|intros [H|H]; [congruence|exact H]].
Qed.
Lemma has_false A id (l : list (nat * A)) : has id l = false <-> ~ In id (map fst l).
Proof. rewrite <- has_iff. destruct (has id l); split; [discriminate|intros H; destruct (H eq_refl)|intros _ H; discriminate|reflexivity]. Qed.
Lemma find_in A id (l : list (nat * A)) v : find id l = Some v -> In (id, v) l.
Proof.
  induction l as [|[i w] l IH]; cbn [find]; [discriminate|]. destruct (Nat.eqb_spec i id) as [->|E]; [intros H; injection H as ->; left; reflexivity|].
  intros H. right. exact (IH H).
Qed.
Lemma in_find A id (l : list (nat * A)) v : distinct l -> In (id, v) l -> find id l = Some v.
Proof.
  unfold distinct. induction l as [|[i w] l IH]; cbn [find map fst]; intros N H; [destruct H|]. apply NoDup_cons_iff in N. destruct N as [N1 N2].
  destruct H as [H|H]; [injection H as -> ->; rewrite Nat.eqb_refl; reflexivity|].
  destruct (Nat.eqb_spec i id) as [->|E]; [destruct N1; apply in_map_iff; exists (id, v); split; [reflexivity|exact H]|]. exact (IH N2 H).
Qed.

(** ** Part identifiers of cells *)
Definition pid_ok (g : obj) : Prop :=
  (forall id c, In (id, c) (o_cells g) -> In (c_pid c) (o_pids g)) /\ NoDup (o_pids g) /\ NoDup (keys (o_names g)) /\
  (forall p, In p (keys (o_names g)) <-> In p (o_pids g)).

Lemma keys_iff l p : In p (keys l) <-> nfind p l <> None.
Proof. rewrite nfind_none. split; [intros H K; exact (K H)|intros H]. destruct (in_dec Z.eq_dec p (keys l)); [assumption|contradiction]. Qed.
Lemma blank_ok ps : NoDup (keys (blank_names ps)) /\ (forall p, In p (keys (blank_names ps)) <-> In p ps) /\ (forall p, In p ps -> nfind p (blank_names ps) = Some EmptyString).
Proof.
  unfold blank_names. pose proof (nfind_fold (fun _ => EmptyString) ps []) as F. cbn [nfind] in F. split; [|split].
  - apply (keys_fold (fun _ => EmptyString)). constructor.
  - intros p. rewrite keys_iff, F, <- zin_iff. destruct (zin p ps); split; congruence.
  - intros p H. rewrite F. apply zin_iff in H. rewrite H. reflexivity.
Qed.
Lemma map_fst_combine : forall A B C (f : A * B -> C) (xs : list A) (ys : list B) (h : A -> C), length ys = length xs ->
  (forall a b, f (a, b) = h a) -> map f (combine xs ys) = map h xs.
Proof.
  induction xs as [|a xs IH]; intros ys h L E; destruct ys as [|b ys]; try discriminate; [reflexivity|]. cbn [combine map]. rewrite E. f_equal. apply IH; [cbn in L; lia|exact E].
Qed.
Lemma put_cell_ids id p cs : map fst (put_cell_pid id p cs) = map fst cs.
Proof.
  unfold put_cell_pid. rewrite map_map. apply map_ext_in. intros [i c] _. cbn [fst]. destruct (Nat.eqb_spec i id) as [->|]; reflexivity.
Qed.
Lemma put_cell_in id p cs i c : In (i, c) (put_cell_pid id p cs) <->
  (i <> id /\ In (i, c) cs) \/ (i = id /\ exists d, In (i, d) cs /\ c = put_pid p d).
Proof.
  unfold put_cell_pid. rewrite in_map_iff. split.
  - intros [[j d] [E H]]. cbn [fst snd] in E. destruct (Nat.eqb_spec j id) as [->|N].
    + injection E as <- <-. right. split; [reflexivity|]. exists d. split; [exact H|reflexivity].
    + injection E as <- <-. left. split; assumption.
  - intros [[N H]|[-> [d [H ->]]]].
    + exists (i, c). cbn [fst snd]. destruct (Nat.eqb_spec i id); [contradiction|]. split; [reflexivity|exact H].
    + exists (id, d). cbn [fst snd]. rewrite Nat.eqb_refl. split; [reflexivity|exact H].
Qed.

Lemma setPID_ids pids g : map fst (o_cells (setPID pids g)) = map fst (o_cells g).
Proof.
  unfold setPID. destruct (Nat.eqb_spec (length pids) (length (o_cells g))) as [L|]; [|reflexivity]. cbn [with_pids with_cells o_cells].
  rewrite map_map. apply map_fst_combine; [exact L|reflexivity].
Qed.
Lemma setPID_cells pids g : length pids = length (o_cells g) -> forall e, In e (combine (o_cells g) pids) ->
  In (fst (fst e), put_pid (snd e) (snd (fst e))) (o_cells (setPID pids g)).
Proof.
  intros L e H. unfold setPID. apply Nat.eqb_eq in L. rewrite L. cbn [with_pids with_cells o_cells]. apply in_map_iff. exists e. split; [reflexivity|exact H].
Qed.
Lemma setPID_ok pids g : (forall p, In p pids -> int_range p) -> pid_ok g -> pid_ok (setPID pids g).
Proof.
  intros R0 [A [B [C D]]]. unfold setPID. destruct (Nat.eqb_spec (length pids) (length (o_cells g))) as [L|]; [|split; [exact A|split; [exact B|split; assumption]]].
  set (ps := fold_left _ pids []). destruct (blank_ok ps) as [B1 [B2 B3]]. split; [|split; [apply (nodup_fold_zadd Z (fun p => p)); constructor|split; assumption]].
  cbn [with_pids with_cells o_cells o_pids]. intros id c H. apply in_map_iff in H. destruct H as [[[i d] p] [E H]]. cbn [fst snd] in E.
  injection E as _ <-. cbn [put_pid c_pid]. assert (Hp : In p pids) by (apply in_combine_r in H; exact H). rewrite to_int_id by (apply R0, Hp).
  unfold ps. apply (in_fold_zadd Z (fun p => p)). right. exists p. split; [exact Hp|reflexivity].
Qed.
Lemma setPIDCell_ok id p g : int_range p -> pid_ok g -> pid_ok (setPIDCell id p g).
Proof.
  intros R0 [A [B [C D]]]. unfold setPIDCell. destruct (has id (o_cells g)); [|split; [exact A|split; [exact B|split; assumption]]].
  split; [|split; [apply nodup_zadd, B|split; [apply keys_nadd, C|]]]; cbn [with_pids with_cells o_cells o_pids o_names].
  - intros i c H. apply put_cell_in in H. rewrite in_zadd. destruct H as [[_ H]|[_ [d [_ ->]]]]; [right; exact (A i c H)|left]. cbn [put_pid c_pid]. apply to_int_id, R0.
  - intros q. rewrite keys_iff, nfind_nadd, in_zadd, <- (D q), keys_iff. destruct (nfind q (o_names g)) as [s|].
    + split; [right; discriminate|discriminate].
    + destruct (Z.eqb_spec p q) as [->|N]; split; try discriminate; [left; reflexivity|intros K; destruct (K eq_refl)|intros [K|K]; [congruence|destruct (K eq_refl)]].
Qed.
Lemma setPIDName_ok p s g : pid_ok g -> pid_ok (snd (setPIDName p s g)).
Proof.
  intros [A [B [C D]]]. unfold setPIDName. destruct (nfind p (o_names g)) as [t|] eqn:E; [|split; [exact A|split; [exact B|split; assumption]]].
  assert (K : In p (keys (o_names g))) by (apply keys_iff; congruence).
  cbn [snd with_pids]. unfold pid_ok. cbn [with_pids o_cells o_pids o_names]. rewrite (keys_nput _ p s K). split; [exact A|split; [exact B|split; assumption]].
Qed.
Lemma resync_pids g p : In p (o_pids (resyncPID g)) <-> exists id, carries g id p.
Proof.
  unfold resyncPID. cbn [with_pids o_pids]. rewrite (in_fold_zadd _ (fun e : nat * cell => c_pid (snd e))). split.
  - intros [[]|[[id c] [H E]]]. exists id, c. split; assumption.
  - intros [id [c [H E]]]. right. exists (id, c). split; assumption.
Qed.
Lemma resync_names g p : nfind p (o_names (resyncPID g)) =
  if zin p (o_pids (resyncPID g)) then Some (match nfind p (o_names g) with Some s => s | None => EmptyString end) else None.
Proof.
  unfold resyncPID. cbn [with_pids o_pids o_names].
  rewrite (nfind_fold (fun p => match nfind p (o_names g) with Some s => s | None => EmptyString end)). reflexivity.
Qed.
Lemma resync_keys g : NoDup (keys (o_names (resyncPID g))).
Proof. unfold resyncPID. cbn [with_pids o_names]. apply (keys_fold (fun p => match nfind p (o_names g) with Some s => s | None => EmptyString end)). constructor. Qed.
Lemma resync_ok g : pid_ok (resyncPID g).
Proof.
  split; [|split; [apply (nodup_fold_zadd _ (fun e : nat * cell => c_pid (snd e))); constructor|split; [apply resync_keys|]]].
  - intros id c H. apply resync_pids. exists id, c. split; [exact H|reflexivity].
  - intros p. rewrite keys_iff, resync_names, <- zin_iff. destruct (zin p _); split; congruence.
Qed.
Lemma delete_ok id g : pid_ok g -> pid_ok (deleteCell id g).
Proof.
  intros [A B]. split; [|exact B]. intros i c H. cbn [deleteCell with_cells o_cells] in H. apply filter_In in H. exact (A i c (proj1 H)).
Qed.

(** ** Adding cells *)
Lemma put_cell_absent i p cs : ~ In i (map fst cs) -> put_cell_pid i p cs = cs.
Proof.
  intros H. unfold put_cell_pid. rewrite <- (map_id cs) at 2. apply map_ext_in. intros [j c] Hj. cbn [fst].
  destruct (Nat.eqb_spec j i) as [->|]; [|reflexivity]. destruct H. apply in_map_iff. exists (i, c). split; [reflexivity|exact Hj].
Qed.
Lemma add_cell_eq i t l p g : ~ In i (map fst (o_cells g)) ->
  add_cell i t l p g = Ob (o_type g) (o_tol g) (o_verts g) (o_cells g ++ [(i, Cl t l (to_int p))]) (zadd p (o_pids g)) (nadd p EmptyString (o_names g)).
Proof.
  intros H. unfold add_cell, setPIDCell. cbn [with_cells o_cells].
  replace (has i (o_cells g ++ [(i, Cl t l 0%Z)])) with true by (symmetry; apply has_iff; rewrite map_app, in_app_iff; right; left; reflexivity).
  cbn [with_pids with_cells o_type o_tol o_verts o_pids o_names]. f_equal. unfold put_cell_pid. rewrite map_app. fold (put_cell_pid i p (o_cells g)).
  rewrite put_cell_absent by exact H. cbn [map fst snd]. rewrite Nat.eqb_refl. reflexivity.
Qed.
Lemma add_cell_ok i t l p g : int_range p -> ~ In i (map fst (o_cells g)) -> pid_ok g -> pid_ok (add_cell i t l p g).
Proof.
  intros R0 H [A [B [C D]]]. rewrite add_cell_eq by exact H. split; [|split; [apply nodup_zadd, B|split; [apply keys_nadd, C|]]]; cbn [o_cells o_pids o_names].
  - intros j c K. rewrite in_zadd. apply in_app_iff in K. destruct K as [K|[K|[]]]; [right; exact (A j c K)|left]. injection K as _ <-. cbn [c_pid]. apply to_int_id, R0.
  - intros q. rewrite keys_iff, nfind_nadd, in_zadd, <- (D q), keys_iff. destruct (nfind q (o_names g)) as [s|].
    + split; [right; discriminate|discriminate].
    + destruct (Z.eqb_spec p q) as [->|N]; split; try discriminate; [left; reflexivity|intros K; destruct (K eq_refl)|intros [K|K]; [congruence|destruct (K eq_refl)]].
Qed.
Lemma pick_new fr id cs : new_ids fr -> (match id with Some i => has i cs | None => false end) = false -> ~ In (pick_id fr id (map fst cs)) (map fst (cs : list (nat * cell))).
Proof. intros N H. destruct id as [i|]; cbn [pick_id]; [apply has_false, H|apply N]. Qed.
Lemma addConnectedCell_cases fr l t p id g : addConnectedCell fr l t p id g = (None, g) \/
  exists i, addConnectedCell fr l t p id g = (Some i, add_cell i t l p g) /\ l <> [] /\ checkCellConnCoherence t l = true /\
    (match id with Some i => has i (o_cells g) | None => false end) = false /\ i = pick_id fr id (map fst (o_cells g)).
Proof.
  unfold addConnectedCell. destruct l as [|a l]; [left; reflexivity|]. destruct (match id with Some i => has i (o_cells g) | None => false end) eqn:E; [left; reflexivity|].
  destruct (checkCellConnCoherence t (a :: l)) eqn:F; [right|left; reflexivity]. eexists. split; [reflexivity|]. split; [discriminate|]. repeat split.
Qed.
Lemma addCell_cases fr c id g : addCell fr c id g = (None, g) \/
  exists i, addCell fr c id g = (Some i, add_cell i (c_type c) (c_conn c) (c_pid c) g) /\
    (match id with Some i => has i (o_cells g) | None => false end) = false /\ i = pick_id fr id (map fst (o_cells g)).
Proof.
  unfold addCell. destruct (match id with Some i => has i (o_cells g) | None => false end) eqn:E; [left; reflexivity|right].
  eexists. split; [reflexivity|]. split; reflexivity.
Qed.

Lemma nodup_map_filter A (f : nat * A -> bool) l : distinct l -> NoDup (map fst (filter f l)).
Proof.
  unfold distinct. induction l as [|[i a] l IH]; cbn [filter map fst]; intros N; [constructor|]. apply NoDup_cons_iff in N. destruct N as [N1 N2].
  destruct (f (i, a)); [|exact (IH N2)]. cbn [map fst]. constructor; [|exact (IH N2)]. intros K. apply N1. apply in_map_iff in K. destruct K as [x [E H]].
  apply filter_In in H. apply in_map_iff. exists x. split; [exact E|exact (proj1 H)].
Qed.

(** ** Effects of the PID functions *)
Lemma setPID_map_cells m g : (forall id, In id (map fst (o_cells g)) -> In id (map fst m)) -> (forall e, In e m -> int_range (snd e)) ->
  distinct m -> forall id c, In (id, c) (o_cells (setPID_map m g)) -> exists p, In (id, p) m /\ c_pid c = p.
Proof.
  intros Cov R0 N.
  assert (NDF : forall (f : nat * Z -> bool) l, distinct l -> NoDup (map fst (filter f l))).
  { intros f l. apply nodup_map_filter. }
  assert (F : forall here cs id c, distinct here -> (forall e, In e here -> int_range (snd e)) ->
    In (id, c) (fold_left (fun cs e => put_cell_pid (fst e) (snd e) cs) here cs) ->
    (exists p, In (id, p) here /\ c_pid c = p) \/ (~ In id (map fst here) /\ In (id, c) cs)).
  { induction here as [|[i p] here IH]; intros cs id c D I H; cbn [fold_left fst snd] in H; [right; split; [intros []|exact H]|].
    unfold distinct in D. cbn [map fst] in D. apply NoDup_cons_iff in D. destruct D as [D1 D2].
    destruct (IH _ id c D2 (fun e He => I e (or_intror He)) H) as [[q [Hq E]]|[Hn K]].
    - left. exists q. split; [right; exact Hq|exact E].
    - apply put_cell_in in K. destruct K as [[Ni K]|[-> [d [Hd ->]]]].
      + right. split; [cbn [map fst In]; intros [Q|Q]; [congruence|exact (Hn Q)]|exact K].
      + left. exists p. split; [left; reflexivity|]. cbn [put_pid c_pid]. apply to_int_id. exact (I (i, p) (or_introl eq_refl)). }
  intros id c H. unfold setPID_map in H. destruct (o_cells g) as [|e0 cs] eqn:E; [rewrite E in H; destruct H|]. rewrite <- E in *.
  cbn [with_pids with_cells o_cells] in H. eapply F in H. 1: destruct H as [[p [Hp Ep]]|[Hn K]].
  3: { unfold distinct. apply NDF. exact N. }
  3: { intros x Hx. apply filter_In in Hx. exact (R0 x (proj1 Hx)). }
  - exists p. apply filter_In in Hp. split; [exact (proj1 Hp)|exact Ep].
  - destruct Hn. assert (Hid : In id (map fst (o_cells g))) by (apply in_map_iff; exists (id, c); split; [reflexivity|exact K]).
    destruct (proj1 (in_map_iff _ _ _) (Cov id Hid)) as [[j p] [Ej Hm]]. cbn [fst] in Ej. subst j. apply in_map_iff. exists (id, p). split; [reflexivity|].
    apply filter_In. split; [exact Hm|]. apply has_iff. exact Hid.
Qed.
Lemma setPID_map_ids m g : map fst (o_cells (setPID_map m g)) = map fst (o_cells g).
Proof.
  unfold setPID_map. destruct (o_cells g) as [|e0 cs] eqn:E; [rewrite E; reflexivity|]. rewrite <- E. cbn [with_pids with_cells o_cells].
  assert (F : forall here cs, map fst (fold_left (fun cs e => put_cell_pid (fst e) (snd e) cs) here cs) = map fst cs).
  { induction here as [|x here IH]; intros cs'; cbn [fold_left]; [reflexivity|]. rewrite IH. apply put_cell_ids. }
  apply F.
Qed.
Lemma setPID_map_ok m g : (forall id, In id (map fst (o_cells g)) -> In id (map fst m)) -> (forall e, In e m -> int_range (snd e)) ->
  distinct m -> pid_ok g -> pid_ok (setPID_map m g).
Proof.
  intros Cov R0 N K. pose proof (setPID_map_cells m g Cov R0 N) as Cells. pose proof (setPID_map_ids m g) as Ids.
  unfold setPID_map in *. destruct (o_cells g) as [|e0 cs] eqn:E; [exact K|]. rewrite <- E in *.
  set (here := filter _ m) in *. set (ps := fold_left _ here []) in *. destruct (blank_ok ps) as [B1 [B2 B3]].
  split; [|split; [apply (nodup_fold_zadd _ (fun e : nat * Z => snd e)); constructor|split; assumption]].
  intros id c H. destruct (Cells id c H) as [p [Hp Ep]]. cbn [with_pids o_pids]. rewrite Ep. unfold ps. apply (in_fold_zadd _ (fun e : nat * Z => snd e)). right.
  exists (id, p). split; [|reflexivity]. unfold here. apply filter_In. split; [exact Hp|]. apply has_iff. rewrite <- Ids. apply in_map_iff. exists (id, c). split; [reflexivity|exact H].
Qed.

Lemma extract_in g p id : pid_ok g -> In id (extractPIDCells p g) <-> carries g id p.
Proof.
  intros [A _]. unfold extractPIDCells, carries. destruct (zin p (o_pids g)) eqn:E.
  - rewrite in_map_iff. split.
    + intros [[i c] [Ei H]]. apply filter_In in H. destruct H as [H K]. cbn [fst snd] in *. apply Z.eqb_eq in K. subst i. exists c. split; assumption.
    + intros [c [H Ec]]. exists (id, c). split; [reflexivity|]. apply filter_In. split; [exact H|]. apply Z.eqb_eq, Ec.
  - split; [intros []|]. intros [c [H Ec]]. apply zin_false in E. apply E. rewrite <- Ec. exact (A id c H).
Qed.
(** the entry of a PID in the subdivision *)
Fixpoint entry (p : Z) (m : list (Z * list nat)) : option (list nat) :=
  match m with [] => None | (q, l) :: r => if Z.eqb q p then Some l else entry p r end.
Lemma entry_push : forall m p id q, entry q (push p id m) =
  if Z.eqb p q then Some (match entry p m with Some l => l ++ [id] | None => [id] end) else entry q m.
Proof.
  induction m as [|[r l] m IH]; intros p id q; cbn [push entry]; [reflexivity|]. destruct (Z.eqb_spec r p) as [->|E]; cbn [entry].
  - destruct (Z.eqb_spec p q) as [->|F]; [reflexivity|reflexivity].
  - rewrite IH. destruct (Z.eqb_spec r q) as [->|F]; [|reflexivity]. destruct (Z.eqb_spec p q) as [->|]; [congruence|reflexivity].
Qed.
Lemma push_keys : forall m p id, In p (map fst m) -> map fst (push p id m) = map fst m.
Proof.
  induction m as [|[r l] m IH]; intros p id H; cbn [push map fst] in *; [destruct H|]. destruct (Z.eqb_spec r p) as [->|E]; cbn [map fst]; [reflexivity|].
  f_equal. apply IH. destruct H; [congruence|assumption].
Qed.
Lemma subdivision_fold : forall cs m, (forall i c, In (i, c) cs -> In (c_pid c) (map fst m)) ->
  map fst (fold_left (fun m e => push (c_pid (snd e)) (fst e) m) cs m) = map fst m /\
  forall p, entry p (fold_left (fun m e => push (c_pid (snd e)) (fst e) m) cs m) =
    match entry p m with Some l => Some (l ++ map fst (filter (fun e => Z.eqb (c_pid (snd e)) p) cs)) | None => None end.
Proof.
  induction cs as [|[i c] cs IH]; intros m H; cbn [fold_left fst snd].
  - split; [reflexivity|]. intros p. cbn [filter map]. destruct (entry p m); [rewrite app_nil_r|]; reflexivity.
  - assert (Hc : In (c_pid c) (map fst m)) by (exact (H i c (or_introl eq_refl))). pose proof (push_keys m (c_pid c) i Hc) as K.
    destruct (IH (push (c_pid c) i m)) as [I1 I2]; [intros j d Hd; rewrite K; exact (H j d (or_intror Hd))|]. split; [rewrite I1; exact K|].
    intros p. rewrite I2, entry_push. cbn [filter snd]. destruct (Z.eqb_spec (c_pid c) p) as [Ep|N]; [|reflexivity]. rewrite Ep in *.
    cbn [map fst]. destruct (entry p m) as [l|] eqn:E.
    + f_equal. rewrite <- app_assoc. reflexivity.
    + exfalso. clear -Hc E. induction m as [|[q l] m IH]; [destruct Hc|]. cbn [entry map fst] in *. destruct (Z.eqb_spec q p); [discriminate|]. destruct Hc as [Hc|Hc]; [congruence|exact (IH Hc E)].
Qed.
Lemma entry_in : forall m p l, NoDup (map fst m) -> In (p, l) m <-> entry p m = Some l.
Proof.
  induction m as [|[q k] m IH]; intros p l N; cbn [entry In]; [split; [intros []|discriminate]|]. cbn [map fst] in N. apply NoDup_cons_iff in N. destruct N as [N1 N2].
  destruct (Z.eqb_spec q p) as [->|E].
  - split; [intros [H|H]; [congruence|]|intros H; left; congruence]. destruct N1. apply in_map_iff. exists (p, l). split; [reflexivity|exact H].
  - rewrite <- (IH p l N2). split; [intros [H|H]; [congruence|exact H]|right; assumption].
Qed.
Lemma entry_blank : forall ps p, entry p (map (fun q => (q, [])) ps) = if zin p ps then Some [] else None.
Proof.
  induction ps as [|q ps IH]; intros p; cbn [map entry zin existsb]; [reflexivity|]. rewrite (Z.eqb_sym p q). destruct (Z.eqb q p); [reflexivity|apply IH].
Qed.
Lemma subdivision_entry g : pid_ok g -> map fst (extractPIDSubdivision g) = o_pids g /\
  forall p l, In (p, l) (extractPIDSubdivision g) <-> In p (o_pids g) /\ l = extractPIDCells p g.
Proof.
  intros [A [B _]]. assert (Key : forall ps : list Z, map fst (map (fun q => (q, [] : list nat)) ps) = ps) by (intros ps; rewrite map_map; apply map_id).
  assert (Sub : extractPIDSubdivision g = fold_left (fun m e => push (c_pid (snd e)) (fst e) m) (o_cells g) (map (fun p => (p, [])) (o_pids g))).
  { unfold extractPIDSubdivision. destruct (o_pids g) eqn:E; [|reflexivity]. destruct (o_cells g) as [|[i c] cs]; [reflexivity|]. destruct (A i c (or_introl eq_refl)). }
  destruct (subdivision_fold (o_cells g) (map (fun p => (p, [])) (o_pids g))) as [F1 F2]; [intros i c H; rewrite Key; exact (A i c H)|].
  rewrite Key in F1. rewrite <- Sub in F1, F2. split; [exact F1|]. intros p l. rewrite entry_in by (rewrite F1; exact B). rewrite F2, entry_blank.
  unfold extractPIDCells. destruct (zin p (o_pids g)) eqn:E.
  - cbn [List.app]. apply zin_iff in E. split; [intros H; injection H as <-; split; [exact E|reflexivity]|intros [_ ->]; reflexivity].
  - apply zin_false in E. split; [discriminate|intros [H _]; contradiction].
Qed.

(** ** clone *)
Lemma clone_fold : forall ns r, let r' := fold_left (fun r e => snd (setPIDName (fst e) (snd e) r)) ns r in
  o_type r' = o_type r /\ o_tol r' = o_tol r /\ o_verts r' = o_verts r /\ o_cells r' = o_cells r /\ o_pids r' = o_pids r /\
  (NoDup (keys ns) -> forall p, nfind p (o_names r') = match nfind p (o_names r) with None => None | Some s => Some (match nfind p ns with Some t => t | None => s end) end).
Proof.
  induction ns as [|[q t] ns IH]; intros r; cbn [fold_left fst snd]; cbv zeta.
  - repeat split. intros _ p. cbn [nfind]. destruct (nfind p (o_names r)); reflexivity.
  - destruct (IH (snd (setPIDName q t r))) as [I1 [I2 [I3 [I4 [I5 I6]]]]]. cbv zeta in *.
    assert (E : forall p, nfind p (o_names (snd (setPIDName q t r))) = match nfind p (o_names r) with None => None | Some s => Some (if Z.eqb q p then t else s) end).
    { intros p. unfold setPIDName. destruct (nfind q (o_names r)) as [u|] eqn:F; cbn [snd with_pids o_names].
      - rewrite nfind_nput. destruct (Z.eqb_spec q p) as [->|N]; [rewrite F; reflexivity|]. destruct (nfind p (o_names r)); reflexivity.
      - destruct (nfind p (o_names r)) as [v|] eqn:G; [|reflexivity]. destruct (Z.eqb_spec q p) as [->|N]; [congruence|reflexivity]. }
    assert (S0 : o_type (snd (setPIDName q t r)) = o_type r /\ o_tol (snd (setPIDName q t r)) = o_tol r /\ o_verts (snd (setPIDName q t r)) = o_verts r /\
      o_cells (snd (setPIDName q t r)) = o_cells r /\ o_pids (snd (setPIDName q t r)) = o_pids r)
      by (unfold setPIDName; destruct (nfind q (o_names r)); repeat split).
    destruct S0 as [E1 [E2 [E3 [E4 E5]]]].
    split; [congruence|split; [congruence|split; [congruence|split; [congruence|split; [congruence|]]]]].
    intros N p. cbn [keys map fst] in N. apply NoDup_cons_iff in N. destruct N as [N1 N2]. rewrite (I6 N2 p), E. cbn [nfind].
    destruct (nfind p (o_names r)) as [v|]; [|reflexivity]. f_equal. destruct (Z.eqb_spec q p) as [->|]; [|reflexivity].
    destruct (nfind p ns) eqn:G; [|reflexivity]. destruct N1. apply keys_iff. congruence.
Qed.

(** ** Connectivities *)
Lemma skipn_skipn : forall q n (l : list nat), skipn n (skipn q l) = skipn (n + q) l.
Proof. induction q as [|q IH]; intros n l; [rewrite Nat.add_0_r; reflexivity|]. rewrite Nat.add_succ_r. destruct l; cbn [skipn]; [destruct n; reflexivity|apply IH]. Qed.
Lemma stream_length_pos fs : fs <> [] -> 0 < length (stream fs).
Proof. destruct fs; [congruence|]. intros _. cbn [stream flat_map]. rewrite app_length. cbn [length]. lia. Qed.
Lemma walk_iff : forall k pos l, pos <= length l -> walk k pos l = (length l, 0) <-> exists fs, length fs = k /\ skipn pos l = stream fs.
Proof.
  induction k as [|k IH]; intros pos l P; cbn [walk].
  - split.
    + intros H. injection H as ->. exists []. split; [reflexivity|]. apply skipn_all.
    + intros [fs [L E]]. destruct fs; [|discriminate]. apply (f_equal (@length nat)) in E. rewrite skipn_length in E. cbn in E. f_equal. lia.
  - destruct (Nat.ltb_spec pos (length l)) as [Q|Q].
    + assert (Sk : skipn pos l = nth pos l 0 :: skipn (S pos) l).
      { clear -Q. revert pos Q. induction l as [|a l IH]; intros pos Q; [cbn in Q; lia|]. destruct pos; [reflexivity|]. cbn [skipn nth length] in *. apply IH. lia. }
      set (n := nth pos l 0) in *. destruct (Nat.le_gt_cases (pos + n + 1) (length l)) as [B|B].
      * rewrite (IH (pos + n + 1) l B). split.
        -- intros [fs [L E]]. exists (firstn n (skipn (S pos) l) :: fs). split; [cbn; lia|]. rewrite Sk. cbn [stream flat_map]. fold (stream fs). rewrite <- E.
           cbn [List.app]. rewrite firstn_length, skipn_length, Nat.min_l by lia. f_equal.
           replace (pos + n + 1) with (n + S pos) by lia. rewrite <- (firstn_skipn n (skipn (S pos) l)) at 1. f_equal.
           apply skipn_skipn.
        -- intros [fs [L E]]. destruct fs as [|f fs]; [discriminate|]. rewrite Sk in E. cbn [stream flat_map List.app] in E. fold (stream fs) in E. injection E as En Er. change (skipn (S pos) l = f ++ stream fs) in Er.
           exists fs. split; [cbn in L; lia|]. replace (pos + n + 1) with (n + S pos) by lia. rewrite En.
           assert (A : skipn (length f + S pos) l = skipn (length f) (skipn (S pos) l)).
           { symmetry. apply skipn_skipn. }
           rewrite A, Er, skipn_app, skipn_all, Nat.sub_diag. reflexivity.
      * split.
        -- intros H. exfalso. destruct k as [|k]; cbn [walk] in H; [injection H as H; lia|]. replace (pos + n + 1 <? length l) with false in H by (symmetry; apply Nat.ltb_ge; lia). discriminate.
        -- intros [fs [L E]]. exfalso. destruct fs as [|f fs]; [discriminate|]. rewrite Sk in E. cbn [stream flat_map List.app] in E. fold (stream fs) in E. injection E as En Er. change (skipn (S pos) l = f ++ stream fs) in Er.
           apply (f_equal (@length nat)) in Er. rewrite skipn_length, app_length in Er. lia.
    + split; [discriminate|]. intros [fs [L E]]. destruct fs as [|f fs]; [discriminate|]. apply (f_equal (@length nat)) in E.
      rewrite skipn_length in E. cbn [stream flat_map List.app length] in E. lia.
Qed.
Lemma polyhedron_iff l : is_polyhedron l = true <-> exists fs, l = length fs :: stream fs.
Proof.
  destruct l as [|a r]; [split; [discriminate|intros [fs E]; discriminate]|].
  unfold is_polyhedron. cbn [hd]. destruct (walk a 1 (a :: r)) as [pos left] eqn:E. rewrite andb_true_iff, !Nat.eqb_eq.
  assert (I := walk_iff a 1 (a :: r) ltac:(cbn; lia)). rewrite E in I. cbn [skipn] in I. split.
  - intros [-> ->]. destruct (proj1 I eq_refl) as [fs [L S0]]. exists fs. congruence.
  - intros [fs F]. injection F as Fa Fr. assert (X : (pos, left) = (length (a :: r), 0)) by (apply I; exists fs; split; congruence). injection X as -> ->. split; reflexivity.
Qed.
Lemma stream_inj : forall fs fs', length fs = length fs' -> stream fs = stream fs' -> fs = fs'.
Proof.
  induction fs as [|f fs IH]; intros [|f' fs'] L E; try discriminate; [reflexivity|]. cbn [stream flat_map List.app] in E. fold (stream fs) (stream fs') in E.
  injection E as E1 E2. assert (F : f = f').
  { apply (f_equal (firstn (length f))) in E2. rewrite firstn_app, firstn_all, Nat.sub_diag in E2. cbn [firstn] in E2. rewrite app_nil_r in E2.
    rewrite E1, firstn_app, firstn_all, Nat.sub_diag in E2. cbn [firstn] in E2. rewrite app_nil_r in E2. exact E2. }
  subst f'. f_equal. apply IH; [cbn in L; lia|]. exact (app_inv_head _ _ _ E2).
Qed.
Lemma means_unique t l fs fs' : means t l fs -> means t l fs' -> fs = fs'.
Proof.
  intros H H'. destruct H as [t l n F L|l|fs].
  - remember t as t0 eqn:Et. remember l as l0 eqn:El. destruct H' as [t' l' n' F' L'|l'|fs']; [reflexivity| |]; subst t; discriminate.
  - inversion H' as [? ? ? F| |]; [discriminate|reflexivity].
  - inversion H' as [? ? ? F| |fs0 E]; [discriminate|]. apply stream_inj; congruence.
Qed.
Lemma coherent_iff t l : checkCellConnCoherence t l = true <->
  (exists fs, means t l fs) /\ (t = EPolygon -> 3 <= length l) /\ (t = EPolyhedron -> 9 <= length l).
Proof.
  assert (Fix : forall n, fixed_size t = Some n -> (Nat.eqb (length l) n = true <-> (exists fs, means t l fs) /\ (t = EPolygon -> 3 <= length l) /\ (t = EPolyhedron -> 9 <= length l))).
  { intros n F. rewrite Nat.eqb_eq. split.
    - intros L. split; [exists [l]; econstructor; eassumption|]. split; intros ->; discriminate.
    - intros [[fs H] _]. inversion H; subst; try discriminate. congruence. }
  destruct t; cbn [checkCellConnCoherence]; try (apply Fix; reflexivity).
  - destruct (Nat.ltb_spec (length l) 3) as [Q|Q]; [split; [discriminate|intros [_ [B _]]; specialize (B eq_refl); lia]|]. rewrite Nat.eqb_eq. split.
    + intros L. split; [|split; [intros _; exact Q|discriminate]]. destruct l as [|a l]; [cbn in Q; lia|]. exists [l]. cbn [length hd] in L. replace a with (length l) by lia. constructor.
    + intros [[fs H] _]. inversion H; subst; [discriminate|]. cbn [length hd]. lia.
  - destruct (Nat.ltb_spec (length l) 9) as [Q|Q]; [split; [discriminate|intros [_ [_ B]]; specialize (B eq_refl); lia]|]. rewrite polyhedron_iff. split.
    + intros [fs ->]. split; [exists fs; constructor|]. split; [discriminate|intros _; exact Q].
    + intros [[fs H] _]. inversion H; subst; [discriminate|]. exists fs. reflexivity.
  - split; [discriminate|]. intros [[fs H] _]. inversion H; discriminate.
Qed.
Lemma fixed_length t l n fs : fixed_size t = Some n -> means t l fs -> length l = n.
Proof. intros F H. inversion H; subst; try discriminate. congruence. Qed.
Lemma desume_iff t l e : 1 <= t <= 4 -> (desumeElement t l = e /\ e <> EUndefined) <-> documented t e l /\ readable e l.
Proof.
  intros T. unfold documented.
  assert (Fix : forall a n, fixed_size a = Some n -> length l = n -> means a l [l]) by (intros; econstructor; eassumption).
  assert (Len : forall a n fs, fixed_size a = Some n -> means a l fs -> length l = n) by (intros a n fs; apply fixed_length).
  assert (T' : t = 1 \/ t = 2 \/ t = 3 \/ t = 4) by lia. destruct T' as [-> | [-> | [-> | ->]]]; cbn [desumeElement of_type].
  - destruct ((4 <? length l) && Nat.eqb (length l) (hd 0 l + 1)) eqn:P.
    + apply andb_true_iff in P. destruct P as [P1 P2]. apply Nat.ltb_lt in P1. apply Nat.eqb_eq in P2. split.
      * intros [<- _]. cbn [readable]. split; [|lia]. split; [tauto|]. destruct l as [|a l]; [cbn in P1; lia|]. exists [l]. cbn [length hd] in P2. replace a with (length l) by lia. constructor.
      * intros [[[-> | [-> | ->]] [fs H]] _]; [apply (Len _ 3) in H; [lia|reflexivity]|apply (Len _ 4) in H; [lia|reflexivity]|split; [reflexivity|discriminate]].
    + split.
      * intros [<- N]. destruct l as [|a [|b [|c [|d [|x l]]]]]; cbn [length] in N |- *; try (destruct (N eq_refl)); (split; [split; [tauto|eexists; eapply Fix; reflexivity]|exact I]).
      * intros [[[-> | [-> | ->]] [fs H]] R0].
        -- apply (Len _ 3) in H; [|reflexivity]. rewrite H. split; [reflexivity|discriminate].
        -- apply (Len _ 4) in H; [|reflexivity]. rewrite H. split; [reflexivity|discriminate].
        -- exfalso. inversion H; subst; [discriminate|]. apply andb_false_iff in P. cbn [readable length hd] in *. destruct P as [P|P]; [apply Nat.ltb_ge in P; lia|apply Nat.eqb_neq in P; lia].
  - destruct ((8 <? length l) && is_polyhedron l) eqn:P.
    + apply andb_true_iff in P. destruct P as [P1 P2]. apply Nat.ltb_lt in P1. split.
      * intros [<- _]. cbn [readable]. split; [|lia]. split; [tauto|]. apply polyhedron_iff in P2. destruct P2 as [fs ->]. exists fs. constructor.
      * intros [[[-> | [-> | [-> | [-> | ->]]]] [fs H]] _]; [apply (Len _ 4) in H; [lia|reflexivity]|apply (Len _ 5) in H; [lia|reflexivity]|apply (Len _ 6) in H; [lia|reflexivity]|apply (Len _ 8) in H; [lia|reflexivity]|split; [reflexivity|discriminate]].
    + split.
      * intros [<- N]. destruct l as [|a1 [|a2 [|a3 [|a4 [|a5 [|a6 [|a7 [|a8 [|a9 l]]]]]]]]]; cbn [length] in N |- *; try (destruct (N eq_refl)); (split; [split; [tauto|eexists; eapply Fix; reflexivity]|exact I]).
      * intros [[[-> | [-> | [-> | [-> | ->]]]] [fs H]] R0].
        -- apply (Len _ 4) in H; [|reflexivity]. rewrite H. split; [reflexivity|discriminate].
        -- apply (Len _ 5) in H; [|reflexivity]. rewrite H. split; [reflexivity|discriminate].
        -- apply (Len _ 6) in H; [|reflexivity]. rewrite H. split; [reflexivity|discriminate].
        -- apply (Len _ 8) in H; [|reflexivity]. rewrite H. split; [reflexivity|discriminate].
        -- exfalso. inversion H; subst; [discriminate|]. apply andb_false_iff in P. cbn [readable] in R0. destruct P as [P|P]; [apply Nat.ltb_ge in P; lia|].
           assert (Q : is_polyhedron (length fs :: stream fs) = true) by (apply polyhedron_iff; exists fs; reflexivity). congruence.
  - split.
    + intros [<- N]. destruct l as [|a [|b l]]; cbn [length] in N |- *; try (destruct (N eq_refl)). split; [split; [reflexivity|eexists; eapply Fix; reflexivity]|exact I].
    + intros [[-> [fs H]] _]. apply (Len _ 1) in H; [|reflexivity]. rewrite H. split; [reflexivity|discriminate].
  - split.
    + intros [<- N]. destruct l as [|a [|b [|c l]]]; cbn [length] in N |- *; try (destruct (N eq_refl)). split; [split; [reflexivity|eexists; eapply Fix; reflexivity]|exact I].
    + intros [[-> [fs H]] _]. apply (Len _ 2) in H; [|reflexivity]. rewrite H. split; [reflexivity|discriminate].
Qed.

(** ** The constructor from lists *)
Definition kept (t : nat) (conn : list (list nat)) : list (list nat) :=
  filter (fun l => negb (elem_eqb (desumeElement t l) EUndefined)) conn.
Lemma elem_eqb_iff a b : elem_eqb a b = true <-> a = b.
Proof. destruct a, b; cbn; split; congruence. Qed.
Lemma desume_coherent t l : 1 <= t <= 4 -> desumeElement t l <> EUndefined -> checkCellConnCoherence (desumeElement t l) l = true /\ l <> [].
Proof.
  intros T N. destruct (proj1 (desume_iff t l (desumeElement t l) T) (conj eq_refl N)) as [[O0 [fs H]] R0]. split.
  - apply coherent_iff. split; [exists fs; exact H|]. split; intros E; rewrite E in R0; cbn [readable] in R0; lia.
  - intros ->. destruct t as [|[|[|[|[|t]]]]]; cbn in N; congruence.
Qed.
Lemma length_new l : ~ In (length (l : list (nat * cell))) (map fst (combine (seq 0 (length l)) (map snd l))).
Proof.
  intros H. apply in_map_iff in H. destruct H as [[i c] [E H]]. cbn [fst] in E. apply in_combine_l, in_seq in H. lia.
Qed.
Definition as_cell (t : nat) (l : list nat) : cell := Cl (desumeElement t l) l 0%Z.
Lemma combine_snoc : forall A (xs : list A) x k, combine (seq k (length (xs ++ [x]))) (xs ++ [x]) = combine (seq k (length xs)) xs ++ [(k + length xs, x)].
Proof.
  induction xs as [|y xs IH]; intros x k; cbn [List.app length seq combine]; [rewrite Nat.add_0_r; reflexivity|]. f_equal. rewrite IH. f_equal. f_equal. f_equal. lia.
Qed.
Lemma construct_fold t : 1 <= t <= 4 -> forall conn g cs, o_cells g = combine (seq 0 (length cs)) cs ->
  let g' := fold_left (addConn t) conn g in
  o_cells g' = combine (seq 0 (length (cs ++ map (as_cell t) (kept t conn)))) (cs ++ map (as_cell t) (kept t conn)) /\ o_verts g' = o_verts g /\ o_type g' = o_type g /\
  o_tol g' = o_tol g /\ (forall p, In p (o_pids g') <-> In p (o_pids g) \/ (p = 0%Z /\ kept t conn <> [])).
Proof.
  intros T. induction conn as [|l conn IH]; intros g cs H; cbn [fold_left kept filter]; cbv zeta.
  - cbn [map]. rewrite app_nil_r. repeat split; try assumption; [left; assumption|]. intros [Q|[_ Q]]; [exact Q|congruence].
  - fold (kept t conn). destruct (elem_eqb (desumeElement t l) EUndefined) eqn:E; cbn [negb].
    + apply elem_eqb_iff in E. assert (A : addConn t g l = g) by (unfold addConn; rewrite E; reflexivity). rewrite A. apply IH, H.
    + assert (N : desumeElement t l <> EUndefined) by (intros Q; apply elem_eqb_iff in Q; congruence).
      destruct (desume_coherent t l T N) as [Co Ne].
      assert (Len : length (map fst (o_cells g)) = length cs) by (rewrite H, map_length, combine_length, seq_length; lia).
      assert (New : ~ In (length cs) (map fst (o_cells g))).
      { rewrite H. intros Q. apply in_map_iff in Q. destruct Q as [[i c] [Ei Hi]]. cbn [fst] in Ei. apply in_combine_l, in_seq in Hi. lia. }
      assert (A : addConn t g l = add_cell (length cs) (desumeElement t l) l 0%Z g).
      { unfold addConn. destruct (desumeElement t l) eqn:Ed; try congruence; unfold addConnectedCell; destruct l as [|a l']; try congruence; rewrite Co; cbn [pick_id snd]; rewrite Len; reflexivity. }
      rewrite A, add_cell_eq by exact New. cbn [map].
      replace (cs ++ as_cell t l :: map (as_cell t) (kept t conn)) with ((cs ++ [as_cell t l]) ++ map (as_cell t) (kept t conn)) by (rewrite <- app_assoc; reflexivity).
      match goal with |- context [fold_left (addConn t) conn ?g1] => set (g1' := g1) end.
      destruct (IH g1' (cs ++ [as_cell t l])) as [I1 [I2 [I3 [I4 I5]]]].
      { unfold g1'. cbn [o_cells]. rewrite combine_snoc, H. reflexivity. }
      cbv zeta in *. split; [exact I1|]. split; [exact I2|]. split; [exact I3|]. split; [exact I4|].
      intros p. rewrite I5. unfold g1'. cbn [o_pids]. rewrite in_zadd. split.
      * intros [[-> |Q]|[-> Q]]; [right; split; [reflexivity|discriminate]|left; exact Q|right; split; [reflexivity|discriminate]].
      * intros [Q|[-> _]]; [left; right; exact Q|left; left; reflexivity].
Qed.
Lemma construct_eq t vs conn : 1 <= t <= 4 -> exists g, construct t vs (Some conn) = Some g /\
  o_type g = t /\ o_verts g = combine (seq 0 (length vs)) vs /\ o_cells g = combine (seq 0 (length (kept t conn))) (map (as_cell t) (kept t conn)) /\
  (forall p, In p (o_pids g) <-> p = 0%Z).
Proof.
  intros T. unfold construct. rewrite Nat.max_l by lia. replace (4 <? t) with false by (symmetry; apply Nat.ltb_ge; lia). eexists. split; [reflexivity|].
  destruct (construct_fold t T conn (with_verts (new_obj t) (combine (seq 0 (length vs)) vs)) [] eq_refl) as [C1 [C2 [C3 [C4 C5]]]]. cbv zeta in *.
  cbn [with_pids o_type o_verts o_cells o_pids]. rewrite C1, C2, C3. cbn [List.app]. rewrite map_length. repeat split.
  - intros Q. apply in_zadd in Q. destruct Q as [Q|Q]; [exact Q|]. apply C5 in Q. destruct Q as [[]|[Q _]]. exact Q.
  - intros ->. apply in_zadd. left. reflexivity.
Qed.

(** ** Compact connectivities *)
Lemma position_nth : forall vs id x, distinct vs -> In (id, x) vs -> nth_error vs (position id vs) = Some (id, x).
Proof.
  unfold distinct. induction vs as [|[i y] vs IH]; intros id x N H; [destruct H|]. cbn [map fst position] in *. apply NoDup_cons_iff in N. destruct N as [N1 N2].
  destruct (Nat.eqb_spec i id) as [->|E].
  - destruct H as [H|H]; [rewrite H; reflexivity|]. destruct N1. apply in_map_iff. exists (id, x). split; [reflexivity|exact H].
  - destruct H as [H|H]; [congruence|]. cbn [nth_error]. exact (IH id x N2 H).
Qed.
Lemma compact_place g v : distinct (o_verts g) -> In v (map fst (o_verts g)) -> exists x, In (v, x) (o_verts g) /\
  In (mapDataInv g v, x) (combine (seq 0 (length (o_verts g))) (getVerticesCoords g)).
Proof.
  intros D H. unfold mapDataInv. rewrite (proj2 (has_iff _ v (o_verts g)) H). apply in_map_iff in H. destruct H as [[i x] [E H]]. cbn [fst] in E. subst i.
  exists x. split; [exact H|]. pose proof (position_nth _ _ _ D H) as P. unfold getVerticesCoords. revert P. generalize (position v (o_verts g)). clear.
  assert (G : forall (l : list (nat * vec)) k b, nth_error l k = Some (v, x) -> In (b + k, x) (combine (seq b (length l)) (map snd l))).
  { induction l as [|e l IH]; intros k b H; [destruct k; discriminate|]. destruct k as [|k]; cbn [nth_error length seq map combine] in *.
    - injection H as ->. left. rewrite Nat.add_0_r. reflexivity.
    - right. specialize (IH k (S b) H). replace (b + S k) with (S b + k) by lia. exact IH. }
  intros k P. exact (G (o_verts g) k 0 P).
Qed.
Lemma conv_means m t l fs : t <> EPolyhedron -> means t l fs -> means t (conv_conn m t l) (map (map m) fs) /\ length (conv_conn m t l) = length l.
Proof.
  intros N H. destruct H as [t l n F L|l|fs]; [| |congruence].
  - assert (E : conv_conn m t l = map m l) by (destruct t; try discriminate; reflexivity). rewrite E, map_length. split; [|reflexivity]. econstructor; [exact F|]. rewrite map_length. exact L.
  - cbn [conv_conn length map]. rewrite map_length. split; [|reflexivity]. rewrite <- (map_length m l). constructor.
Qed.

(** ** Lists of vertices and of cells *)
Lemma face_verts_stream : forall fs rest, face_verts (length fs) (stream fs ++ rest) = concat fs.
Proof.
  induction fs as [|f fs IH]; intros rest; [reflexivity|]. cbn [stream flat_map length face_verts List.app concat]. fold (stream fs). rewrite <- app_assoc.
  rewrite firstn_app, firstn_all, Nat.sub_diag. cbn [firstn]. rewrite app_nil_r. f_equal.
  rewrite skipn_app, skipn_all, Nat.sub_diag. cbn [skipn List.app]. apply IH.
Qed.
Lemma cell_verts_in c v : sound_cell c -> In v (cell_verts c) <-> vertex_of c v.
Proof.
  destruct c as [t l p]. intros [fs H]. cbn [c_type c_conn] in H. unfold vertex_of. cbn [c_type c_conn].
  assert (U : (exists fs0 f, means t l fs0 /\ In f fs0 /\ In v f) <-> exists f, In f fs /\ In v f).
  { split; [intros [fs0 [f [H0 [Hf Hv]]]]|intros [f [Hf Hv]]; exists fs, f; split; [exact H|split; assumption]].
    rewrite (means_unique _ _ _ _ H0 H) in Hf. exists f. split; assumption. }
  rewrite U. destruct H as [t l n F L|l|fs]; unfold cell_verts; cbn [c_type c_conn].
  - assert (E : match t with EPolygon => tl l | EPolyhedron => nodup Nat.eq_dec (face_verts (hd 0 l) (tl l)) | _ => l end = l) by (destruct t; try discriminate; reflexivity).
    rewrite E. split; [intros Hv; exists l; split; [left; reflexivity|exact Hv]|intros [f [[<-|[]] Hv]]; exact Hv].
  - cbn [tl]. split; [intros Hv; exists l; split; [left; reflexivity|exact Hv]|intros [f [[<-|[]] Hv]]; exact Hv].
  - cbn [tl hd]. rewrite nodup_In. rewrite <- (app_nil_r (stream fs)), face_verts_stream, in_concat. reflexivity.
Qed.
Lemma check_true : forall vs l b, check_verts true l vs b = true <-> (vs = [] /\ b = true) \/ (vs <> [] /\ forall v, In v vs -> In v l).
Proof.
  assert (Ex : forall v l, existsb (Nat.eqb v) l = true <-> In v l).
  { intros v l. rewrite existsb_exists. split; [intros [x [H E]]; apply Nat.eqb_eq in E; subst; exact H|intros H; exists v; split; [exact H|apply Nat.eqb_refl]]. }
  induction vs as [|v vs IH]; intros l b; cbn [check_verts]; [split; [intros ->; left; split; reflexivity|intros [[_ ->]|[H _]]; [reflexivity|congruence]]|].
  destruct (existsb (Nat.eqb v) l) eqn:E; cbn [negb andb orb].
  - rewrite IH. apply Ex in E. split.
    + intros [[-> _]|[_ H]]; right; (split; [discriminate|]); intros w [<-|Hw]; [exact E|destruct Hw|exact E|exact (H w Hw)].
    + intros [[H _]|[_ H]]; [discriminate|]. destruct vs as [|w vs]; [left; split; reflexivity|right; split; [discriminate|]]. intros u Hu. apply H. right. exact Hu.
  - split; [discriminate|]. intros [[H _]|[_ H]]; [discriminate|]. specialize (H v (or_introl eq_refl)). apply Ex in H. congruence.
Qed.
Lemma check_false : forall vs l b, check_verts false l vs b = true <-> (vs = [] /\ b = true) \/ exists v, In v vs /\ In v l.
Proof.
  assert (Ex : forall v l, existsb (Nat.eqb v) l = true <-> In v l).
  { intros v l. rewrite existsb_exists. split; [intros [x [H E]]; apply Nat.eqb_eq in E; subst; exact H|intros H; exists v; split; [exact H|apply Nat.eqb_refl]]. }
  induction vs as [|v vs IH]; intros l b; cbn [check_verts].
  - split; [intros ->; left; split; reflexivity|intros [[_ ->]|[v [[] _]]]; reflexivity].
  - destruct (existsb (Nat.eqb v) l) eqn:E; cbn [negb andb orb].
    + apply Ex in E. split; [intros _; right; exists v; split; [left; reflexivity|exact E]|reflexivity].
    + rewrite IH. split.
      * intros [[_ H]|[w [Hw Hl]]]; [discriminate|right; exists w; split; [right; exact Hw|exact Hl]].
      * intros [[H _]|[w [[<-|Hw] Hl]]]; [discriminate|apply Ex in Hl; congruence|right; exists w; split; assumption].
Qed.
