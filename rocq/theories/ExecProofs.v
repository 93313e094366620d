From Coq Require Import List Arith Bool ZArith Lia.
From Verif Require Import Chain Pins PinsSpec PinsProofs Exec.
Import ListNotations.

Definition same_fam f (kp : pid * port_in) := pi_mand (snd kp) && (pi_fam (snd kp) =? f)%Z.

(** Contents of the family map. *)
Definition mget (f : Z) (m : list (Z * list (pid * port_in))) : list (pid * port_in) :=
  match find (fun e => (fst e =? f)%Z) m with Some e => snd e | None => [] end.

Fixpoint sorted_keys (lo : option Z) (m : list (Z * list (pid * port_in))) : Prop :=
  match m with
  | [] => True
  | (g, l) :: r => match lo with Some z => (z < g)%Z | None => True end /\ l <> [] /\ sorted_keys (Some g) r
  end.

Lemma fam_push_sorted : forall m f x lo,
  sorted_keys lo m -> match lo with Some z => (z < f)%Z | None => True end ->
  sorted_keys lo (fam_push f x m).
Proof.
  induction m as [|[g l] m IH]; intros f x lo S B; simpl in *.
  - repeat split; auto. discriminate.
  - destruct S as (S1 & S2 & S3). destruct (Z.ltb_spec f g); simpl.
    + repeat split; auto; discriminate.
    + destruct (Z.eqb_spec f g); simpl.
      * repeat split; auto. destruct l; discriminate.
      * repeat split; auto. apply IH; [exact S3|]. lia.
Qed.

Lemma mget_lt : forall m f lo, sorted_keys (Some lo) m -> (f <= lo)%Z -> mget f m = [].
Proof.
  induction m as [|[g l] m IH]; intros f lo S L; simpl in *; [reflexivity|].
  destruct S as (S1 & S2 & S3). unfold mget. simpl.
  destruct (Z.eqb_spec g f); [lia|]. apply (IH f g); [exact S3|lia].
Qed.

Lemma mget_push : forall m f x f' lo, sorted_keys lo m ->
  mget f' (fam_push f x m) = if (f' =? f)%Z then mget f m ++ [x] else mget f' m.
Proof.
  induction m as [|[g l] m IH]; intros f x f' lo S; simpl in *.
  - unfold mget; simpl. rewrite (Z.eqb_sym f f'). destruct (f' =? f)%Z; reflexivity.
  - destruct S as (S1 & S2 & S3). destruct (Z.ltb_spec f g).
    + unfold mget at 1. simpl. rewrite (Z.eqb_sym f f'). destruct (Z.eqb_spec f' f).
      * subst. replace (mget f ((g, l) :: m)) with (@nil (pid * port_in)); [reflexivity|].
        symmetry. unfold mget. simpl. destruct (Z.eqb_spec g f); [lia|]. apply (mget_lt m f g S3). lia.
      * reflexivity.
    + destruct (Z.eqb_spec f g).
      * subst g. unfold mget. simpl. rewrite Z.eqb_refl. rewrite (Z.eqb_sym f f'). destruct (f' =? f)%Z eqn:E; [reflexivity|].
        reflexivity.
      * unfold mget at 1. simpl. destruct (Z.eqb_spec g f').
        -- subst g. destruct (Z.eqb_spec f' f); [congruence|]. unfold mget. simpl. rewrite Z.eqb_refl. reflexivity.
        -- change (mget f' (fam_push f x m) = if (f' =? f)%Z then mget f ((g, l) :: m) ++ [x] else mget f' ((g, l) :: m)).
           rewrite (IH f x f' _ S3). unfold mget. simpl. destruct (Z.eqb_spec g f'); [congruence|].
           destruct (Z.eqb_spec g f); [congruence|]. reflexivity.
Qed.

Lemma families_gen : forall ins m, sorted_keys None m ->
  let m' := fold_left (fun m kp => if pi_mand (snd kp) then fam_push (pi_fam (snd kp)) kp m else m) ins m in
  sorted_keys None m' /\ forall f, mget f m' = mget f m ++ filter (same_fam f) ins.
Proof.
  induction ins as [|kp ins IH]; intros m S; simpl.
  - split; [exact S|]. intros. rewrite app_nil_r. reflexivity.
  - unfold same_fam at 1. destruct (pi_mand (snd kp)) eqn:M.
    + assert (S' : sorted_keys None (fam_push (pi_fam (snd kp)) kp m)) by (apply fam_push_sorted; auto).
      destruct (IH _ S') as [A B]. split; [exact A|]. intros f. rewrite B, (mget_push _ _ _ _ _ S).
      simpl. rewrite (Z.eqb_sym (pi_fam (snd kp)) f). destruct (Z.eqb_spec f (pi_fam (snd kp))).
      * subst. rewrite <- app_assoc. reflexivity.
      * reflexivity.
    + destruct (IH _ S) as [A B]. split; [exact A|]. intros f. rewrite B. reflexivity.
Qed.

Lemma families_ok : forall ins, sorted_keys None (families ins) /\
  forall f, mget f (families ins) = filter (same_fam f) ins.
Proof. intros. destruct (families_gen ins [] I) as [A B]. split; [exact A|]. intros f. rewrite B. reflexivity. Qed.

Lemma mget_in : forall m lo f l, sorted_keys lo m -> In (f, l) m -> mget f m = l.
Proof.
  induction m as [|[g l'] m IH]; intros lo f l S I; simpl in *; [tauto|].
  destruct S as (S1 & S2 & S3). unfold mget. simpl. destruct I as [[= -> ->]|I].
  - rewrite Z.eqb_refl. reflexivity.
  - destruct (Z.eqb_spec g f).
    + subst. exfalso. assert (mget f m = l) by (eapply IH; eauto).
      rewrite (mget_lt m f f S3) in H by lia. clear - I S3 H.
      subst. revert S3 I. generalize f at 1. induction m as [|[g l'] m IH]; intros z S I; simpl in *; [tauto|].
      destruct S as (S1 & S2 & S3). destruct I as [[= -> ->]|I]; [congruence|eauto].
    + eapply IH; eauto.
Qed.

Lemma in_mget : forall m f, mget f m <> [] -> In (f, mget f m) m.
Proof.
  intros m f H. unfold mget in *. destruct (find _ m) as [[g l]|] eqn:E; [|congruence].
  apply find_some in E. destruct E as [E1 E2]. simpl in *. apply Z.eqb_eq in E2. subst. exact E1.
Qed.

Lemma first_error_some : forall m, (exists e, first_error m = Some e) <-> exists fl e, In fl m /\ family_error fl = Some e.
Proof.
  induction m as [|fl m IH]; simpl.
  - split; [intros [e H]; discriminate|intros (fl & e & H & _); tauto].
  - destruct (family_error fl) eqn:E.
    + split; [intros _; exists fl, e; auto|intros _; eauto].
    + rewrite IH. split.
      * intros (fl' & e & H & K). exists fl', e. auto.
      * intros (fl' & e & [<-|H] & K); [congruence|]. exists fl', e. auto.
Qed.

Lemma linked_spec : forall p, is_linked p = false <-> pi_links p = [].
Proof. intros p. unfold is_linked. destruct (pi_links p); simpl; split; congruence. Qed.

Lemma same_fam_in : forall f k p ins, In (k, p) (filter (same_fam f) ins) <-> In (k, p) ins /\ pi_mand p = true /\ pi_fam p = f.
Proof. intros. rewrite filter_In. unfold same_fam. simpl. rewrite andb_true_iff, Z.eqb_eq. reflexivity. Qed.

Lemma exec_error_iff : forall ins, (exists e, first_error (families ins) = Some e) <-> bad_mandatory ins.
Proof.
  intros ins. rewrite first_error_some. destruct (families_ok ins) as [S M]. split.
  - intros ([f l] & e & I & E). pose proof (mget_in _ _ _ _ S I) as L. rewrite M in L.
    unfold family_error in E. destruct (Z.eqb_spec f 0).
    + destruct (find _ l) as [[k p]|] eqn:F; [|discriminate]. apply find_some in F. destruct F as [F1 F2].
      left. exists k, p. rewrite <- L in F1. apply same_fam_in in F1. destruct F1 as (A & B & C).
      repeat split; try assumption; try congruence. apply linked_spec. simpl in F2. destruct (is_linked p); [discriminate|reflexivity].
    + destruct (existsb _ l) eqn:X; [discriminate|].
      assert (NE : l <> []).
      { clear - S I. revert S I. generalize (None : option Z). induction (families ins) as [|[g l'] m IH]; intros lo S I; simpl in *; [tauto|].
        destruct S as (S1 & S2 & S3). destruct I as [[= -> ->]|I]; [exact S2|eauto]. }
      destruct l as [|[k p] l']; [congruence|]. right. exists k, p.
      assert (In (k, p) (filter (same_fam f) ins)) by (rewrite L; simpl; auto).
      apply same_fam_in in H. destruct H as (A & B & C). repeat split; try assumption; try congruence.
      intros k' p' I' B' C'. apply linked_spec. destruct (is_linked p') eqn:Y; [|reflexivity].
      assert (In (k', p') ((k, p) :: l')) by (rewrite <- L; apply same_fam_in; split; [|split]; congruence).
      assert (existsb (fun kp => is_linked (snd kp)) ((k, p) :: l') = true).
      { apply existsb_exists. exists (k', p'). auto. }
      congruence.
  - intros [(k & p & I & B & C & L)|(k & p & I & B & C & L)].
    + assert (X : In (k, p) (mget 0 (families ins))) by (rewrite M; apply same_fam_in; auto).
      assert (NE : mget 0 (families ins) <> []) by (intro Z; rewrite Z in X; destruct X).
      apply in_mget in NE.
      destruct (find (fun kp => negb (is_linked (snd kp))) (mget 0 (families ins))) as [kp|] eqn:F.
      * exists (0%Z, mget 0 (families ins)), (ExThrowPort (fst kp)). split; [exact NE|]. simpl. rewrite F. reflexivity.
      * exfalso. apply (find_none _ _ F) in X. simpl in X. apply linked_spec in L. rewrite L in X. discriminate.
    + assert (X : In (k, p) (mget (pi_fam p) (families ins))) by (rewrite M; apply same_fam_in; auto).
      assert (NE : mget (pi_fam p) (families ins) <> []) by (intro Z; rewrite Z in X; destruct X).
      apply in_mget in NE.
      exists (pi_fam p, mget (pi_fam p) (families ins)), (ExThrowFamily (map fst (mget (pi_fam p) (families ins)))).
      split; [exact NE|]. unfold family_error. destruct (Z.eqb_spec (pi_fam p) 0); [congruence|].
      destruct (existsb _ _) eqn:Y; [|reflexivity]. exfalso. apply existsb_exists in Y. destruct Y as ([k' p'] & I' & Y).
      rewrite M in I'. apply same_fam_in in I'. destruct I' as (A' & B' & C'). simpl in Y.
      specialize (L _ _ A' B' C'). apply linked_spec in L. congruence.
Qed.

Lemma first_error_not_done : forall m tr, first_error m <> Some (ExDone tr).
Proof.
  induction m as [|[f l] m IH]; intros tr; simpl; [discriminate|].
  destruct (f =? 0)%Z.
  - destruct (find _ l); [discriminate|apply IH].
  - destruct (existsb _ l); [apply IH|discriminate].
Qed.

Definition done_trace (active plot app : bool) (b : block) : list exec_event :=
  (if active then [EvExecute] else []) ++
  map (fun kp => EvPort (fst kp)) (filter (fun kp => 0 <? length (po_links (snd kp))) (b_outs b)) ++
  (if plot then [EvPlot] else []) ++ (if app then [EvApply] else []).

Lemma exec_safe : forall active plot app b,
  (bad_mandatory (b_ins b) -> exists p, exec false active plot app b = ExThrowPort p \/ exists ps, exec false active plot app b = ExThrowFamily ps) /\
  (~ bad_mandatory (b_ins b) -> exec false active plot app b = ExDone (done_trace active plot app b)).
Proof.
  intros. unfold exec. split.
  - intros H. apply exec_error_iff in H. destruct H as [e E]. rewrite E. destruct e.
    + exists p. auto.
    + exists 0. right. eauto.
    + apply first_error_not_done in E. destruct E.
  - intros H. destruct (first_error (families (b_ins b))) eqn:E; [|reflexivity].
    exfalso. apply H. apply exec_error_iff. eauto.
Qed.

Lemma trace_shape : forall active plot app b, NoDup (map fst (b_outs b)) ->
  let tr := done_trace active plot app b in
  count_occ (fun x y : exec_event => ltac:(decide equality; apply Nat.eq_dec) : {x = y} + {x <> y}) tr EvExecute = (if active then 1 else 0) /\
  (forall s, In (EvPort s) tr <-> exists p, In (s, p) (b_outs b) /\ po_links p <> []).
Proof.
  intros active plot app b N tr. subst tr. unfold done_trace. split.
  - rewrite !count_occ_app.
    set (dec := fun x y => _).
    assert (Z : count_occ dec (map (fun kp => EvPort (fst kp)) (filter (fun kp => 0 <? length (po_links (snd kp))) (b_outs b))) EvExecute = 0).
    { apply count_occ_not_In. intro H. apply in_map_iff in H. destruct H as (x & E & _). discriminate. }
    rewrite Z. clear Z. subst dec. destruct active, plot, app; reflexivity.
  - intros s. rewrite !in_app_iff. split.
    + intros [H|[H|[H|H]]].
      * destruct active; [destruct H as [H|[]]; discriminate|destruct H].
      * apply in_map_iff in H. destruct H as ([k p] & E & H). simpl in E. injection E as ->.
        apply filter_In in H. destruct H as [H L]. exists p. split; [exact H|]. simpl in L. destruct (po_links p); [discriminate|discriminate].
      * destruct plot; [destruct H as [H|[]]; discriminate|destruct H].
      * destruct app; [destruct H as [H|[]]; discriminate|destruct H].
    + intros (p & I & L). right. left. apply in_map_iff. exists (s, p). split; [reflexivity|].
      apply filter_In. split; [exact I|]. simpl. destruct (po_links p); [congruence|reflexivity].
Qed.

Lemma throw_port_names : forall m p, first_error m = Some (ExThrowPort p) ->
  exists l pi, In (0%Z, l) m /\ In (p, pi) l /\ pi_links pi = [].
Proof.
  induction m as [|[f l] m IH]; intros p H; simpl in H; [discriminate|].
  destruct (Z.eqb_spec f 0).
  - subst. destruct (find _ l) as [[k pi]|] eqn:F.
    + injection H as <-. apply find_some in F. destruct F as [F1 F2]. exists l, pi. simpl in *. split; [auto|]. split; [exact F1|].
      apply linked_spec. destruct (is_linked pi); [discriminate|reflexivity].
    + destruct (IH _ H) as (l' & pi & A & B & C). exists l', pi. simpl. auto.
  - destruct (existsb _ l).
    + destruct (IH _ H) as (l' & pi & A & B & C). exists l', pi. simpl. auto.
    + discriminate.
Qed.

Lemma throw_family_names : forall m ps, first_error m = Some (ExThrowFamily ps) ->
  exists f l, In (f, l) m /\ f <> 0%Z /\ ps = map fst l /\ forall k p, In (k, p) l -> pi_links p = [].
Proof.
  induction m as [|[f l] m IH]; intros p H; simpl in H; [discriminate|].
  destruct (Z.eqb_spec f 0).
  - destruct (find _ l) as [[k pi]|]; [discriminate|].
    destruct (IH _ H) as (f' & l' & A & B). exists f', l'. simpl. auto.
  - destruct (existsb _ l) eqn:X.
    + destruct (IH _ H) as (f' & l' & A & B). exists f', l'. simpl. auto.
    + injection H as <-. exists f, l. simpl. split; [auto|]. split; [assumption|]. split; [reflexivity|].
      intros k q I. apply linked_spec. destruct (is_linked q) eqn:Y; [|reflexivity].
      assert (existsb (fun kp => is_linked (snd kp)) l = true) by (apply existsb_exists; exists (k, q); auto). congruence.
Qed.

Lemma exec_throw_port : forall active plot app b p, exec false active plot app b = ExThrowPort p ->
  exists pi, In (p, pi) (b_ins b) /\ pi_mand pi = true /\ pi_fam pi = 0%Z /\ pi_links pi = [].
Proof.
  intros active plot app b p H. unfold exec in H. destruct (first_error (families (b_ins b))) eqn:E; [|discriminate].
  subst e. apply throw_port_names in E. destruct E as (l & pi & A & B & C).
  destruct (families_ok (b_ins b)) as [S M]. pose proof (mget_in _ _ _ _ S A) as L. rewrite M in L. subst l.
  apply same_fam_in in B. exists pi. tauto.
Qed.

Lemma exec_throw_family : forall active plot app b ps, exec false active plot app b = ExThrowFamily ps ->
  exists f, f <> 0%Z /\ ps <> [] /\
    ps = map fst (filter (fun kp => pi_mand (snd kp) && (pi_fam (snd kp) =? f)%Z) (b_ins b)) /\
    forall k p, In (k, p) (b_ins b) -> pi_mand p = true -> pi_fam p = f -> pi_links p = [].
Proof.
  intros active plot app b ps H. unfold exec in H. destruct (first_error (families (b_ins b))) eqn:E; [|discriminate].
  subst e. apply throw_family_names in E. destruct E as (f & l & A & B & C & D).
  destruct (families_ok (b_ins b)) as [S M]. pose proof (mget_in _ _ _ _ S A) as L. rewrite M in L.
  exists f. split; [exact B|]. split; [|split].
  - subst ps. clear - S A. intro Z. apply map_eq_nil in Z. subst.
    revert S A. generalize (None : option Z). induction (families (b_ins b)) as [|[g l'] m IH]; intros lo S I; simpl in *; [tauto|].
    destruct S as (S1 & S2 & S3). destruct I as [[= -> ->]|I]; [congruence|eauto].
  - rewrite C, <- L. reflexivity.
  - intros k p I P F. apply (D k). rewrite <- L. apply same_fam_in. auto.
Qed.

Lemma exec_runs : forall expert active plot app b, NoDup (map fst (b_outs b)) ->
  expert = true \/ ~ bad_mandatory (b_ins b) ->
  exists ports,
    exec expert active plot app b = ExDone ((if active then [EvExecute] else []) ++ map EvPort ports ++
      (if plot then [EvPlot] else []) ++ (if app then [EvApply] else [])) /\
    NoDup ports /\ forall s, In s ports <-> exists p, In (s, p) (b_outs b) /\ po_links p <> [].
Proof.
  intros expert active plot app b N H.
  exists (map fst (filter (fun kp => 0 <? length (po_links (snd kp))) (b_outs b))). split; [|split].
  - rewrite map_map. destruct expert; [reflexivity|]. destruct H as [H|H]; [discriminate|].
    destruct (exec_safe active plot app b) as [_ E]. rewrite E by exact H. reflexivity.
  - clear H. induction (b_outs b) as [|[k p] l IH]; simpl in *; [constructor|]. apply NoDup_cons_iff in N. destruct N as [N1 N2].
    destruct (0 <? length (po_links p)); [|auto]. simpl. constructor; [|auto].
    intro I. apply in_map_iff in I. destruct I as (x & E & I). apply filter_In in I. destruct I as [I _].
    apply N1. rewrite <- E. apply in_map. exact I.
  - intros s. rewrite in_map_iff. split.
    + intros ([k p] & E & I). simpl in E. subst. apply filter_In in I. destruct I as [I L]. exists p. split; [exact I|].
      simpl in L. destruct (po_links p); discriminate.
    + intros (p & I & L). exists (s, p). split; [reflexivity|]. apply filter_In. split; [exact I|].
      simpl. destruct (po_links p); [congruence|reflexivity].
Qed.

(** * createPort *)
Lemma assign_lookup : forall {A} (l : list (nat * A)) k v k', lookup k' (assign k v l) = if Nat.eqb k' k then Some v else lookup k' l.
Proof.
  intros. unfold assign, has_key. destruct (lookup k l) eqn:E.
  - rewrite lookup_update, E. destruct (k' =? k); reflexivity.
  - rewrite lookup_app. simpl. destruct (Nat.eqb_spec k' k).
    + subst. rewrite E, Nat.eqb_refl. reflexivity.
    + destruct (lookup k' l); [reflexivity|]. destruct (Nat.eqb_spec k k'); [congruence|reflexivity].
Qed.

Lemma create_out_spec : forall reg b s, let (b', ok) := create_port_out reg b s in
  (ok = true <-> reg s <> None /\ ~ In s (map fst (b_outs b))) /\
  (ok = false -> b' = b) /\
  (ok = true -> b_ins b' = b_ins b /\ b_par b' = b_par b /\ b_chi b' = b_chi b /\
     exists t, reg s = Some t /\
     forall k, lookup k (b_outs b') = if Nat.eqb k s then Some {| po_links := []; po_type := t |} else lookup k (b_outs b)).
Proof.
  intros reg b s. unfold create_port_out. destruct (reg s) as [t|] eqn:R.
  - destruct (has_key s (b_outs b)) eqn:K.
    + apply has_key_ports in K. split; [|split]; try discriminate; auto. split; [discriminate|intros [_ H]; tauto].
    + split; [|split]; try discriminate.
      * split; [|reflexivity]. intros _. split; [discriminate|]. rewrite <- has_key_ports. congruence.
      * intros _. repeat (split; [reflexivity|]). exists t. split; [reflexivity|]. intros k. simpl. apply assign_lookup.
  - split; [|split]; try discriminate; auto. split; [discriminate|intros [H _]; congruence].
Qed.

Lemma create_in_spec : forall reg b s m f, let (b', ok) := create_port_in reg b s m f in
  (ok = true <-> reg s <> None /\ ~ In s (map fst (b_outs b))) /\
  (ok = false -> b' = b) /\
  (ok = true -> b_outs b' = b_outs b /\ b_par b' = b_par b /\ b_chi b' = b_chi b /\
     exists t, reg s = Some t /\
     forall k, lookup k (b_ins b') = if Nat.eqb k s then Some {| pi_links := []; pi_type := t; pi_mand := m; pi_fam := f |} else lookup k (b_ins b)).
Proof.
  intros reg b s m f. unfold create_port_in. destruct (reg s) as [t|] eqn:R.
  - destruct (has_key s (b_outs b)) eqn:K.
    + apply has_key_ports in K. split; [|split]; try discriminate; auto. split; [discriminate|intros [_ H]; tauto].
    + split; [|split]; try discriminate.
      * split; [|reflexivity]. intros _. split; [discriminate|]. rewrite <- has_key_ports. congruence.
      * intros _. repeat (split; [reflexivity|]). exists t. split; [reflexivity|]. intros k. simpl. apply assign_lookup.
  - split; [|split]; try discriminate; auto. split; [discriminate|intros [H _]; congruence].
Qed.

Lemma create_in_partial : forall reg b s m f,
  (In s (map fst (b_outs b)) <-> In s (map fst (b_ins b))) ->
  let (b', ok) := create_port_in reg b s m f in
  (ok = true <-> reg s <> None /\ ~ In s (map fst (b_ins b))) /\
  (ok = false -> b' = b) /\
  (ok = true -> b_outs b' = b_outs b /\ b_par b' = b_par b /\ b_chi b' = b_chi b /\
     exists t, reg s = Some t /\
     forall k, lookup k (b_ins b') = if Nat.eqb k s then Some {| pi_links := []; pi_type := t; pi_mand := m; pi_fam := f |} else lookup k (b_ins b)).
Proof.
  intros reg b s m f E. pose proof (create_in_spec reg b s m f) as H. destruct (create_port_in reg b s m f) as [b' ok].
  rewrite E in H. exact H.
Qed.
