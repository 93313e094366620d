(** Proofs about the controls of deformations. *)
From Coq Require Import Reals List Arith Bool Lra Lia ZArith.
From Verif Require Import Vec BBox Limit LimitSpec SkdDistProofs.
Import ListNotations.
Open Scope R_scope.

(* ---------------------------------------------------------- fields *)
Lemma mem_in : forall id l, mem id l = true <-> In id l.
Proof. intros id l. unfold mem. rewrite existsb_exists. split; [intros (x & H & E); apply Nat.eqb_eq in E; subst; exact H|intros H; exists id; split; [exact H|apply Nat.eqb_refl]]. Qed.
Lemma lookup_in : forall l id d, NoDup (map fst l) -> In (id, d) l -> lookup id l = Some d.
Proof.
  induction l as [|[i x] r IH]; intros id d N H; [destruct H|]. cbn [map fst] in N. pose proof (proj1 (NoDup_cons_iff i (map fst r)) N) as [N1 N2]. cbn [lookup]. destruct H as [H|H]; [injection H as -> ->; rewrite Nat.eqb_refl; reflexivity|].
  destruct (Nat.eqb i id) eqn:E; [|apply IH; assumption]. apply Nat.eqb_eq in E. subst i. exfalso. apply N1. apply in_map_iff. exists (id, d). auto.
Qed.
Lemma lookup_some : forall l id d, lookup id l = Some d -> In (id, d) l.
Proof. induction l as [|[i x] r IH]; intros id d H; [discriminate|]. cbn [lookup] in H. destruct (Nat.eqb i id) eqn:E; [apply Nat.eqb_eq in E; injection H as ->; subst i; left; reflexivity|right; apply IH; exact H]. Qed.
Lemma lookup_app_in : forall l l' id, In id (map fst l) -> lookup id (l ++ l') = lookup id l.
Proof. induction l as [|[i x] r IH]; intros l' id H; [destruct H|]. cbn [app lookup]. destruct (Nat.eqb i id) eqn:E; [reflexivity|]. apply IH. destruct H as [H|H]; [cbn in H; subst i; rewrite Nat.eqb_refl in E; discriminate|exact H]. Qed.
Lemma lookup_app_out : forall l l' id, ~ In id (map fst l) -> lookup id (l ++ l') = lookup id l'.
Proof. induction l as [|[i x] r IH]; intros l' id H; [reflexivity|]. cbn [app lookup]. destruct (Nat.eqb i id) eqn:E; [apply Nat.eqb_eq in E; subst i; exfalso; apply H; left; reflexivity|]. apply IH. intros G. apply H. right. exact G. Qed.
Lemma lookup_const : forall l id, In id l -> lookup id (map (fun id => (id, vzero)) l) = Some vzero.
Proof. induction l as [|i r IH]; intros id H; [destruct H|]. cbn [map lookup]. destruct (Nat.eqb i id) eqn:E; [reflexivity|]. apply IH. destruct H as [H|H]; [subst i; rewrite Nat.eqb_refl in E; discriminate|exact H]. Qed.
(** a field with as many data as vertices, all on vertices, has them all *)
Lemma full : forall (a b : list nat), NoDup a -> incl a b -> length a = length b -> incl b a.
Proof. intros a b N I L. apply (NoDup_length_incl N); [lia|exact I]. Qed.
Definition shift_of (p : mesh * field) (id : nat) (d : vec) : Prop := In (id, d) (f_data (snd p)) \/ (d = V3 0 0 0 /\ ~ In id (map fst (f_data (snd p)))).
Lemma complete_at : forall p id, suitable p -> In id (map fst (m_verts (fst p))) -> exists d, lookup id (f_data (complete (snd p))) = Some d /\ shift_of p id d.
Proof.
  intros [g f] id (G & L & N1 & N2 & I) H. cbn [fst snd] in *. unfold complete, shift_of. cbn [snd]. rewrite G, L. cbn [geo_ids].
  replace (forallb (fun e => mem (fst e) (map fst (m_verts g))) (f_data f)) with true by (symmetry; apply forallb_forall; intros [i x] Hx; apply mem_in; apply (I i x Hx)).
  assert (D : In id (map fst (f_data f)) -> exists d, lookup id (f_data f) = Some d /\ In (id, d) (f_data f)).
  { intros K. apply in_map_iff in K. destruct K as ([i x] & E & K). cbn in E. subst i. exists x. split; [apply lookup_in; assumption|exact K]. }
  destruct (in_dec Nat.eq_dec id (map fst (f_data f))) as [K|K].
  - destruct (D K) as (d & E & J). exists d. destruct (Nat.eqb _ _); [split; [exact E|left; exact J]|]. cbn [f_data]. rewrite lookup_app_in by exact K. split; [exact E|left; exact J].
  - destruct (Nat.eqb (length (f_data f)) (length (map fst (m_verts g)))) eqn:E.
    + exfalso. apply Nat.eqb_eq in E. apply K. apply (full (map fst (f_data f)) (map fst (m_verts g)) N2); [|rewrite map_length; exact E|exact H]. intros i Hi. apply in_map_iff in Hi. destruct Hi as ([j x] & <- & Hi). apply (I j x Hi).
    + cbn [f_data]. exists vzero. rewrite lookup_app_out by exact K. split; [|right; split; [reflexivity|exact K]]. apply lookup_const. apply filter_In. split; [exact H|]. apply negb_true_iff. apply not_true_iff_false. intros M. apply mem_in in M. contradiction.
Qed.
Lemma displacements_right : forall p, suitable p -> exists l, displacements (m_verts (fst p)) (complete (snd p)) = Some l /\
  map (fun e => (fst e, fst (snd e))) l = m_verts (fst p) /\ forall id x d, In (id, (x, d)) l -> shift_of p id d.
Proof.
  intros p Sp. assert (K : forall vs, incl (map fst vs) (map fst (m_verts (fst p))) -> exists l, displacements vs (complete (snd p)) = Some l /\ map (fun e => (fst e, fst (snd e))) l = vs /\ forall id x d, In (id, (x, d)) l -> shift_of p id d).
  { induction vs as [|[i x] r IH]; intros I; [exists []; split; [reflexivity|split; [reflexivity|intros ? ? ? []]]|].
    destruct IH as (l & E & M & F); [intros j Hj; apply I; right; exact Hj|]. destruct (complete_at p i Sp) as (d & L & Sh); [apply I; left; reflexivity|].
    exists ((i, (x, d)) :: l). cbn [displacements]. rewrite L, E. split; [reflexivity|split; [cbn; rewrite M; reflexivity|]]. intros id y e H. destruct H as [H|H]; [injection H as <- <- <-; exact Sh|apply (F _ _ _ H)]. }
  apply K. apply incl_refl.
Qed.
Lemma all_some_right : forall A B (f : A -> option B) (P : A -> B -> Prop) l, (forall x, In x l -> exists y, f x = Some y /\ P x y) -> exists r, all_some (map f l) = Some r /\ Forall2 P l r.
Proof.
  intros A B f P. induction l as [|x l IH]; intros H; [exists []; split; [reflexivity|constructor]|]. destruct (H x (or_introl eq_refl)) as (y & E & Q). destruct IH as (r & E' & F); [intros z Z; apply H; right; exact Z|].
  exists (y :: r). cbn [map all_some]. rewrite E, E'. split; [reflexivity|constructor; assumption].
Qed.

(* ---------------------------------------------------------- the greatest value *)
Lemma fold_max_ge : forall (l : list (nat * R)) a, a <= fold_left (fun m e => Rmax m (snd e)) l a.
Proof. induction l as [|y l IH]; intros a; cbn [fold_left]; [lra|]. eapply Rle_trans; [|apply IH]. apply Rmax_l. Qed.
Lemma fold_max_in : forall (l : list (nat * R)) a e, In e l -> snd e <= fold_left (fun m e => Rmax m (snd e)) l a.
Proof. induction l as [|y l IH]; intros a e H; [destruct H|]. cbn [fold_left]. destruct H as [H|H]; [subst y; eapply Rle_trans; [|apply fold_max_ge]; apply Rmax_r|apply IH; exact H]. Qed.
Lemma fold_max_at : forall (l : list (nat * R)) a, fold_left (fun m e => Rmax m (snd e)) l a = a \/ exists e, In e l /\ fold_left (fun m e => Rmax m (snd e)) l a = snd e.
Proof.
  induction l as [|y l IH]; intros a; cbn [fold_left]; [left; reflexivity|]. destruct (IH (Rmax a (snd y))) as [E|(e & I & E)]; [|right; exists e; split; [right; exact I|exact E]].
  rewrite E. unfold Rmax. destruct (Rle_dec a (snd y)); [right; exists y; split; [left; reflexivity|reflexivity]|left; reflexivity].
Qed.
Lemma violation_ge : forall v l e, In l v -> In e l -> snd e <= getViolation v.
Proof.
  intros v l e H He. unfold getViolation. set (f := fun m (l : list (nat * R)) => Rmax m (fold_left (fun m e => Rmax m (snd e)) l (-1 * dmax))).
  assert (G : forall w a, a <= fold_left f w a) by (induction w as [|k w IHw]; intros b; cbn [fold_left]; [lra|]; eapply Rle_trans; [|apply IHw]; apply Rmax_l).
  generalize (-1 * dmax) at 1. revert H. induction v as [|k v IH]; intros H a; [destruct H|]. cbn [fold_left]. destruct H as [H|H]; [|apply IH; exact H].
  subst k. eapply Rle_trans; [|apply G]. eapply Rle_trans; [|apply Rmax_r]. apply fold_max_in. exact He.
Qed.
Lemma violation_at : forall v, getViolation v = -1 * dmax \/ exists l e, In l v /\ In e l /\ getViolation v = snd e.
Proof.
  intros v. unfold getViolation. set (f := fun m (l : list (nat * R)) => Rmax m (fold_left (fun m e => Rmax m (snd e)) l (-1 * dmax))).
  assert (G : forall w a, fold_left f w a = a \/ fold_left f w a = -1 * dmax \/ exists l e, In l w /\ In e l /\ fold_left f w a = snd e).
  { induction w as [|k w IH]; intros a; [left; reflexivity|]. cbn [fold_left]. destruct (IH (f a k)) as [E|[E|(l & e & H1 & H2 & E)]].
    - rewrite E. unfold f, Rmax. destruct (Rle_dec a _); [|left; reflexivity]. right. destruct (fold_max_at k (-1 * dmax)) as [Q|(e & I & Q)]; [left; exact Q|right; exists k, e; split; [left; reflexivity|split; [exact I|exact Q]]].
    - right. left. exact E.
    - right. right. exists l, e. split; [right; exact H1|split; assumption]. }
  destruct (G v (-1 * dmax)) as [E|[E|E]]; [left|left|right]; exact E.
Qed.
Lemma dmax_big : 10 ^ 25 < dmax.
Proof.
  unfold dmax. assert (A : 10 ^ 25 <= 2 ^ 100) by (change 10 with (IZR 10); change 2 with (IZR 2); rewrite !pow_IZR; apply IZR_le; vm_compute; discriminate).
  assert (B : 2 ^ 100 < 2 ^ 1023) by (apply Rlt_pow; [lra|lia]). assert (C : / 2 ^ 52 < / 1) by (apply Rinv_lt_contravar; [rewrite Rmult_1_l; apply pow_lt; lra|apply Rlt_pow_R1; [lra|lia]]). rewrite Rinv_1 in C. assert (0 < 2 ^ 100) by (apply pow_lt; lra).
  assert (D : 1 * 2 ^ 1023 <= (2 - / 2 ^ 52) * 2 ^ 1023) by (apply Rmult_le_compat_r; lra). lra.
Qed.

(* ---------------------------------------------------------- the search with growing radii *)
Lemma grown_radius : 10 ^ 12 <= / 10 ^ 8 * (1 + 5 / 100) ^ 999.
Proof.
  replace (1 + 5 / 100) with (21 / 20) by field. replace ((21 / 20) ^ 999) with (21 ^ 999 / 20 ^ 999) by (unfold Rdiv; rewrite Rpow_mult_distr, pow_inv; reflexivity).
  apply (Rmult_le_reg_l (10 ^ 8)); [apply pow_lt; lra|]. rewrite <- Rmult_assoc, Rinv_r, Rmult_1_l by (apply pow_nonzero; lra).
  apply (Rmult_le_reg_r (20 ^ 999)); [apply pow_lt; lra|]. unfold Rdiv. rewrite (Rmult_assoc (21 ^ 999)), Rinv_l, Rmult_1_r by (apply pow_nonzero; lra).
  change 10 with (IZR 10). change 20 with (IZR 20). change 21 with (IZR 21). rewrite !pow_IZR, <- !mult_IZR. apply IZR_le. vm_compute. discriminate.
Qed.
Lemma unique_in : forall (l : list (nat * vec)) i p q, NoDup (map fst l) -> In (i, p) l -> In (i, q) l -> p = q.
Proof. intros l i p q N H G. pose proof (lookup_in l i p N H) as A. rewrite (lookup_in l i q N G) in A. injection A as ->. reflexivity. Qed.
Section Rounds.
  Variable sd : vec -> R -> option R.
  Definition one (r : R) (o : nat -> R) (w : nat * vec) : nat -> R := match sd (snd w) r with Some h => upd o (fst w) h | None => o end.
  Lemma pass_out : forall r work out i, ~ In i (map fst work) -> fold_left (one r) work out i = out i.
  Proof.
    intros r. induction work as [|[j p] work IH]; intros out i H; [reflexivity|]. cbn [fold_left]. rewrite IH by (intros G; apply H; right; exact G). unfold one. cbn [fst snd]. destruct (sd p r); [|reflexivity]. unfold upd. destruct (Nat.eqb i j) eqn:E; [|reflexivity]. apply Nat.eqb_eq in E. subst j. exfalso. apply H. left. reflexivity.
  Qed.
  Lemma pass_in : forall r work out i p, NoDup (map fst work) -> In (i, p) work -> fold_left (one r) work out i = match sd p r with Some h => h | None => out i end.
  Proof.
    intros r. induction work as [|[j q] work IH]; intros out i p N H; [destruct H|]. cbn [map fst] in N. pose proof (proj1 (NoDup_cons_iff j (map fst work)) N) as [N1 N2]. cbn [fold_left]. destruct H as [H|H].
    - injection H as -> ->. rewrite pass_out by exact N1. unfold one. cbn [fst snd]. destruct (sd p r); [unfold upd; rewrite Nat.eqb_refl; reflexivity|reflexivity].
    - rewrite (IH _ i p N2 H). destruct (sd p r); [reflexivity|]. unfold one. cbn [fst snd]. destruct (sd q r); [|reflexivity]. unfold upd. destruct (Nat.eqb i j) eqn:E; [|reflexivity]. apply Nat.eqb_eq in E. subst j. exfalso. apply N1. apply in_map_iff. exists (i, p). auto.
  Qed.
  Definition leftover (r : R) (work : list (nat * vec)) := filter (fun w : nat * vec => match sd (snd w) r with Some _ => false | None => true end) work.
  Lemma leftover_nodup : forall r work, NoDup (map fst work) -> NoDup (map fst (leftover r work)).
  Proof.
    intros r. induction work as [|[j q] work IH]; intros N; [constructor|]. cbn [map fst] in N. pose proof (proj1 (NoDup_cons_iff j (map fst work)) N) as [N1 N2]. unfold leftover. cbn [filter snd]. destruct (sd q r); [apply IH; exact N2|]. cbn [map fst]. constructor; [|apply IH; exact N2].
    intros H. apply N1. apply in_map_iff in H. destruct H as (w & E & H). apply filter_In in H. apply in_map_iff. exists w. split; [exact E|apply H].
  Qed.
  Lemma leftover_in : forall r work i, ~ In i (map fst work) -> ~ In i (map fst (leftover r work)).
  Proof. intros r work i N H. apply N. apply in_map_iff in H. destruct H as (w & E & H). apply filter_In in H. apply in_map_iff. exists w. split; [exact E|apply H]. Qed.
  Lemma rounds_out : forall fuel r work out i, ~ In i (map fst work) -> snd (rounds sd fuel r work out) i = out i /\ ~ In i (map fst (fst (rounds sd fuel r work out))).
  Proof.
    induction fuel as [|n IH]; intros r work out i H; [split; [reflexivity|exact H]|]. cbn [rounds]. destruct (IH (r * (1 + 5 / 100)) (leftover r work) (fold_left (one r) work out) i) as [A B]; [apply leftover_in; exact H|].
    split; [|exact B]. etransitivity; [exact A|]. apply pass_out. exact H.
  Qed.
  Lemma rounds_in : forall fuel r work out i p, NoDup (map fst work) -> In (i, p) work -> (exists k, (k < fuel)%nat /\ sd p (r * (1 + 5 / 100) ^ k) <> None) ->
    ~ In i (map fst (fst (rounds sd fuel r work out))) /\ exists k h, sd p (r * (1 + 5 / 100) ^ k) = Some h /\ snd (rounds sd fuel r work out) i = h.
  Proof.
    induction fuel as [|n IH]; intros r work out i p N H (k & K & F); [lia|]. cbn [rounds]. fold (one r) (leftover r work). destruct (sd p r) as [h|] eqn:E.
    - assert (L : ~ In i (map fst (leftover r work))).
      { intros G. apply in_map_iff in G. destruct G as ([j q] & EJ & G). cbn in EJ. subst j. apply filter_In in G. destruct G as [G1 G2]. cbn [snd] in G2. assert (q = p) as ->; [|rewrite E in G2; discriminate].
        apply (unique_in work i q p N G1 H). }
      destruct (rounds_out n (r * (1 + 5 / 100)) (leftover r work) (fold_left (one r) work out) i L) as [A B]. split; [exact B|]. exists 0%nat, h. rewrite pow_O, Rmult_1_r. split; [exact E|]. etransitivity; [exact A|]. rewrite (pass_in r work out i p N H), E. reflexivity.
    - destruct k as [|k]; [rewrite pow_O, Rmult_1_r in F; contradiction|].
      destruct (IH (r * (1 + 5 / 100)) (leftover r work) (fold_left (one r) work out) i p) as (A & j & h & B & C).
      + apply leftover_nodup. exact N.
      + apply filter_In. split; [exact H|]. cbn [snd]. rewrite E. reflexivity.
      + exists k. split; [lia|]. rewrite Rmult_assoc. exact F.
      + split; [exact A|]. exists (S j), h. split; [|exact C]. rewrite <- B. rewrite Rmult_assoc. reflexivity.
  Qed.
  Lemma evaluate_right : forall on out r points i p, signed_right on out sd -> / 10 ^ 8 <= r -> nth_error points i = Some p -> (exists x, on x /\ norm (vsub p x) <= 10 ^ 12) ->
    far_from on p (Rabs (evaluateSignedDistance sd r points i)) /\ (0 < evaluateSignedDistance sd r points i <-> out p).
  Proof.
    intros on out r points i p Sr Hr Hp (x & Ox & Dx). unfold evaluateSignedDistance.
    assert (Hi : In (i, p) (combine (seq 0 (length points)) points)).
    { assert (L : (i < length points)%nat) by (apply nth_error_Some; rewrite Hp; discriminate). assert (Q : nth i (combine (seq 0 (length points)) points) (0%nat, p) = (i, p)).
      { rewrite combine_nth by (apply seq_length). rewrite seq_nth by exact L. f_equal. apply nth_error_nth. exact Hp. }
      rewrite <- Q. apply nth_In. rewrite combine_length, seq_length. lia. }
    assert (N : NoDup (map fst (combine (seq 0 (length points)) points))).
    { replace (map fst (combine (seq 0 (length points)) points)) with (seq 0 (length points)); [apply seq_NoDup|]. generalize 0%nat. clear. induction points as [|q l IH]; intros a; [reflexivity|]. cbn [length seq combine map fst]. f_equal. apply IH. }
    destruct (rounds_in 1000 r _ (fun _ => 0) i p N Hi) as (A & k & h & B & C).
    - exists 999%nat. split; [lia|]. intros E. pose proof (Sr p (r * (1 + 5 / 100) ^ 999)) as Q. rewrite E in Q. specialize (Q x Ox).
      pose proof grown_radius as G. assert (/ 10 ^ 8 * (1 + 5 / 100) ^ 999 <= r * (1 + 5 / 100) ^ 999) by (apply Rmult_le_compat_r; [apply pow_le; lra|exact Hr]). lra.
    - destruct (rounds sd 1000 r _ _) as [left out'] eqn:ER. cbn [fst snd] in A, C.
      assert (FO : forall (l : list (nat * vec)) (o : nat -> R), ~ In i (map fst l) -> fold_left (fun o w => upd o (fst w) lost) l o i = o i).
      { clear. induction l as [|[j q] l IH]; intros o H; [reflexivity|]. cbn [fold_left]. rewrite IH by (intros G; apply H; right; exact G). unfold upd. cbn [fst]. destruct (Nat.eqb i j) eqn:E; [|reflexivity]. apply Nat.eqb_eq in E. subst j. exfalso. apply H. left. reflexivity. }
      rewrite (FO left out' A), C. pose proof (Sr p (r * (1 + 5 / 100) ^ k)) as Q. rewrite B in Q. split; apply Q.
  Qed.
End Rounds.
Lemma guess_least : forall diagonal lo hi c, / 10 ^ 8 <= guess diagonal lo hi c.
Proof. intros diagonal lo hi c. unfold guess. cbv zeta. destruct (diagonal lo hi (c_low c) (c_high c)) as [d|]; [eapply Rle_trans; [apply (Rmax_l _ (/ 2 * d))|apply Rmax_l]|apply Rmax_l]. Qed.

(* ---------------------------------------------------------- distance from the geometry not deformed *)
Lemma minus_self : forall x d, vsub (vadd x d) x = d.
Proof. intros [a b c] [e f g]. unfold vsub, vadd. cbn. f_equal; ring. Qed.
Lemma radius_enough : forall d, norm d <= radius d.
Proof. intros d. unfold radius. pose proof (norm_ge d). eapply Rle_trans; [|apply Rmax_r]. lra. Qed.
Lemma far_right : forall on closest x d, search_right on closest -> on x -> far_from on (vadd x d) (far closest (vadd x d) (radius d)).
Proof.
  intros on closest x d Sr Ox. unfold far. pose proof (Sr (vadd x d) (radius d)) as Q. destruct (closest _ _) as [h|]; [apply Q|]. exfalso. specialize (Q x Ox). rewrite minus_self in Q. pose proof (radius_enough d). lra.
Qed.
Lemma displaced_in : forall p l id x d, map (fun e => (fst e, fst (snd e))) l = m_verts (fst p) -> (forall id x d, In (id, (x, d)) l -> shift_of p id d) -> In (id, (x, d)) l -> displaced p id x (vadd x d).
Proof.
  intros p l id x d M F H. split; [rewrite <- M; apply in_map_iff; exists (id, (x, d)); auto|]. exists d. split; [exact (F _ _ _ H)|reflexivity].
Qed.
Lemma displaced_back : forall p l id x y, suitable p -> map (fun e => (fst e, fst (snd e))) l = m_verts (fst p) -> (forall id x d, In (id, (x, d)) l -> shift_of p id d) -> displaced p id x y -> exists d, In (id, (x, d)) l /\ y = vadd x d.
Proof.
  intros p l id x y (_ & _ & _ & N2 & _) M F (I & d & D & E). rewrite <- M in I. apply in_map_iff in I. destruct I as ([j [z e]] & Q & I). cbn in Q. injection Q as -> ->. exists e. split; [exact I|]. rewrite E.
  assert (d = e) as ->; [|reflexivity]. destruct D as [D|[D1 D2]], (F _ _ _ I) as [G|[G1 G2]].
  - apply (unique_in _ _ _ _ N2 D G).
  - exfalso. apply G2. apply in_map_iff. exists (id, d). auto.
  - exfalso. apply D2. apply in_map_iff. exists (id, e). auto.
  - congruence.
Qed.
Definition max_good (on : vec -> Prop) (limit : R) (p : mesh * field) (l : list (nat * R)) : Prop :=
  map fst l = map fst (m_verts (fst p)) /\ (forall id w, In (id, w) l -> exists x y d, displaced p id x y /\ far_from on y d /\ w = d - limit) /\
  forall id x y, displaced p id x y -> exists d, far_from on y d /\ In (id, d - limit) l.
Lemma max_part_right : forall on closest limit p, search_right on closest -> suitable p -> (forall id x, In (id, x) (m_verts (fst p)) -> on x) ->
  exists l, max_part closest limit p = Some l /\ max_good on limit p l.
Proof.
  intros on closest limit p Sr Su On. destruct (displacements_right p Su) as (l & E & M & F). unfold max_part. rewrite E. eexists. split; [reflexivity|].
  assert (Ox : forall id x d, In (id, (x, d)) l -> on x) by (intros id x d H; apply (On id); rewrite <- M; apply in_map_iff; exists (id, (x, d)); auto).
  split; [|split].
  - rewrite <- M, !map_map. apply map_ext. intros [i [x d]]. reflexivity.
  - intros id w H. apply in_map_iff in H. destruct H as ([i [x d]] & Q & H). injection Q as <- <-. exists x, (vadd x d), (far closest (vadd x d) (radius d)). split; [apply (displaced_in p l i x d M F H)|split; [apply far_right; [exact Sr|apply (Ox _ _ _ H)]|reflexivity]].
  - intros id x y D. destruct (displaced_back p l id x y Su M F D) as (d & H & ->). exists (far closest (vadd x d) (radius d)). split; [apply far_right; [exact Sr|apply (Ox _ _ _ H)]|]. apply in_map_iff. exists (id, (x, d)). split; [reflexivity|exact H].
Qed.
Lemma far_unique : forall on p a b, far_from on p a -> far_from on p b -> a = b.
Proof. intros on p a b [(x & Ox & Ex) A] [(y & Oy & Ey) B]. specialize (A y Oy). specialize (B x Ox). lra. Qed.
Lemma nth_error_same : forall A (a b : list A), (forall k, nth_error a k = nth_error b k) -> a = b.
Proof. intros A. induction a as [|x a IH]; intros [|y b] H; [reflexivity|discriminate (H 0%nat)|discriminate (H 0%nat)|]. pose proof (H 0%nat) as H0. injection H0 as ->. f_equal. apply IH. intros k. apply (H (S k)). Qed.
Lemma Forall2_in_l : forall A B (P : A -> B -> Prop) l r x, Forall2 P l r -> In x l -> exists y, In y r /\ P x y.
Proof. intros A B P l r x F. induction F as [|a b l r Pab F IH]; intros H; [destruct H|]. destruct H as [H|H]; [subst a; exists b; split; [left; reflexivity|exact Pab]|]. destruct (IH H) as (y & I & Q). exists y. split; [right; exact I|exact Q]. Qed.
Lemma Forall2_in_r : forall A B (P : A -> B -> Prop) l r y, Forall2 P l r -> In y r -> exists x, In x l /\ P x y.
Proof. intros A B P l r y F. induction F as [|a b l r Pab F IH]; intros H; [destruct H|]. destruct H as [H|H]; [subst b; exists a; split; [left; reflexivity|exact Pab]|]. destruct (IH H) as (x & I & Q). exists x. split; [right; exact I|exact Q]. Qed.

(* ---------------------------------------------------------- external surfaces *)
Section Ext.
  Variable diagonal : vec -> vec -> vec -> vec -> option R.
  Definition val (lo hi : vec) (tol : R) (points : list vec) (c : constraint) (k : nat) : R :=
    evaluateSignedDistance (c_signed c) (guess diagonal (fold_left min3 points (V3 dmax dmax dmax)) (fold_left max3 points (V3 (-1 * dmax) (-1 * dmax) (-1 * dmax))) c) points k * reference diagonal lo hi c + tol.
  Lemma one_nth : forall lo hi tol ids points field c k, nth_error (one_constraint diagonal lo hi tol ids points field c) k = option_map (fun e => (fst e, Rmax (snd e) (val lo hi tol points c k))) (nth_error field k).
  Proof.
    intros lo hi tol ids points field c k. unfold one_constraint, val. cbv zeta. generalize (evaluateSignedDistance (c_signed c) (guess diagonal (fold_left min3 points (V3 dmax dmax dmax)) (fold_left max3 points (V3 (-1 * dmax) (-1 * dmax) (-1 * dmax))) c) points). generalize (reference diagonal lo hi c). intros s d.
    assert (G : forall (fl : list (nat * R)) a k, nth_error (map (fun e : nat * R * nat => (fst (fst e), Rmax (snd (fst e)) (d (snd e) * s + tol))) (combine fl (seq a (length fl)))) k = option_map (fun e => (fst e, Rmax (snd e) (d (a + k)%nat * s + tol))) (nth_error fl k)).
    { induction fl as [|e fl IH]; intros a [|j]; try reflexivity; cbn [length seq combine map nth_error option_map fst snd]; [rewrite Nat.add_0_r; reflexivity|]. rewrite IH. rewrite Nat.add_succ_comm. reflexivity. }
    apply (G field 0%nat).
  Qed.
  Lemma all_nth : forall lo hi tol ids points cs field k, nth_error (fold_left (one_constraint diagonal lo hi tol ids points) cs field) k = option_map (fun e => (fst e, fold_left (fun m c => Rmax m (val lo hi tol points c k)) cs (snd e))) (nth_error field k).
  Proof.
    intros lo hi tol ids points. induction cs as [|c cs IH]; intros field k; cbn [fold_left]; [destruct (nth_error field k) as [[i x]|]; reflexivity|]. rewrite IH, one_nth. destruct (nth_error field k) as [[i x]|]; reflexivity.
  Qed.
  Lemma val_excess : forall lo hi tol points c s k p, signed_right (s_on s) (s_out s) (c_signed c) -> nth_error points k = Some p -> within (10 ^ 12) s p -> within (10 ^ 12) s (middle lo hi) ->
    excess (s_on s) (s_out s) (middle lo hi) p tol (val lo hi tol points c k).
  Proof.
    intros lo hi tol points c s k p Sr E W1 W2. unfold val, reference.
    destruct (evaluate_right (c_signed c) (s_on s) (s_out s) (guess diagonal lo hi c) [middle lo hi] 0%nat (middle lo hi) Sr (guess_least _ _ _ _) eq_refl W2) as [_ C].
    destruct (evaluate_right (c_signed c) (s_on s) (s_out s) (guess diagonal (fold_left min3 points (V3 dmax dmax dmax)) (fold_left max3 points (V3 (-1 * dmax) (-1 * dmax) (-1 * dmax))) c) points k p Sr (guess_least _ _ _ _) E W1) as [D P].
    set (h := evaluateSignedDistance _ _ points k) in *. set (g := evaluateSignedDistance _ _ [_] 0%nat) in *. clearbody h g. exists (Rabs h). split; [exact D|]. unfold opposite.
    destruct (Rlt_dec 0 g) as [G|G], (Rlt_dec 0 h) as [H|H].
    - right. split; [tauto|]. rewrite Rabs_right by lra. lra.
    - left. split; [tauto|]. rewrite Rabs_left1 by lra. lra.
    - left. split; [tauto|]. rewrite Rabs_right by lra. lra.
    - right. split; [tauto|]. rewrite Rabs_left1 by lra. lra.
  Qed.
End Ext.
Lemma excess_unique : forall on out c p tol v w, excess on out c p tol v -> excess on out c p tol w -> v = w.
Proof. intros on out c p tol v w (d & D & A) (e & E & B). pose proof (far_unique _ _ _ _ D E) as ->. destruct A as [[A1 A2]|[A1 A2]], B as [[B1 B2]|[B1 B2]]; try contradiction; congruence. Qed.
Lemma excess_above : forall s c p tol v, 0 <= tol -> within (10 ^ 12) s p -> excess (s_on s) (s_out s) c p tol v -> lost < v.
Proof.
  intros s c p tol v T (x & Ox & Dx) (d & [[y [Oy Ey]] D] & A). specialize (D x Ox). assert (0 <= d) by (rewrite <- Ey; apply norm_ge). unfold lost. assert (10 ^ 12 < 10 ^ 25) by (apply Rlt_pow; [lra|lia]). destruct A as [[_ ->]|[_ ->]]; lra.
Qed.
Lemma fold_val_ge : forall A (f : A -> R) l a, a <= fold_left (fun m c => Rmax m (f c)) l a.
Proof. intros A f. induction l as [|y l IH]; intros a; cbn [fold_left]; [lra|]. eapply Rle_trans; [|apply IH]. apply Rmax_l. Qed.
Lemma fold_val_in : forall A (f : A -> R) l a c, In c l -> f c <= fold_left (fun m c => Rmax m (f c)) l a.
Proof. intros A f. induction l as [|y l IH]; intros a c H; [destruct H|]. cbn [fold_left]. destruct H as [H|H]; [subst y; eapply Rle_trans; [|apply fold_val_ge]; apply Rmax_r|apply IH; exact H]. Qed.
Lemma fold_val_at : forall A (f : A -> R) l a, fold_left (fun m c => Rmax m (f c)) l a = a \/ exists c, In c l /\ fold_left (fun m c => Rmax m (f c)) l a = f c.
Proof.
  intros A f. induction l as [|y l IH]; intros a; cbn [fold_left]; [left; reflexivity|]. destruct (IH (Rmax a (f y))) as [E|(c & I & E)]; [|right; exists c; split; [right; exact I|exact E]].
  rewrite E. unfold Rmax. destruct (Rle_dec a (f y)); [right; exists y; split; [left; reflexivity|reflexivity]|left; reflexivity].
Qed.
Definition ext_good (ss : list surface) (centre : vec) (tol : R) (p : mesh * field) (l : list (nat * R)) : Prop :=
  map fst l = map fst (m_verts (fst p)) /\ (forall id w, In (id, w) l -> exists x y, displaced p id x y /\ worst ss centre y tol w) /\
  forall id x y, displaced p id x y -> exists w, worst ss centre y tol w /\ In (id, w) l.
Lemma ext_part_right : forall diagonal lo hi tol cs ss p, 0 <= tol -> Forall2 (fun c s => signed_right (s_on s) (s_out s) (c_signed c)) cs ss -> suitable p ->
  (forall s, In s ss -> within (10 ^ 12) s (middle lo hi)) -> (forall s id x y, In s ss -> displaced p id x y -> within (10 ^ 12) s y) ->
  exists l, ext_part diagonal lo hi tol cs p = Some l /\ ext_good ss (middle lo hi) tol p l.
Proof.
  intros diagonal lo hi tol cs ss p T CS Su Wm Wp. destruct (displacements_right p Su) as (l & E & M & F). unfold ext_part. rewrite E. cbv zeta. eexists. split; [reflexivity|].
  set (points := map (fun e : nat * (vec * vec) => vadd (fst (snd e)) (snd (snd e))) l). set (r := fold_left _ cs _).
  assert (NR : forall k, nth_error r k = option_map (fun e : nat * (vec * vec) => (fst e, fold_left (fun m c => Rmax m (val diagonal lo hi tol points c k)) cs lost)) (nth_error l k)).
  { intros k. unfold r. rewrite all_nth, map_map, nth_error_map. destruct (nth_error l k) as [[i [x d]]|]; reflexivity. }
  assert (WR : forall k id x d, nth_error l k = Some (id, (x, d)) -> worst ss (middle lo hi) (vadd x d) tol (fold_left (fun m c => Rmax m (val diagonal lo hi tol points c k)) cs lost)).
  { intros k id x d K. assert (I : In (id, (x, d)) l) by (apply (nth_error_In _ _ K)). pose proof (displaced_in p l id x d M F I) as D.
    assert (KP : nth_error points k = Some (vadd x d)) by (unfold points; rewrite nth_error_map, K; reflexivity).
    assert (VE : forall c s, In s ss -> signed_right (s_on s) (s_out s) (c_signed c) -> excess (s_on s) (s_out s) (middle lo hi) (vadd x d) tol (val diagonal lo hi tol points c k)).
    { intros c s Is Sr. apply val_excess; [exact Sr|exact KP|apply (Wp s id x); assumption|apply Wm; exact Is]. }
    split.
    - intros s Is. destruct (Forall2_in_r _ _ _ _ _ _ CS Is) as (c & Ic & Sr). exists (val diagonal lo hi tol points c k). split; [apply VE; assumption|apply (fold_val_in _ (fun c => val diagonal lo hi tol points c k)); exact Ic].
    - destruct (fold_val_at _ (fun c => val diagonal lo hi tol points c k) cs lost) as [Q|(c & Ic & Q)].
      + left. destruct CS as [|c s cs ss Sr CS]; [split; [reflexivity|exact Q]|]. exfalso. pose proof (fold_val_in _ (fun c => val diagonal lo hi tol points c k) (c :: cs) lost c (or_introl eq_refl)) as G. cbv beta in G. pose proof (Rle_trans _ _ _ G (Req_le _ _ Q)) as G'.
        pose proof (excess_above s (middle lo hi) (vadd x d) tol _ T (Wp s id x _ (or_introl eq_refl) D) (VE c s (or_introl eq_refl) Sr)). lra.
      + right. destruct (Forall2_in_l _ _ _ _ _ _ CS Ic) as (s & Is & Sr). exists s. split; [exact Is|]. rewrite Q. apply VE; assumption. }
  split; [|split].
  - apply nth_error_same. intros k. rewrite !nth_error_map, NR, <- M, nth_error_map. destruct (nth_error l k) as [[i [x d]]|]; reflexivity.
  - intros id w H. apply In_nth_error in H. destruct H as [k K]. rewrite NR in K. destruct (nth_error l k) as [[i [x d]]|] eqn:EL; [|discriminate]. cbn [option_map fst] in K. injection K as <- <-. exists x, (vadd x d). split; [apply (displaced_in p l i x d M F); apply (nth_error_In _ _ EL)|apply (WR k i); exact EL].
  - intros id x y D. destruct (displaced_back p l id x y Su M F D) as (d & H & ->). apply In_nth_error in H. destruct H as [k K]. eexists. split; [apply (WR k id x d K)|]. apply (nth_error_In r k). rewrite NR, K. reflexivity.
Qed.
