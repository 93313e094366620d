From Coq Require Import Reals List Arith Bool Lra Lia.
From Verif Require Import Vec ManipProofs Specular SpecularSpec.
Import ListNotations.
Open Scope R_scope.

(** ** Planes *)
Lemma dmin_pos : 0 < dmin.
Proof. unfold dmin. apply Rinv_0_lt_compat. apply pow_lt. lra. Qed.
Lemma dmin_small : dmin < 1.
Proof. unfold dmin. rewrite <- Rinv_1. apply Rinv_lt_contravar; [rewrite Rmult_1_l; apply pow_lt; lra|]. apply Rlt_pow_R1; [lra|lia]. Qed.
Lemma norm_sq : forall n, norm n * norm n = dot n n.
Proof. intros n. unfold norm. apply sqrt_sqrt. unfold dot. nra. Qed.
Lemma norm_nonneg : forall n, 0 <= norm n.
Proof. intros n. apply sqrt_pos. Qed.
Lemma one_norm : forall n, of_length_one n -> norm n = 1.
Proof. intros n H. unfold norm, dot. rewrite H. apply sqrt_1. Qed.
Lemma scaled_one : forall n, 0 < norm n -> of_length_one (vscale (/ norm n) n).
Proof.
  intros n P. pose proof (norm_sq n) as Q. unfold of_length_one. cbn [vscale vx vy vz]. unfold dot in Q.
  replace (/ norm n * vx n * (/ norm n * vx n) + / norm n * vy n * (/ norm n * vy n) + / norm n * vz n * (/ norm n * vz n))
    with (/ norm n * / norm n * (vx n * vx n + vy n * vy n + vz n * vz n)) by ring.
  rewrite <- Q. field. lra.
Qed.
Lemma mirrored_scale : forall n d k p q, k <> 0 -> mirrored (vscale k n) (k * d) p q <-> mirrored n d p q.
Proof.
  intros n d k p q K. unfold mirrored, on_plane. cbn [vscale vx vy vz]. split; intros [[j J] P].
  - split; [exists (j * k); subst q; f_equal; ring|]. apply (Rmult_eq_reg_l k); [|exact K]. rewrite Rmult_0_r. rewrite <- P. ring.
  - split; [exists (j / k); subst q; f_equal; field; exact K|].
    match goal with |- ?L = 0 => replace L with (k * (vx n * ((vx p + vx q) / 2) + vy n * ((vy p + vy q) / 2) + vz n * ((vz p + vz q) / 2) + d)) by ring end. rewrite P. ring.
Qed.
Lemma mirrored_sym : forall n d p q, mirrored n d p q -> mirrored n d q p.
Proof.
  intros n d p q [[k K] P]. split.
  - exists (- k). subst q. destruct p as [p1 p2 p3]. cbn [vx vy vz]. f_equal; ring.
  - unfold on_plane in *. cbn [vx vy vz] in *. rewrite <- P. field.
Qed.
Lemma mirrored_self : forall n d p, on_plane n d p -> mirrored n d p p.
Proof.
  intros n d p P. split; [exists 0; destruct p as [p1 p2 p3]; cbn [vx vy vz]; f_equal; ring|].
  unfold on_plane in *. cbn [vx vy vz]. rewrite <- P. field.
Qed.
(** the image is unique *)
Lemma mirrored_fun : forall n d p q q', 0 < norm n -> mirrored n d p q -> mirrored n d p q' -> q = q'.
Proof.
  intros n d p q q' N [[k K] P] [[j J] Q]. pose proof (norm_sq n) as Sq. unfold dot in Sq. unfold on_plane in P, Q. subst q q'. cbn [vx vy vz] in *.
  assert (E : (k - j) * (norm n * norm n) = 0) by (rewrite Sq; lra).
  assert (k = j) by (apply Rmult_integral in E; destruct E as [E|E]; [lra|nra]). subst j. reflexivity.
Qed.
(** the formula of the code *)
Lemma image_right : forall n d out x, of_length_one n -> mirrored n d x (vsub x (vscale (2 * distance n d out x * sig out) n)).
Proof.
  intros n d out x U. unfold of_length_one in U. assert (S2 : sig out * sig out = 1) by (unfold sig; destruct out; lra). unfold mirrored, on_plane, distance, vsub, vscale. cbn [vx vy vz].
  split; [exists (- (2 * (sig out * (dot n x + d)) * sig out)); f_equal; ring|].
  replace (2 * (sig out * (dot n x + d)) * sig out) with (2 * (dot n x + d) * (sig out * sig out)) by ring. rewrite S2. unfold dot.
  match goal with |- ?L = 0 => replace L with ((1 - (vx n * vx n + vy n * vy n + vz n * vz n)) * (vx n * vx x + vy n * vy x + vz n * vz x + d)) by field end. rewrite U. ring.
Qed.
Lemma vector_right : forall n out w, of_length_one n -> mirrored n 0 w (vsub w (vscale (2 * dot w (vscale (sig out) n) * sig out) n)).
Proof.
  intros n out w U. pose proof (image_right n 0 out w U) as H. unfold distance in H.
  replace (2 * dot w (vscale (sig out) n) * sig out) with (2 * (sig out * (dot n w + 0)) * sig out); [exact H|]. unfold dot. cbn [vscale vx vy vz]. ring.
Qed.

(** ** Fields *)
Lemma at_id_in : forall A (z : A) id l x, NoDup (map fst l) -> In (id, x) l -> at_id z id l = x.
Proof.
  intros A z id. induction l as [|[i y] r IH]; intros x N H; [destruct H|]. cbn [at_id]. cbn [map fst] in N. pose proof (proj1 (NoDup_cons_iff i (map fst r)) N) as [N1 N2].
  destruct H as [H|H]; [injection H as -> ->; rewrite Nat.eqb_refl; reflexivity|]. destruct (Nat.eqb i id) eqn:E; [|apply IH; assumption].
  apply Nat.eqb_eq in E. subst i. exfalso. apply N1. apply in_map_iff. exists (id, x). split; [reflexivity|exact H].
Qed.
Lemma at_id_out : forall A (z : A) id l, ~ In id (map fst l) -> at_id z id l = z.
Proof.
  intros A z id. induction l as [|[i y] r IH]; intros N; [reflexivity|]. cbn [at_id]. cbn [map fst] in N. destruct (Nat.eqb i id) eqn:E; [apply Nat.eqb_eq in E; subst i; exfalso; apply N; left; reflexivity|]. apply IH. intros H. apply N. right. exact H.
Qed.
Lemma at_id_app : forall A (z : A) id l l', In id (map fst l) -> at_id z id (l ++ l') = at_id z id l.
Proof.
  intros A z id. induction l as [|[i y] r IH]; intros l' H; [destruct H|]. cbn [at_id app]. destruct (Nat.eqb i id) eqn:E; [reflexivity|]. apply IH. destruct H as [H|H]; [cbn [fst] in H; subst i; rewrite Nat.eqb_refl in E; discriminate|exact H].
Qed.
Lemma field_on_at : forall A (z : A) f id x vs, (match f with Some l => NoDup (map fst l) | None => True end) -> In id (map fst vs) -> value_given z f id x ->
  In (id, x) (field_on z vs f) /\ at_id z id (field_on z vs f) = x.
Proof.
  intros A z f id x vs N I G.
  assert (E : match f with None => z | Some l => at_id z id l end = x).
  { destruct f as [l|]; cbn [value_given] in G; [|symmetry; exact G]. destruct G as [G|[G ->]]; [apply at_id_in; assumption|apply at_id_out; exact G]. }
  split.
  - apply in_map_iff in I. destruct I as [e [E1 E2]]. apply in_map_iff. exists e. split; [subst id; rewrite E; reflexivity|exact E2].
  - induction vs as [|e r IH]; [destruct I|]. cbn [field_on map at_id fst]. destruct (Nat.eqb (fst e) id) eqn:Q; [apply Nat.eqb_eq in Q; rewrite Q; exact E|]. apply IH. destruct I as [I|I]; [subst id; rewrite Nat.eqb_refl in Q; discriminate|exact I].
Qed.
Lemma field_on_ids : forall A (z : A) vs f, map fst (field_on z vs f) = map fst vs.
Proof. intros. unfold field_on. rewrite map_map. apply map_ext. reflexivity. Qed.

(** ** The loop *)
Section Loop.
  Variables (n : vec) (d margin : R) (out force : bool).
  Notation tk := (fun e : nat * vec => taken n d margin out force (snd e)).
  Definition img (x : vec) : vec := vsub x (vscale (2 * distance n d out x * sig out) n).
  Definition vimg (w : vec) : vec := vsub w (vscale (2 * dot w (vscale (sig out) n) * sig out) n).
  Lemma loop_right : forall (sc0 : list (nat * R)) (vc0 : list (nat * vec)) l v c g sx wx,
    (forall e, In e l -> In (fst e) (map fst sc0) /\ In (fst e) (map fst vc0)) -> scalars g = sc0 ++ sx -> vectors g = vc0 ++ wx ->
    let src := filter tk l in
    let k := length src in
    let r := fold_left (add_one n d margin out force) l (v, c, g) in
    fst r = ((v + k)%nat, (c + k)%nat) /\
    verts (snd r) = verts g ++ combine (seq v k) (map (fun e => img (snd e)) src) /\
    cells (snd r) = cells g ++ combine (seq c k) (seq v k) /\
    scalars (snd r) = scalars g ++ combine (seq v k) (map (fun e => at_id 0 (fst e) sc0) src) /\
    vectors (snd r) = vectors g ++ combine (seq v k) (map (fun e => vimg (at_id vzero (fst e) vc0)) src).
  Proof.
    intros sc0 vc0. induction l as [|e r IH]; intros v c g sx vx' Hl Es Ev; cbv zeta; cbn [fold_left filter length].
    - cbn [length seq combine map filter fst snd]. rewrite !Nat.add_0_r, !app_nil_r. repeat split; reflexivity.
    - unfold add_one at 2 4 6 8 10. destruct (taken n d margin out force (snd e)) eqn:T.
      + cbn [length map].
        destruct (Hl e (or_introl eq_refl)) as [I1 I2].
        assert (E1 : at_id 0 (fst e) (scalars g) = at_id 0 (fst e) sc0) by (rewrite Es; apply at_id_app; exact I1).
        assert (E2 : at_id vzero (fst e) (vectors g) = at_id vzero (fst e) vc0) by (rewrite Ev; apply at_id_app; exact I2).
        match goal with |- context [fold_left _ r (?a, ?b, ?h)] => specialize (IH a b h (sx ++ [(v, at_id 0 (fst e) (scalars g))]) (vx' ++ [(v, vimg (at_id vzero (fst e) (vectors g)))])) end.
        cbv zeta in IH. destruct IH as [A1 [A2 [A3 [A4 A5]]]].
        { intros x Hx. apply Hl. right. exact Hx. }
        { cbn [scalars]. rewrite app_assoc, <- Es. reflexivity. }
        { cbn [vectors]. rewrite app_assoc, <- Ev. reflexivity. }
        cbn [verts cells scalars vectors] in *. rewrite A1, A2, A3, A4, A5. rewrite <- !app_assoc. cbn [app seq combine]. rewrite <- !plus_n_Sm. cbn [Nat.add].
        rewrite E1, E2.
        repeat split; reflexivity.
      + apply (IH v c g sx vx'); [intros x Hx; apply Hl; right; exact Hx|exact Es|exact Ev].
  Qed.
End Loop.

(** ** Parts and labels *)
Lemma combine_fst : forall A B (l : list A) (m : list B), length l = length m -> map fst (combine l m) = l.
Proof. intros A B. induction l as [|a l IH]; intros [|b m] H; try discriminate; [reflexivity|]. cbn [combine map fst]. f_equal. apply IH. injection H as H. exact H. Qed.
Lemma combine_snd : forall A B (l : list A) (m : list B), length l = length m -> map snd (combine l m) = m.
Proof. intros A B. induction l as [|a l IH]; intros [|b m] H; try discriminate; [reflexivity|]. cbn [combine map snd]. f_equal. apply IH. injection H as H. exact H. Qed.
Lemma filter_le : forall A (f : A -> bool) l, (length (filter f l) <= length l)%nat.
Proof. intros A f. induction l as [|a l IH]; [apply le_n|]. cbn [filter]. destruct (f a); cbn [length]; lia. Qed.
Lemma filter_chosen : forall A (f : A -> bool) (P : A -> Prop) l, (forall x, f x = true <-> P x) -> chosen P l (filter f l).
Proof.
  intros A f P l H. induction l as [|a l IH]; [constructor|]. cbn [filter]. destruct (f a) eqn:E; constructor; try assumption; [apply H; exact E|]. intros Q. apply H in Q. congruence.
Qed.
Definition fields_ok (p : input) : Prop :=
  (match i_scalar p with Some l => NoDup (map fst l) | None => True end) /\ (match i_vector p with Some l => NoDup (map fst l) | None => True end).
Section Parts.
  Variables (n : vec) (d margin : R) (out force : bool).
  Notation tk := (fun e : nat * vec => taken n d margin out force (snd e)).
  Lemma part_right : forall v c p,
    let src := filter tk (i_verts p) in let k := length src in let g := mirror_part n d margin out force v c p in
    verts g = i_verts p ++ combine (seq v k) (map (fun e => img n d out (snd e)) src) /\
    cells g = i_cells p ++ combine (seq c k) (seq v k) /\
    scalars g = field_on 0 (i_verts p) (i_scalar p) ++ combine (seq v k) (map (fun e => at_id 0 (fst e) (field_on 0 (i_verts p) (i_scalar p))) src) /\
    vectors g = field_on vzero (i_verts p) (i_vector p) ++ combine (seq v k) (map (fun e => vimg n out (at_id vzero (fst e) (field_on vzero (i_verts p) (i_vector p)))) src).
  Proof.
    intros v c p. cbv zeta. unfold mirror_part. set (sc := field_on 0 (i_verts p) (i_scalar p)). set (vc := field_on vzero (i_verts p) (i_vector p)).
    pose proof (loop_right n d margin out force sc vc (i_verts p) v c (Cloud (i_verts p) (i_cells p) sc vc) [] []) as H. cbv zeta in H. cbn [verts cells scalars vectors] in H.
    destruct H as [_ H]; [|symmetry; apply app_nil_r|symmetry; apply app_nil_r|exact H].
    intros e He. unfold sc, vc. rewrite !field_on_ids. split; apply in_map; exact He.
  Qed.
  Lemma labels_right : forall ps v c,
    exists news newc, let gs := mirror_parts n d margin out force v c ps in
      (forall id, count_occ Nat.eq_dec (flat_map (fun g => map fst (verts g)) gs) id = count_occ Nat.eq_dec (flat_map (fun p => map fst (i_verts p)) ps) id + count_occ Nat.eq_dec news id)%nat /\
      (forall id, count_occ Nat.eq_dec (flat_map (fun g => map fst (cells g)) gs) id = count_occ Nat.eq_dec (flat_map (fun p => map fst (i_cells p)) ps) id + count_occ Nat.eq_dec newc id)%nat /\
      NoDup news /\ NoDup newc /\ (forall id, In id news -> v <= id)%nat /\ (forall id, In id newc -> c <= id)%nat.
  Proof.
    induction ps as [|p r IH]; intros v c; [exists [], []; cbn; repeat split; try constructor; intros id []|].
    destruct (IH (v + length (i_verts p)) (c + length (i_verts p)))%nat as [nv [nc H]]. cbv zeta in H. destruct H as [H1 [H2 [H3 [H4 [H5 H6]]]]].
    pose proof (part_right v c p) as P. cbv zeta in P. destruct P as [P1 [P2 _]]. set (k := length (filter tk (i_verts p))) in *.
    assert (K : (k <= length (i_verts p))%nat) by apply filter_le.
    exists (seq v k ++ nv), (seq c k ++ nc). cbv zeta. cbn [mirror_parts flat_map]. rewrite P1, P2, !map_app.
    rewrite !combine_fst by (rewrite ?map_length, ?seq_length; reflexivity).
    split; [intros id; rewrite !count_occ_app, H1; lia|]. split; [intros id; rewrite !count_occ_app, H2; lia|].
    assert (Ap : forall a l, (forall id, In id l -> a + length (i_verts p) <= id)%nat -> NoDup l -> NoDup (seq a k ++ l)).
    { intros a l Hl N. generalize K. generalize (length (i_verts p)) Hl. clear -N. revert a. induction k as [|k IHk]; intros a m Hl Km; [exact N|]. cbn [seq app]. constructor.
      - intros I. apply in_app_or in I. destruct I as [I|I]; [apply in_seq in I; lia|apply Hl in I; lia].
      - apply (IHk (S a) (m - 1)%nat); [|lia]. intros id I. apply Hl in I. lia. }
    split; [apply Ap; assumption|]. split; [apply Ap; assumption|].
    split; intros id I; apply in_app_or in I; destruct I as [I|I]; try (apply in_seq in I; lia); [apply H5 in I|apply H6 in I]; lia.
  Qed.
End Parts.
Lemma next_id_above : forall A (l : list (nat * A)) id, In id (map fst l) -> (id < next_id l)%nat.
Proof. intros A. induction l as [|e r IH]; intros id H; [destruct H|]. destruct H as [H|H]; [subst id|apply IH in H]; cbn [next_id fold_right]; unfold next_id in *; lia. Qed.
Lemma max_of_above : forall l x, In x l -> (x <= max_of l)%nat.
Proof. induction l as [|a r IH]; intros x H; [destruct H|]. destruct H as [H|H]; [subst x|apply IH in H]; cbn [max_of fold_right]; unfold max_of in *; lia. Qed.
Lemma old_below : forall A (f : input -> list (nat * A)) ps id, In id (flat_map (fun p => map fst (f p)) ps) -> (id < max_of (map (fun p => next_id (f p)) ps))%nat.
Proof.
  intros A f ps id H. apply in_flat_map in H. destruct H as [p [Hp Hi]]. apply next_id_above in Hi.
  pose proof (max_of_above (map (fun p => next_id (f p)) ps) (next_id (f p)) (in_map (fun p => next_id (f p)) ps p Hp)). lia.
Qed.
