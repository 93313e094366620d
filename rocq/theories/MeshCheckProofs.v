(** Proofs about the quality of meshes. *)
From Coq Require Import Reals List Arith Bool Lia Lra.
From Verif Require Import Vec MeshCheck MeshCheckSpec SkdDistProofs.
Import ListNotations.
Open Scope R_scope.

Lemma below_false : forall x y, below x y = false <-> y <= x.
Proof. intros x y. unfold below. destruct (Rlt_dec x y); split; intro; try discriminate; try reflexivity; lra. Qed.
Lemma below_true : forall x y, below x y = true <-> x < y.
Proof. intros x y. unfold below. destruct (Rlt_dec x y); split; intro; try discriminate; try reflexivity; try assumption; lra. Qed.
Lemma fold_min : forall (A : Type) (f : A -> R) l x t, t <= fold_left (fun m c => Rmin m (f c)) l x <-> t <= x /\ forall c, In c l -> t <= f c.
Proof.
  intros A f l. induction l as [|c l IH]; intros x t; cbn [fold_left]; [split; [intro; split; [assumption|intros c []]|tauto]|].
  rewrite IH. split.
  - intros [H K]. pose proof (Rmin_l x (f c)). pose proof (Rmin_r x (f c)). split; [lra|]. intros d [<- |D]; [lra|auto].
  - intros [H K]. split; [apply Rmin_glb; [exact H|apply K; left; reflexivity]|]. intros d D. apply K. right. exact D.
Qed.
Lemma fold_max : forall (A : Type) (f : A -> R) l x t, fold_left (fun m c => Rmax m (f c)) l x <= t <-> x <= t /\ forall c, In c l -> f c <= t.
Proof.
  intros A f l. induction l as [|c l IH]; intros x t; cbn [fold_left]; [split; [intro; split; [assumption|intros c []]|tauto]|].
  rewrite IH. split.
  - intros [H K]. pose proof (Rmax_l x (f c)). pose proof (Rmax_r x (f c)). split; [lra|]. intros d [<- |D]; [lra|auto].
  - intros [H K]. split; [apply Rmax_lub; [exact H|apply K; left; reflexivity]|]. intros d D. apply K. right. exact D.
Qed.
Lemma fold_least : forall (A : Type) (f : A -> option R) l x t, t <= fold_left (fun m c => least m (f c)) l x <-> t <= x /\ forall c v, In c l -> f c = Some v -> t <= v.
Proof.
  intros A f l. induction l as [|c l IH]; intros x t; cbn [fold_left]; [split; [intro; split; [assumption|intros c v []]|tauto]|].
  rewrite IH. unfold least. destruct (f c) as [w|] eqn:E; split.
  - intros [H K]. pose proof (Rmin_l x w). pose proof (Rmin_r x w). split; [lra|]. intros d v [<- |D] F; [rewrite E in F; injection F as <-; lra|eauto].
  - intros [H K]. split; [apply Rmin_glb; [exact H|apply (K c w); [left; reflexivity|exact E]]|]. intros d v D. apply K. right. exact D.
  - intros [H K]. split; [exact H|]. intros d v [<- |D] F; [congruence|eauto].
  - intros [H K]. split; [exact H|]. intros d v D. apply K. right. exact D.
Qed.
Lemma fold_greatest : forall (A : Type) (f : A -> option R) l x t, fold_left (fun m c => greatest m (f c)) l x <= t <-> x <= t /\ forall c v, In c l -> f c = Some v -> v <= t.
Proof.
  intros A f l. induction l as [|c l IH]; intros x t; cbn [fold_left]; [split; [intro; split; [assumption|intros c v []]|tauto]|].
  rewrite IH. unfold greatest. destruct (f c) as [w|] eqn:E; split.
  - intros [H K]. pose proof (Rmax_l x w). pose proof (Rmax_r x w). split; [lra|]. intros d v [<- |D] F; [rewrite E in F; injection F as <-; lra|eauto].
  - intros [H K]. split; [apply Rmax_lub; [exact H|apply (K c w); [left; reflexivity|exact E]]|]. intros d v D. apply K. right. exact D.
  - intros [H K]. split; [exact H|]. intros d v [<- |D] F; [congruence|eauto].
  - intros [H K]. split; [exact H|]. intros d v D. apply K. right. exact D.
Qed.

(** ** The mesh *)
Lemma find_unique : forall l d, NoDup (map c_id l) -> In d l -> find (fun c => Nat.eqb (c_id c) (c_id d)) l = Some d.
Proof.
  induction l as [|c l IH]; intros d N I; [destruct I|]. cbn [map] in N. inversion N as [|? ? X N']; subst. cbn [find]. destruct I as [-> |I].
  - rewrite Nat.eqb_refl. reflexivity.
  - destruct (Nat.eqb_spec (c_id c) (c_id d)) as [E|E]; [|auto]. exfalso. apply X. rewrite E. apply in_map. exact I.
Qed.
Lemma cell_of_id : forall g d, NoDup (map c_id (m_cells g)) -> has_cell g d -> cell_of g (c_id d) = d.
Proof. intros g d N I. unfold cell_of. rewrite (find_unique _ _ N I). reflexivity. Qed.
Lemma interior_iff : forall g c, In c (interior g) <-> has_cell g c /\ c_interior c = true.
Proof. intros. unfold interior. rewrite filter_In. reflexivity. Qed.

Section Good.
  Variable g : mesh.
  Hypothesis W : well_formed g.
  Lemma ids : NoDup (map c_id (m_cells g)). Proof. exact (proj1 W). Qed.
  Lemma crossing_joining : forall i, In i (m_interfaces g) -> crossing g i (joining g i) /\ forall u, crossing g i u -> u = joining g i.
  Proof.
    intros i I. pose proof (proj2 (proj2 W)) as WI. destruct (WI i I) as ((o & O & OE) & D). split.
    - exists o. repeat split; auto. unfold joining. rewrite <- OE. destruct (i_neigh i) as [n|]; [|rewrite (cell_of_id g o ids O); reflexivity].
      destruct (D n eq_refl) as (d & Hd & <-). exists d. repeat split; auto. rewrite (cell_of_id g o ids O), (cell_of_id g d ids Hd). reflexivity.
    - intros u (o' & O' & OE' & U). unfold joining. rewrite <- OE', (cell_of_id g o' ids O'). destruct (i_neigh i) as [n|]; [|exact U]. destruct U as (d & Hd & <- & ->). rewrite (cell_of_id g d ids Hd). reflexivity.
  Qed.
  Lemma angle_spec : forall i, In i (m_interfaces g) -> 0 < norm (joining g i) -> 0 < norm (i_normal i) -> exists a, angle g i = Some a /\ is_angle (joining g i) (i_normal i) a.
  Proof.
    intros i I P Q. set (u := joining g i) in *. set (n := i_normal i) in *. assert (PQ : 0 < norm u * norm n) by (apply Rmult_lt_0_compat; assumption).
    exists (acos (dot u n / (norm u * norm n))). split; [unfold angle, quotient; fold u n; destruct (Req_EM_T (norm u * norm n) 0); [lra|reflexivity]|]. split; [apply acos_bound|].
    rewrite cos_acos; [field; lra|]. pose proof (schwarz u n) as C. pose proof (Rle_abs (dot u n)) as A1. pose proof (Rle_abs (- dot u n)) as A2. rewrite Rabs_Ropp in A2.
    split; apply Rmult_le_reg_r with (norm u * norm n); auto; unfold Rdiv; rewrite Rmult_assoc, Rinv_l, Rmult_1_r by lra; lra.
  Qed.
  Lemma angle_unique : forall u v a b, 0 < norm u -> 0 < norm v -> is_angle u v a -> is_angle u v b -> a = b.
  Proof.
    intros u v a b P Q (A & E) (B & F). assert (PQ : 0 < norm u * norm v) by (apply Rmult_lt_0_compat; assumption).
    rewrite <- (acos_cos a A), <- (acos_cos b B). f_equal. apply Rmult_eq_reg_l with (norm u * norm v); lra.
  Qed.
  Lemma good_angle_iff : forall i t, In i (m_interfaces g) -> 0 < norm (joining g i) -> 0 < norm (i_normal i) -> ((forall v, angle g i = Some v -> v <= t) <-> good_angle t g i).
  Proof.
    intros i t I P Q. destruct (angle_spec i I P Q) as (a & E & A). destruct (crossing_joining i I) as (C & U). split.
    - intros H u b CU B. rewrite (U u CU) in B. rewrite <- (angle_unique _ _ _ _ P Q A B). auto.
    - intros H v V. rewrite E in V. injection V as <-. exact (H _ _ C A).
  Qed.
  Lemma ratio_iff : forall c t, has_cell g c -> (forall d, has_cell g d -> 0 < c_volume d) -> t <= 1 ->
    (t <= ratio g c <-> forall d, has_cell g d -> In (c_id d) (c_adjacent c) -> t * c_volume d <= c_volume c).
  Proof.
    intros c t C P T. unfold ratio. rewrite fold_least. split.
    - intros [_ H] d D I. specialize (H (c_id d) (c_volume c / c_volume d) I). rewrite (cell_of_id g d ids D) in H. pose proof (P d D) as V. unfold quotient in H. destruct (Req_EM_T (c_volume d) 0); [lra|].
      specialize (H eq_refl). apply Rmult_le_compat_r with (r := c_volume d) in H; [|lra]. unfold Rdiv in H. rewrite Rmult_assoc, Rinv_l, Rmult_1_r in H by lra. exact H.
    - intro H. split; [exact T|]. intros n v I E. pose proof (proj1 (proj2 W)) as WA. destruct (WA c n C I) as (d & D & <-). rewrite (cell_of_id g d ids D) in E. pose proof (P d D) as V. unfold quotient in E. destruct (Req_EM_T (c_volume d) 0); [lra|].
      injection E as <-. specialize (H d D I). apply Rmult_le_reg_r with (c_volume d); [exact V|]. unfold Rdiv. rewrite Rmult_assoc, Rinv_l, Rmult_1_r by lra. exact H.
  Qed.
  (** the areas *)
  Definition face_list (c : cell) (l : list interface) : list (interface * vec) :=
    flat_map (fun i => (if Nat.eq_dec (i_owner i) (c_id c) then [(i, i_normal i)] else []) ++
      (match i_neigh i with Some n => if Nat.eq_dec n (c_id c) then [(i, vscale (-1) (i_normal i))] else [] | None => [] end)) l.
  Lemma total_app : forall a b, total_area (a ++ b) = total_area a + total_area b.
  Proof. induction a as [|f a IH]; intro b; cbn; [ring|]. rewrite IH. ring. Qed.
  Fixpoint good_area (c : cell) (l : list (interface * vec)) : R :=
    match l with [] => 0 | f :: r => (if below 0 (dot (vsub (i_centre (fst f)) (c_centre c)) (snd f)) then i_area (fst f) else 0) + good_area c r end.
  Lemma good_app : forall c a b, good_area c (a ++ b) = good_area c a + good_area c b.
  Proof. intro c. induction a as [|f a IH]; intro b; cbn; [ring|]. rewrite IH. ring. Qed.
  Lemma good_area_valid : forall c l x, valid_area c l x <-> x = good_area c l.
  Proof.
    intros c l x. split.
    - induction 1 as [|f r x V H IH|f r x V H IH]; cbn; [reflexivity|..]; unfold is_valid in V.
      + apply below_true in V. rewrite V, IH. reflexivity.
      + destruct (below 0 _) eqn:B; [apply below_true in B; contradiction|]. rewrite IH. ring.
    - intros ->. induction l as [|f r IH]; cbn; [constructor|]. destruct (below 0 _) eqn:B.
      + apply va_yes; [apply below_true; exact B|exact IH].
      + rewrite Rplus_0_l. apply va_no; [|exact IH]. unfold is_valid. intro V. apply below_true in V. congruence.
  Qed.
  Lemma add_side_at : forall i k n a c, has_cell g c ->
    snd (add_side g i k n a) (c_id c) = snd a (c_id c) + total_area (if Nat.eq_dec k (c_id c) then [(i, n)] else []) /\
    fst (add_side g i k n a) (c_id c) = fst a (c_id c) + good_area c (if Nat.eq_dec k (c_id c) then [(i, n)] else []).
  Proof.
    intros i k n a c C. unfold add_side, add_to. cbn [fst snd]. destruct (Nat.eq_dec k (c_id c)) as [E|E].
    - subst k. rewrite (cell_of_id g c ids C), Nat.eqb_refl. cbn. destruct (below 0 _); rewrite ?Nat.eqb_refl; split; ring.
    - assert (Q : (c_id c =? k)%nat = false) by (apply Nat.eqb_neq; auto). rewrite Q. cbn. destruct (below 0 _); rewrite ?Q; split; ring.
  Qed.
  Lemma areas_at : forall c, has_cell g c -> snd (areas g) (c_id c) = total_area (faces g c) /\ fst (areas g) (c_id c) = good_area c (faces g c).
  Proof.
    intros c C. unfold areas, faces. fold (face_list c (m_interfaces g)).
    assert (H : forall l a, let r := fold_left (fun a i => let b := add_side g i (i_owner i) (i_normal i) a in match i_neigh i with Some n => add_side g i n (vscale (-1) (i_normal i)) b | None => b end) l a in
      snd r (c_id c) = snd a (c_id c) + total_area (face_list c l) /\ fst r (c_id c) = fst a (c_id c) + good_area c (face_list c l)).
    { induction l as [|i l IH]; intro a; [cbn; split; ring|]. cbn [fold_left]. unfold face_list. cbn [flat_map]. fold (face_list c l). rewrite !total_app, !good_app.
      match goal with |- context [fold_left _ l ?b] => pose proof (IH b) as E0 end. cbn zeta in E0 |- *. destruct E0 as (E1 & E2). rewrite E1, E2. destruct (add_side_at i (i_owner i) (i_normal i) a c C) as (A1 & A2).
      destruct (i_neigh i) as [n|].
      - destruct (add_side_at i n (vscale (-1) (i_normal i)) (add_side g i (i_owner i) (i_normal i) a) c C) as (B1 & B2). rewrite B1, B2, A1, A2. split; ring.
      - rewrite A1, A2. cbn. split; ring. }
    destruct (H (m_interfaces g) (fun _ => 0, fun _ => 0)) as (A & B). cbn [fst snd] in A, B. split; [rewrite A|rewrite B]; ring.
  Qed.
  Lemma validity_iff : forall c t, has_cell g c -> 0 < total_area (faces g c) ->
    ((forall v, validity g c = Some v -> t <= v) <-> forall x, valid_area c (faces g c) x -> t * total_area (faces g c) <= x).
  Proof.
    intros c t C P. destruct (areas_at c C) as (A & B). unfold validity, quotient. rewrite A, B. destruct (Req_EM_T (total_area (faces g c)) 0); [lra|]. split.
    - intros H x X. apply good_area_valid in X. subst x. specialize (H _ eq_refl). apply Rmult_le_compat_r with (r := total_area (faces g c)) in H; [|lra]. unfold Rdiv in H. rewrite Rmult_assoc, Rinv_l, Rmult_1_r in H by lra. exact H.
    - intros H v E. injection E as <-. specialize (H _ (proj2 (good_area_valid c (faces g c) _) eq_refl)). apply Rmult_le_reg_r with (total_area (faces g c)); [exact P|]. unfold Rdiv. rewrite Rmult_assoc, Rinv_l, Rmult_1_r by lra. exact H.
  Qed.

  (** ** The indicators after the checks *)
  Hypothesis Rg : regular g.
  Variable t : tolerances.
  Variable s : state.
  Lemma measure_minVolume : t_minVolume t <= s_minVolume (measure g s) <-> t_minVolume t <= s_minVolume s /\ forall c, has_cell g c -> c_interior c = true -> t_minVolume t <= c_volume c.
  Proof.
    replace (s_minVolume (measure g s)) with (s_minVolume (checkVolume g s)) by (unfold measure, checkFaceValidity, checkSkewness; destruct (m_solid g); reflexivity). cbn [checkVolume s_minVolume]. rewrite fold_min.
    split; intros [A B]; (split; [exact A|]); [intros c C I; apply B, interior_iff; auto|intros c C; apply interior_iff in C; apply B; tauto].
  Qed.
  Lemma measure_maxVolume : s_maxVolume (measure g s) <= t_maxVolume t <-> s_maxVolume s <= t_maxVolume t /\ forall c, has_cell g c -> c_interior c = true -> c_volume c <= t_maxVolume t.
  Proof.
    replace (s_maxVolume (measure g s)) with (s_maxVolume (checkVolume g s)) by (unfold measure, checkFaceValidity, checkSkewness; destruct (m_solid g); reflexivity). cbn [checkVolume s_maxVolume]. rewrite fold_max.
    split; intros [A B]; (split; [exact A|]); [intros c C I; apply B, interior_iff; auto|intros c C; apply interior_iff in C; apply B; tauto].
  Qed.
  Lemma measure_change : t_change t <= 1 -> (t_change t <= s_change (measure g s) <-> t_change t <= s_change s /\ forall c, has_cell g c -> c_interior c = true -> good_change t g c).
  Proof.
    intro T. replace (s_change (measure g s)) with (s_change (checkVolume g s)) by (unfold measure, checkFaceValidity, checkSkewness; destruct (m_solid g); reflexivity). cbn [checkVolume s_change]. rewrite fold_min.
    split; intros [A B]; (split; [exact A|]); [intros c C I|intros c C; apply interior_iff in C; destruct C as [C I]].
    - refine (proj1 (ratio_iff c (t_change t) C (proj1 Rg) T) _). apply B, interior_iff. auto.
    - apply (proj2 (ratio_iff c (t_change t) C (proj1 Rg) T)). exact (B c C I).
  Qed.
  Lemma joining_pos : forall i, m_solid g = true -> In i (m_interfaces g) -> 0 < norm (joining g i) /\ 0 < norm (i_normal i).
  Proof. intros i M I. pose proof (proj2 Rg) as RM. destruct (RM M) as (RI & _). apply RI; [exact I|]. apply crossing_joining. exact I. Qed.
  Lemma measure_skewness : s_skewness (measure g s) <= t_skewness t <->
    s_skewness s <= t_skewness t /\ (m_solid g = true -> forall i n, In i (m_interfaces g) -> i_neigh i = Some n -> good_angle (t_skewness t) g i).
  Proof.
    unfold measure, checkFaceValidity, checkSkewness, checkVolume. destruct (m_solid g) eqn:M; cbn [s_skewness]; [|split; [intro; split; [assumption|discriminate]|tauto]]. rewrite fold_greatest.
    split; intros [A B]; (split; [exact A|]).
    - intros _ i n I N. destruct (joining_pos i M I) as (P & Q). apply (good_angle_iff i _ I P Q). intros v. apply B. unfold inner. apply filter_In. split; [exact I|]. unfold is_border. rewrite N. reflexivity.
    - intros i v I E. unfold inner in I. apply filter_In in I. destruct I as (I & N). unfold is_border in N. destruct (i_neigh i) as [n|] eqn:NE; [|discriminate]. destruct (joining_pos i M I) as (P & Q). exact (proj2 (good_angle_iff i _ I P Q) (B eq_refl i n I NE) v E).
  Qed.
  Lemma measure_boundary : s_boundary (measure g s) <= t_boundary t <->
    s_boundary s <= t_boundary t /\ (m_solid g = true -> forall i, In i (m_interfaces g) -> i_neigh i = None -> good_angle (t_boundary t) g i).
  Proof.
    unfold measure, checkFaceValidity, checkSkewness, checkVolume. destruct (m_solid g) eqn:M; cbn [s_boundary]; [|split; [intro; split; [assumption|discriminate]|tauto]]. rewrite fold_greatest.
    split; intros [A B]; (split; [exact A|]).
    - intros _ i I N. destruct (joining_pos i M I) as (P & Q). apply (good_angle_iff i _ I P Q). intros v. apply B. unfold border. apply filter_In. split; [exact I|]. unfold is_border. rewrite N. reflexivity.
    - intros i v I E. unfold border in I. apply filter_In in I. destruct I as (I & N). unfold is_border in N. destruct (i_neigh i) as [n|] eqn:NE; [discriminate|]. destruct (joining_pos i M I) as (P & Q). exact (proj2 (good_angle_iff i _ I P Q) (B eq_refl i I NE) v E).
  Qed.
  Lemma measure_validity : t_validity t <= s_validity (measure g s) <->
    t_validity t <= s_validity s /\ (m_solid g = true -> forall c, has_cell g c -> c_interior c = true -> good_faces t g c).
  Proof.
    unfold measure, checkFaceValidity, checkSkewness, checkVolume. destruct (m_solid g) eqn:M; cbn [s_validity]; [|split; [intro; split; [assumption|discriminate]|tauto]]. rewrite fold_least.
    pose proof (proj2 Rg) as RM. destruct (RM M) as (_ & RA). split; intros [A B]; (split; [exact A|]).
    - intros _ c C I. refine (proj1 (validity_iff c _ C (RA c C)) _). intros v. apply B, interior_iff. auto.
    - intros c v C E. apply interior_iff in C. destruct C as (C & I). exact (proj2 (validity_iff c _ C (RA c C)) (B eq_refl c C I) v E).
  Qed.
End Good.
Lemma verdict_good : forall t s, verdict t s = Good <->
  s_maxVolume s <= t_maxVolume t /\ t_minVolume t <= s_minVolume s /\ s_skewness s <= t_skewness t /\ s_boundary s <= t_boundary t /\ t_change t <= s_change s /\ t_validity t <= s_validity s.
Proof.
  intros t s. rewrite <- !below_false. unfold verdict. cbn zeta.
  destruct (below (s_validity s) (t_validity t)), (below (s_change s) (t_change t)), (below (t_boundary t) (s_boundary s)), (below (t_skewness t) (s_skewness s)), (below (s_minVolume s) (t_minVolume t)), (below (t_maxVolume t) (s_maxVolume s)); intuition discriminate.
Qed.
Lemma measure_good : forall t g s, well_formed g -> regular g -> t_change t <= 1 -> (verdict t (measure g s) = Good <-> verdict t s = Good /\ acceptable t g).
Proof.
  intros t g s W R0 T. rewrite !verdict_good, measure_maxVolume, measure_minVolume, (measure_skewness g W R0), (measure_boundary g W R0), (measure_change g W R0 t s T), (measure_validity g W R0). unfold acceptable, good_volume. split.
  - intros ((A1 & A2) & (B1 & B2) & (C1 & C2) & (D1 & D2) & (E1 & E2) & (F1 & F2)). split; [tauto|]. split; [intros c C I; repeat split; auto|]. intros M i I. destruct (i_neigh i) as [n|] eqn:N; [apply (C2 M i n I N)|apply (D2 M i I N)].
  - intros ((A & B & C & D & E & F) & (X & Y)). repeat split; auto; try (intros c HC I; destruct (X c HC I) as ((? & ?) & ? & ?); auto).
    + intros M i n I N. specialize (Y M i I). rewrite N in Y. exact Y.
    + intros M i I N. specialize (Y M i I). rewrite N in Y. exact Y.
    + intros M c HC I. apply (X c HC I). exact M.
Qed.
Lemma fresh_good : forall t, sensible t -> verdict t fresh = Good.
Proof. intros t H. apply verdict_good. unfold sensible in H. cbn [fresh s_maxVolume s_minVolume s_skewness s_boundary s_change s_validity]. tauto. Qed.
Lemma executions_good : forall t gs s, (forall g, In g gs -> well_formed g /\ regular g) -> t_change t <= 1 -> (verdict t (executions t gs s) = Good <-> verdict t s = Good /\ forall g, In g gs -> acceptable t g).
Proof.
  intros t gs. unfold executions, execute. cbn [snd]. induction gs as [|g gs IH]; intros s W T; cbn [fold_left]; [split; [intro; split; [assumption|intros g []]|tauto]|].
  rewrite IH by (auto; intros; apply W; right; assumption). destruct (W g (or_introl eq_refl)) as (W1 & W2). rewrite (measure_good t g s W1 W2 T). split.
  - intros ((A & B) & C). split; [exact A|]. intros h [<- |H]; auto.
  - intros (A & B). split; [split; [exact A|apply B; left; reflexivity]|]. intros h H. apply B. right. exact H.
Qed.
(** ** Again *)
Lemma fold_min_again : forall (A : Type) (f : A -> R) l x, let m := fold_left (fun m c => Rmin m (f c)) l x in fold_left (fun m c => Rmin m (f c)) l m = m.
Proof. intros A f l x m. apply Rle_antisym; [exact (proj1 (proj1 (fold_min A f l m _) (Rle_refl _)))|]. apply fold_min. split; [apply Rle_refl|]. exact (proj2 (proj1 (fold_min A f l x m) (Rle_refl _))). Qed.
Lemma fold_max_again : forall (A : Type) (f : A -> R) l x, let m := fold_left (fun m c => Rmax m (f c)) l x in fold_left (fun m c => Rmax m (f c)) l m = m.
Proof. intros A f l x m. apply Rle_antisym; [|exact (proj1 (proj1 (fold_max A f l m _) (Rle_refl _)))]. apply fold_max. split; [apply Rle_refl|]. exact (proj2 (proj1 (fold_max A f l x m) (Rle_refl _))). Qed.
Lemma fold_least_again : forall (A : Type) (f : A -> option R) l x, let m := fold_left (fun m c => least m (f c)) l x in fold_left (fun m c => least m (f c)) l m = m.
Proof. intros A f l x m. apply Rle_antisym; [exact (proj1 (proj1 (fold_least A f l m _) (Rle_refl _)))|]. apply fold_least. split; [apply Rle_refl|]. exact (proj2 (proj1 (fold_least A f l x m) (Rle_refl _))). Qed.
Lemma fold_greatest_again : forall (A : Type) (f : A -> option R) l x, let m := fold_left (fun m c => greatest m (f c)) l x in fold_left (fun m c => greatest m (f c)) l m = m.
Proof. intros A f l x m. apply Rle_antisym; [|exact (proj1 (proj1 (fold_greatest A f l m _) (Rle_refl _)))]. apply fold_greatest. split; [apply Rle_refl|]. exact (proj2 (proj1 (fold_greatest A f l x m) (Rle_refl _))). Qed.
Lemma measure_again : forall g s, measure g (measure g s) = measure g s.
Proof.
  intros g s. unfold measure, checkFaceValidity, checkSkewness, checkVolume. destruct (m_solid g); cbn [s_minVolume s_maxVolume s_skewness s_boundary s_change s_validity];
    rewrite ?fold_min_again, ?fold_max_again, ?fold_least_again, ?fold_greatest_again; reflexivity.
Qed.
(** ** Several processes *)
Lemma reduce_min : forall l t, l <> [] -> (t <= reduce Rmin l <-> forall x, In x l -> t <= x).
Proof.
  intros [|x l] t N; [contradiction|]. cbn [reduce]. rewrite (fold_min R (fun y => y) l x t). split; [intros [A B] y [<- |Y]; auto|]. intro H. split; [apply H; left; reflexivity|]. intros y Y. apply H. right. exact Y.
Qed.
Lemma reduce_max : forall l t, l <> [] -> (reduce Rmax l <= t <-> forall x, In x l -> x <= t).
Proof.
  intros [|x l] t N; [contradiction|]. cbn [reduce]. rewrite (fold_max R (fun y => y) l x t). split; [intros [A B] y [<- |Y]; auto|]. intro H. split; [apply H; left; reflexivity|]. intros y Y. apply H. right. exact Y.
Qed.
Lemma all_map : forall (f : state -> R) l (P : R -> Prop), (forall x, In x (map f l) -> P x) <-> forall q, In q l -> P (f q).
Proof. intros f l P. split; [intros H q Q; apply H, in_map, Q|]. intros H x X. apply in_map_iff in X. destruct X as (q & <- & Q). auto. Qed.
Lemma reduce_good : forall t solid l s, In s l -> (forall q, In q l -> s_skewness q <= t_skewness t /\ s_boundary q <= t_boundary t /\ t_validity t <= s_validity q) \/ solid = true ->
  (verdict t (reduce_state solid l s) = Good <-> forall q, In q l -> verdict t q = Good).
Proof.
  intros t solid l s I H. assert (N : forall f : state -> R, map f l <> []) by (intro f; destruct l; [destruct I|discriminate]).
  rewrite verdict_good. unfold reduce_state. cbn [s_minVolume s_maxVolume s_skewness s_boundary s_change s_validity]. setoid_rewrite verdict_good.
  destruct solid.
  - rewrite !reduce_max, !reduce_min, !all_map by apply N. split; [intros (A & B & C & D & E & F) q Q; repeat split; auto|]. intro K. repeat split; intros q Q; apply K; exact Q.
  - destruct H as [H|H]; [|discriminate]. rewrite !reduce_max, !reduce_min, !all_map by apply N. split.
    + intros (A & B & C & D & E & F) q Q. destruct (H q Q) as (? & ? & ?). repeat split; auto.
    + intro K. destruct (H s I) as (? & ? & ?). repeat split; auto; intros q Q; apply K; exact Q.
Qed.
(** ** Whatever the mesh, an indicator that is out of the tolerances stays so *)
Lemma measure_keeps : forall t g s, verdict t (measure g s) = Good -> verdict t s = Good.
Proof.
  intros t g s. rewrite !verdict_good. intros (A & B & C & D & E & F). unfold measure, checkFaceValidity, checkSkewness, checkVolume in *.
  destruct (m_solid g); cbn [s_minVolume s_maxVolume s_skewness s_boundary s_change s_validity] in *;
    apply fold_max in A; apply fold_min in B; apply fold_min in E; try (apply fold_greatest in C; apply fold_greatest in D; apply fold_least in F); tauto.
Qed.
(** ** The cells in the lists *)
Lemma push_in : forall g acc n x, In x (push g acc n) <-> In x acc \/ (x = n /\ c_interior (cell_of g n) = true).
Proof.
  intros g acc n x. unfold push. destruct (c_interior (cell_of g n)) eqn:I; cbn [andb]; [|split; [auto|intros [?|[_ ?]]; [assumption|discriminate]]].
  destruct (existsb (Nat.eqb n) acc) eqn:E; cbn [negb].
  - split; [auto|]. intros [H|[-> _]]; [exact H|]. apply existsb_exists in E. destruct E as (y & Y & Q). apply Nat.eqb_eq in Q. subst y. exact Y.
  - rewrite in_app_iff. cbn. intuition.
Qed.
Lemma push_nodup : forall g acc n, NoDup acc -> NoDup (push g acc n).
Proof.
  intros g acc n N. unfold push. destruct (c_interior (cell_of g n)); cbn [andb]; [|exact N]. destruct (existsb (Nat.eqb n) acc) eqn:E; cbn [negb]; [exact N|].
  assert (X : ~ In n acc). { intro I. assert (T : existsb (Nat.eqb n) acc = true) by (apply existsb_exists; exists n; split; [exact I|apply Nat.eqb_refl]). congruence. }
  clear E. induction acc as [|a acc IH]; cbn; [repeat constructor; intros []|]. inversion N; subst. constructor; [rewrite in_app_iff; cbn; cbn in X; intuition|]. apply IH; [assumption|]. cbn in X. tauto.
Qed.
Lemma skew_fold : forall g l acc x, (forall i, In i l -> exists n, i_neigh i = Some n) ->
  (In x (fold_left (fun acc i => let a := push g acc (i_owner i) in match i_neigh i with Some n => push g a n | None => a end) l acc) <->
   In x acc \/ exists i, In i l /\ (x = i_owner i \/ i_neigh i = Some x) /\ c_interior (cell_of g x) = true).
Proof.
  intros g l. induction l as [|i l IH]; intros acc x N; cbn [fold_left]; [split; [auto|intros [?|(i & [] & _)]; assumption]|].
  rewrite IH by (intros; apply N; right; assumption). destruct (N i (or_introl eq_refl)) as (n & NE). cbn zeta. rewrite NE, !push_in. split.
  - intros [[[A|[-> A]]|[-> A]]|(j & J & A)]; [auto|right; exists i; cbn; auto|right; exists i; cbn; auto|right; exists j; cbn; auto].
  - intros [A|(j & [<- |J] & [-> |A] & B)]; [auto|left; left; right; auto|rewrite NE in A; injection A as ->; left; right; auto|right; exists j; auto|right; exists j; auto].
Qed.
Lemma skew_nodup : forall g l acc, NoDup acc -> NoDup (fold_left (fun acc i => let a := push g acc (i_owner i) in match i_neigh i with Some n => push g a n | None => a end) l acc).
Proof.
  intros g l. induction l as [|i l IH]; intros acc N; cbn [fold_left]; [exact N|]. apply IH. cbn zeta. destruct (i_neigh i); repeat apply push_nodup; exact N.
Qed.
