(** C105: clouds of points mirrored across a plane. *)
From Coq Require Import Reals List Arith Bool Lra Lia.
From Verif Require Import Vec ManipProofs Specular SpecularSpec SpecularProofs.
Import ListNotations.
Open Scope R_scope.

(** The ways to set the plane n.x + d = 0, up to executing: by its coefficients, the normal having
    length one; by a point and a normal of any length; by the two ports of a new object.  [out] and
    [force] are the last values given to the two options. *)
Inductive set_up : settings -> vec -> R -> bool -> bool -> Prop :=
| by_coefficients : forall s n d, of_length_one n -> set_up (setPlane4 n d s) n d (s_out s) (s_force s)
| by_point : forall s o n, dmin < norm n -> set_up (setPlane o n s) n (- dot o n) (s_out s) (s_force s)
| by_ports : forall o n, dmin < norm n -> set_up (setNormal n (setOrigin o new_specular)) n (- dot o n) false true
| by_ports' : forall o n, dmin < norm n -> set_up (setOrigin o (setNormal n new_specular)) n (- dot o n) false true
| then_out : forall s n d out force b, set_up s n d out force -> set_up (setInsideOut b s) n d b force
| then_force : forall s n d out force b, set_up s n d out force -> set_up (setForce b s) n d out b
| then_execute : forall s n d out force surf ps, set_up s n d out force -> set_up (fst (execute s surf ps)) n d out force.

Lemma execute_settings : forall s surf ps, fst (execute s surf ps) = ready s.
Proof. intros s surf ps. unfold execute. destruct (s_plane (ready s)) as [n d]. destruct (Rlt_dec dmin (norm n)); reflexivity. Qed.
Lemma vscale_1 : forall n, vscale 1 n = n.
Proof. intros [a b c]. unfold vscale. cbn [vx vy vz]. f_equal; ring. Qed.
Lemma set_up_ready : forall s n d out force, set_up s n d out force ->
  exists k, 0 < k /\ s_plane (ready s) = (vscale k n, k * d) /\ of_length_one (vscale k n) /\ s_out (ready s) = out /\ s_force (ready s) = force.
Proof.
  assert (P : forall o n s, dmin < norm n -> let s' := setPlane o n s in exists k, 0 < k /\ s_plane s' = (vscale k n, k * - dot o n) /\ of_length_one (vscale k n) /\ s_out s' = s_out s /\ s_force s' = s_force s).
  { intros o n s H. cbv zeta. unfold setPlane. destruct (Rlt_dec dmin (norm n)) as [_|N]; [|contradiction]. pose proof dmin_pos as D. exists (/ norm n). split; [apply Rinv_0_lt_compat; lra|]. cbn [s_plane s_out s_force].
    split; [f_equal; rewrite dot_scale_r; ring|]. split; [apply scaled_one; lra|split; reflexivity]. }
  intros s n d out force H. induction H as [s n d U|s o n U|o n U|o n U|s n d out force b H IH|s n d out force b H IH|s n d out force surf ps H IH].
  - exists 1. cbn. rewrite vscale_1, Rmult_1_l. repeat split; [lra|exact U].
  - destruct (P o n s U) as [k H]. exists k. exact H.
  - destruct (P o n (setNormal n (setOrigin o new_specular)) U) as [k H]. exists k. exact H.
  - destruct (P o n (setOrigin o (setNormal n new_specular)) U) as [k H]. exists k. exact H.
  - destruct IH as [k [A [B [C [D E]]]]]. exists k. unfold ready in *. cbn [setInsideOut s_implicit s_origin s_normal]. destruct (s_implicit s); cbn in *; repeat split; assumption.
  - destruct IH as [k [A [B [C [D E]]]]]. exists k. unfold ready in *. cbn [setForce s_implicit s_origin s_normal]. destruct (s_implicit s); cbn in *; repeat split; assumption.
  - rewrite execute_settings. assert (E : ready (ready s) = ready s) by (unfold ready; destruct (s_implicit s) eqn:I; [rewrite I; reflexivity|reflexivity]). rewrite E. exact IH.
Qed.
(** what is executed, in terms of a normal of length one *)
Lemma execute_right : forall s n d out force surf ps, set_up s n d out force ->
  exists k, 0 < k /\ k * norm n = 1 /\ of_length_one (vscale k n) /\
    snd (execute s surf ps) = map (moved (used surf)) (mirror_parts (vscale k n) (k * d) (margin_of (used surf)) out force (max_of (map (fun p => next_id (i_verts p)) ps)) (max_of (map (fun p => next_id (i_cells p)) ps)) ps).
Proof.
  intros s n d out force surf ps H. destruct (set_up_ready s n d out force H) as [k [A [B [C [D E]]]]]. exists k. split; [exact A|].
  pose proof (one_norm _ C) as N1. pose proof dmin_small as Ds. pose proof (norm_sq (vscale k n)) as Q. rewrite N1 in Q. rewrite dot_scale_l, dot_scale_r, <- norm_sq in Q. pose proof (norm_nonneg n) as Nn.
  split; [assert (0 <= k * norm n) by (apply Rmult_le_pos; lra); nra|]. split; [exact C|].
  unfold execute. rewrite B. destruct (Rlt_dec dmin (norm (vscale k n))) as [_|X]; [|rewrite N1 in X; lra]. cbn [snd]. rewrite N1, Rinv_1, vscale_1, D, E. reflexivity.
Qed.
Lemma taken_iff : forall k n d margin (out force : bool) x, 0 < k -> k * norm n = 1 ->
  taken (vscale k n) (k * d) margin out force x = true <-> (force = true \/ margin * norm n < if out then - height n d x else height n d x).
Proof.
  intros k n d margin out force x K N. unfold taken, distance. rewrite orb_true_iff.
  assert (E : sig out * (dot (vscale k n) x + k * d) = k * (if out then - height n d x else height n d x)).
  { unfold sig, height, dot. cbn [vscale vx vy vz]. destruct out; ring. }
  rewrite E. set (h := if out then - height n d x else height n d x). destruct (Rlt_dec margin (k * h)) as [L|L].
  - split; intros _; [|right; reflexivity]. right. apply (Rmult_lt_reg_l k); [exact K|]. replace (k * (margin * norm n)) with (margin * (k * norm n)) by ring. rewrite N. lra.
  - split; [intros [H|H]; [left; exact H|discriminate]|]. intros [H|H]; [left; exact H|]. exfalso. apply L. apply (Rmult_lt_compat_l k) in H; [|exact K]. replace (k * (margin * norm n)) with (margin * (k * norm n)) in H by ring. rewrite N in H. lra.
Qed.

(** What one process gets: [p] what it gave, [g] what it has, [place] where a point is put.  The points
    of [p] are there, first, with their ids and values; then the images of those to be mirrored, in order,
    each with a cell, the scalar value of the point and the image of its vector value. *)
Definition mirrored_part (n : vec) (d : R) (which : vec -> Prop) (place : vec -> vec) (p : input) (g : cloud) : Prop :=
  exists src new newc,
    chosen (fun e => which (snd e)) (i_verts p) src /\
    verts g = map (fun e => (fst e, place (snd e))) (i_verts p ++ new) /\
    cells g = i_cells p ++ newc /\ map snd newc = map fst new /\
    map fst (scalars g) = map fst (verts g) /\ map fst (vectors g) = map fst (verts g) /\
    (forall e, In e (i_verts p) -> (forall x, value_given 0 (i_scalar p) (fst e) x -> In (fst e, x) (scalars g)) /\
                                   (forall w, value_given vzero (i_vector p) (fst e) w -> In (fst e, w) (vectors g))) /\
    Forall2 (fun e a => mirrored n d (snd e) (snd a) /\
        (forall x, value_given 0 (i_scalar p) (fst e) x -> In (fst a, x) (scalars g)) /\
        (forall w, value_given vzero (i_vector p) (fst e) w -> exists w', In (fst a, w') (vectors g) /\ mirrored_vector n w w')) src new.

Lemma moved_fields : forall s g, cells (moved s g) = cells g /\ scalars (moved s g) = scalars g /\ vectors (moved s g) = vectors g /\
  verts (moved s g) = map (fun e => (fst e, match s with Some f => project f (snd e) | None => snd e end)) (verts g).
Proof.
  intros [s|] g; cbn [moved cells scalars vectors verts]; repeat split. induction (verts g) as [|[i x] r IH]; [reflexivity|]. cbn [map fst snd]. rewrite <- IH. reflexivity.
Qed.
Lemma combine_map_in : forall A B (f : A -> B) (l : list A) v e a, In (a, e) (combine (seq v (length l)) l) -> In (a, f e) (combine (seq v (length l)) (map f l)).
Proof.
  intros A B f. induction l as [|x l IH]; intros v e a H; [destruct H|]. cbn [length seq combine map] in *. destruct H as [H|H]; [left; congruence|right; apply IH; exact H].
Qed.
Lemma part_mirrored : forall n d k margin (out force : bool) surf v c p, 0 < k -> k * norm n = 1 -> of_length_one (vscale k n) -> fields_ok p ->
  mirrored_part n d (fun x => force = true \/ margin * norm n < if out then - height n d x else height n d x) (fun x => match surf with Some f => project f x | None => x end) p
    (moved surf (mirror_part (vscale k n) (k * d) margin out force v c p)).
Proof.
  intros n d k margin out force surf v c p K N U [F1 F2].
  pose proof (part_right (vscale k n) (k * d) margin out force v c p) as P. cbv zeta in P. destruct P as [P1 [P2 [P3 P4]]].
  set (tk := fun e : nat * vec => taken (vscale k n) (k * d) margin out force (snd e)) in *. set (src := filter tk (i_verts p)) in *. set (m := length src) in *.
  set (g := mirror_part (vscale k n) (k * d) margin out force v c p) in *. destruct (moved_fields surf g) as [M1 [M2 [M3 M4]]].
  exists src, (combine (seq v m) (map (fun e => img (vscale k n) (k * d) out (snd e)) src)), (combine (seq c m) (seq v m)).
  split; [apply filter_chosen; intros e; apply taken_iff; assumption|]. split; [rewrite M4, P1; reflexivity|]. split; [rewrite M1; exact P2|].
  assert (L1 : map fst (combine (seq v m) (map (fun e => img (vscale k n) (k * d) out (snd e)) src)) = seq v m) by (apply combine_fst; rewrite map_length, seq_length; reflexivity).
  split; [rewrite L1; apply combine_snd; rewrite !seq_length; reflexivity|].
  assert (I : map fst (verts (moved surf g)) = map fst (i_verts p) ++ seq v m).
  { rewrite M4, P1, map_map. cbn [fst]. rewrite map_app. f_equal. exact L1. }
  split; [rewrite I, M2, P3, map_app, field_on_ids; f_equal; apply combine_fst; rewrite map_length, seq_length; reflexivity|].
  split; [rewrite I, M3, P4, map_app, field_on_ids; f_equal; apply combine_fst; rewrite map_length, seq_length; reflexivity|].
  split.
  { intros e He. rewrite M2, M3, P3, P4. split; intros x Hx; apply in_or_app; left; apply field_on_at; try assumption; apply in_map; exact He. }
  rewrite M2, M3, P3, P4.
  assert (Sub : forall e, In e src -> In (fst e) (map fst (i_verts p))) by (intros e He; unfold src in He; apply filter_In in He; apply in_map; exact (proj1 He)).
  assert (Gen : forall pre pre', Forall2 (fun e a : nat * vec => mirrored n d (snd e) (snd a) /\
     (forall x, value_given 0 (i_scalar p) (fst e) x -> In (fst a, x) (pre ++ combine (seq v m) (map (fun e => at_id 0 (fst e) (field_on 0 (i_verts p) (i_scalar p))) src))) /\
     (forall w, value_given vzero (i_vector p) (fst e) w -> exists w', In (fst a, w') (pre' ++ combine (seq v m) (map (fun e => vimg (vscale k n) out (at_id vzero (fst e) (field_on vzero (i_verts p) (i_vector p)))) src)) /\ mirrored_vector n w w'))
     src (combine (seq v m) (map (fun e => img (vscale k n) (k * d) out (snd e)) src))); [|apply Gen].
  unfold m. clear P1 P2 P3 P4 M1 M2 M3 M4 L1 I g. clearbody src. clear m. revert v. induction src as [|e r IH]; intros v pre pre'; [constructor|]. cbn [length seq map combine]. constructor.
  - cbn [fst snd]. split; [apply (mirrored_scale n d k); [lra|]; apply image_right; exact U|]. split.
    + intros x Hx. apply in_or_app. right. left. f_equal. apply field_on_at; [exact F1| |exact Hx]. apply Sub. left. reflexivity.
    + intros w Hw. exists (vimg (vscale k n) out w). split.
      * apply in_or_app. right. left. do 2 f_equal. apply field_on_at; [exact F2| |exact Hw]. apply Sub. left. reflexivity.
      * unfold mirrored_vector. apply (mirrored_scale n 0 k); [lra|]. rewrite Rmult_0_r. apply vector_right. exact U.
  - specialize (IH (fun x Hx => Sub x (or_intror Hx)) (S v) (pre ++ [(v, at_id 0 (fst e) (field_on 0 (i_verts p) (i_scalar p)))]) (pre' ++ [(v, vimg (vscale k n) out (at_id vzero (fst e) (field_on vzero (i_verts p) (i_vector p))))])).
    rewrite <- !app_assoc in IH. exact IH.
Qed.
Lemma parts_mirrored : forall s n d out force surf ps, set_up s n d out force -> Forall fields_ok ps ->
  Forall2 (mirrored_part n d (fun x => force = true \/ margin_of (used surf) * norm n < if out then - height n d x else height n d x) (fun x => match used surf with Some f => project f x | None => x end))
    ps (snd (execute s surf ps)).
Proof.
  intros s n d out force surf ps H F. destruct (execute_right s n d out force surf ps H) as [k [K [N [U E]]]]. rewrite E. clear E. generalize (max_of (map (fun p => next_id (i_verts p)) ps)), (max_of (map (fun p => next_id (i_cells p)) ps)).
  induction F as [|p r Fp Fr IH]; intros v c; [constructor|]. cbn [mirror_parts map]. constructor; [apply part_mirrored; assumption|apply IH].
Qed.

(** Without a surface: the points farther than 10^-12 from the plane on the side of the normal (the other
    side if inside out), or all of them if forced, are mirrored, and everything else is kept. *)
Theorem C105_mirror : forall s n d out force ps, set_up s n d out force -> Forall fields_ok ps ->
  Forall2 (mirrored_part n d (fun x => force = true \/ / 10 ^ 12 * norm n < if out then - height n d x else height n d x) (fun x => x)) ps (snd (execute s None ps)).
Proof. intros s n d out force ps H F. exact (parts_mirrored s n d out force None ps H F). Qed.
Print Assumptions C105_mirror.

(** With a surface the points and the images are put where [project] says; a point is mirrored if its
    distance from the plane is more than 1.2 times the root of the mean area of the cells. *)
Theorem C105_surface : forall s n d out force surf ps, set_up s n d out force -> Forall fields_ok ps -> (0 < cell_count surf)%nat -> dmin < area surf ->
  Forall2 (mirrored_part n d (fun x => force = true \/ 12 / 10 * sqrt (area surf / INR (cell_count surf)) * norm n < if out then - height n d x else height n d x) (project surf)) ps (snd (execute s (Some surf) ps)).
Proof.
  intros s n d out force surf ps H F C A. pose proof (parts_mirrored s n d out force (Some surf) ps H F) as P. unfold used in P. rewrite (proj2 (Nat.ltb_lt _ _) C) in P. unfold margin_of in P. destruct (Rlt_dec dmin (area surf)) as [_|X]; [exact P|contradiction].
Qed.
Print Assumptions C105_surface.

(** The image of a point is one, the image of the image is the point, distances are kept. *)
Theorem C105_image : forall n d p q p' q', 0 < norm n -> mirrored n d p p' -> mirrored n d q q' ->
  mirrored n d p' p /\ apart2 p' q' = apart2 p q /\ (p = q -> p' = q') /\ (p' = p <-> on_plane n d p).
Proof.
  intros n d p q p' q' N Hp Hq. split; [apply mirrored_sym; exact Hp|]. split; [|split].
  - destruct Hp as [[k K] P], Hq as [[j J] Q]. unfold on_plane, apart2 in *. subst p' q'. cbn [vx vy vz] in *.
    assert (E : (vx n * vx n + vy n * vy n + vz n * vz n) * (k - j) = -2 * (vx n * (vx p - vx q) + vy n * (vy p - vy q) + vz n * (vz p - vz q))) by lra.
    match goal with |- ?L = ?R => replace L with (R + (k - j) * ((vx n * vx n + vy n * vy n + vz n * vz n) * (k - j) + 2 * (vx n * (vx p - vx q) + vy n * (vy p - vy q) + vz n * (vz p - vz q)))) by ring end. rewrite E. ring.
  - intros ->. exact (mirrored_fun n d q p' q' N Hp Hq).
  - split; [intros ->|intros O; exact (mirrored_fun n d p p' p N Hp (mirrored_self n d p O))]. destruct Hp as [_ P]. unfold on_plane in *. cbn [vx vy vz] in P. rewrite <- P. field.
Qed.
Print Assumptions C105_image.

(** Each id given is found as many times as it was; a new id is found once, on one process only. *)
Theorem C105_labels : forall s n d out force surf ps id, set_up s n d out force ->
  let vids := flat_map (fun g => map fst (verts g)) (snd (execute s surf ps)) in let old := flat_map (fun p => map fst (i_verts p)) ps in
  let cids := flat_map (fun g => map fst (cells g)) (snd (execute s surf ps)) in let oldc := flat_map (fun p => map fst (i_cells p)) ps in
  (In id old -> count_occ Nat.eq_dec vids id = count_occ Nat.eq_dec old id) /\ (~ In id old -> count_occ Nat.eq_dec vids id <= 1)%nat /\
  (In id oldc -> count_occ Nat.eq_dec cids id = count_occ Nat.eq_dec oldc id) /\ (~ In id oldc -> count_occ Nat.eq_dec cids id <= 1)%nat.
Proof.
  intros s n d out force surf ps id H. destruct (execute_right s n d out force surf ps H) as [k [_ [_ [_ E]]]]. cbv zeta. rewrite E. clear E.
  set (v := max_of (map (fun p => next_id (i_verts p)) ps)). set (c := max_of (map (fun p => next_id (i_cells p)) ps)).
  assert (Mv : forall l, flat_map (fun g => map fst (verts g)) (map (moved (used surf)) l) = flat_map (fun g => map fst (verts g)) l).
  { intros l. rewrite !flat_map_concat_map, map_map. f_equal. apply map_ext. intros g. rewrite (proj2 (proj2 (proj2 (moved_fields (used surf) g)))), map_map. apply map_ext. reflexivity. }
  assert (Mc : forall l, flat_map (fun g => map fst (cells g)) (map (moved (used surf)) l) = flat_map (fun g => map fst (cells g)) l).
  { intros l. rewrite !flat_map_concat_map, map_map. f_equal. apply map_ext. intros g. rewrite (proj1 (moved_fields (used surf) g)). reflexivity. }
  rewrite Mv, Mc. destruct (labels_right (vscale k n) (k * d) (margin_of (used surf)) out force ps v c) as [nv [nc L]]. cbv zeta in L. destruct L as [L1 [L2 [L3 [L4 [L5 L6]]]]]. rewrite L1, L2.
  pose proof (old_below _ i_verts ps id) as Bv. pose proof (old_below _ i_cells ps id) as Bc.
  repeat split; intros I.
  - rewrite (proj1 (count_occ_not_In Nat.eq_dec nv id)); [lia|]. intros J. apply L5 in J. apply Bv in I. unfold v in J. lia.
  - rewrite (proj1 (count_occ_not_In Nat.eq_dec _ id) I). pose proof (proj1 (NoDup_count_occ Nat.eq_dec nv) L3 id). lia.
  - rewrite (proj1 (count_occ_not_In Nat.eq_dec nc id)); [lia|]. intros J. apply L6 in J. apply Bc in I. unfold c in J. lia.
  - rewrite (proj1 (count_occ_not_In Nat.eq_dec _ id) I). pose proof (proj1 (NoDup_count_occ Nat.eq_dec nc) L4 id). lia.
Qed.
Print Assumptions C105_labels.

(** A cloud whose points are all to be mirrored or on the plane becomes symmetric: the image of each point
    is a point of the result. *)
Theorem C105_symmetric : forall s n d out force ps, set_up s n d out force -> Forall fields_ok ps ->
  (forall p e, In p ps -> In e (i_verts p) -> on_plane n d (snd e) \/ force = true \/ / 10 ^ 12 * norm n < if out then - height n d (snd e) else height n d (snd e)) ->
  let all := flat_map verts (snd (execute s None ps)) in
  forall e, In e all -> exists e', In e' all /\ mirrored n d (snd e) (snd e').
Proof.
  intros s n d out force ps H F A. cbv zeta. pose proof (C105_mirror s n d out force ps H F) as M. revert A M. generalize (snd (execute s None ps)). clear H. induction F as [|p r Fp Fr IH]; intros gs A M.
  - inversion M. intros e [].
  - inversion M as [|p' g r' gs' Hp Hr]. subst. cbn [flat_map]. intros e He. apply in_app_or in He. destruct He as [He|He].
    2: { destruct (IH gs' (fun q x Hq => A q x (or_intror Hq)) Hr e He) as [e' [I Q]]. exists e'. split; [apply in_or_app; right; exact I|exact Q]. }
    enough (X : exists e', In e' (verts g) /\ mirrored n d (snd e) (snd e')) by (destruct X as [e' [I Q]]; exists e'; split; [apply in_or_app; left; exact I|exact Q]).
    destruct Hp as [src [new [nc [C [V [_ [_ [_ [_ [_ Fa]]]]]]]]]].
    assert (V' : verts g = i_verts p ++ new). { rewrite V. rewrite <- (map_id (i_verts p ++ new)) at 2. apply map_ext. intros [i x]. reflexivity. } rewrite V' in *. clear V V'.
    apply in_app_or in He. destruct He as [He|He].
    + destruct (A p e (or_introl eq_refl) He) as [O|W]; [exists e; split; [apply in_or_app; left; exact He|apply mirrored_self; exact O]|].
      assert (Is : In e src).
      { clear -C He W. induction C as [|x l l' Px C IHc|x l l' Px C IHc]; [destruct He| |]; destruct He as [He|He]; [left; exact He|right; apply IHc; exact He|subst x; contradiction|apply IHc; exact He]. }
      clear -Fa Is. induction Fa as [|x a l l' Hx Fa IHf]; [destruct Is|]. destruct Is as [Is|Is].
      * subst x. exists a. split; [apply in_or_app; right; left; reflexivity|exact (proj1 Hx)].
      * destruct (IHf Is) as [e' [I Q]]. exists e'. split; [|exact Q]. apply in_app_or in I. apply in_or_app. destruct I as [I|I]; [left; exact I|right; right; exact I].
    + assert (Sx : forall x, In x src -> In x (i_verts p)).
      { clear -C. induction C as [|x l l' Px C IHc|x l l' Px C IHc]; intros y Hy; [destruct Hy| |right; apply IHc; exact Hy]. destruct Hy as [Hy|Hy]; [left; exact Hy|right; apply IHc; exact Hy]. }
      enough (X : exists x, In x src /\ mirrored n d (snd x) (snd e)).
      { destruct X as [x [I Q]]. exists x. split; [apply in_or_app; left; apply Sx; exact I|apply mirrored_sym; exact Q]. }
      clear -Fa He. induction Fa as [|x a l l' Hx Fa IHf]; [destruct He|]. destruct He as [He|He]; [subst a; exists x; split; [left; reflexivity|exact (proj1 Hx)]|]. destruct (IHf He) as [y [I Q]]. exists y. split; [right; exact I|exact Q].
Qed.
Print Assumptions C105_symmetric.

Lemma chosen_all : forall A (P : A -> Prop) l l', chosen P l l' -> (forall x, P x) -> l' = l.
Proof. intros A P l l' C H. induction C as [|x l l' Px C IH|x l l' Px C IH]; [reflexivity|f_equal; exact IH|exfalso; apply Px; apply H]. Qed.
Lemma here : forall (l : list (nat * vec)), map (fun e => (fst e, snd e)) l = l.
Proof. intros l. rewrite <- (map_id l) at 2. apply map_ext. intros [i x]. reflexivity. Qed.

(** Forcing is there for the points on the plane, but when it is set, and it is unless switched off, every
    point is mirrored, on whatever side it is and whatever side was asked for: the choice of the side has
    no effect. *)
Theorem C105_force_refuted : forall s n d out ps, set_up s n d out true -> Forall fields_ok ps ->
  Forall2 (fun p g => exists new, verts g = i_verts p ++ new /\ Forall2 (fun e a => mirrored n d (snd e) (snd a)) (i_verts p) new) ps (snd (execute s None ps)).
Proof.
  intros s n d out ps H F. pose proof (C105_mirror s n d out true ps H F) as M. induction M as [|p g r gs Hp Hr IH]; constructor; [|apply IH; apply (Forall_inv_tail F)].
  destruct Hp as [src [new [nc [C [V [_ [_ [_ [_ [_ Fa]]]]]]]]]]. exists new. rewrite here in V. split; [exact V|].
  rewrite (chosen_all _ _ _ _ C) in Fa by (intros x; left; reflexivity). clear -Fa. induction Fa as [|x a l l' Hx Fa IH]; constructor; [exact (proj1 Hx)|exact IH].
Qed.
Print Assumptions C105_force_refuted.

(** Coefficients with a normal not of length one: the normal is divided by its length and the constant is
    not, so (unless the constant is zero) no point is mirrored where it should. *)
Theorem C105_coefficients_refuted : forall s n d ps, dmin < norm n -> norm n <> 1 -> d <> 0 -> Forall fields_ok ps ->
  Forall2 (fun p g => exists new, verts g = i_verts p ++ new /\ Forall2 (fun e a => ~ mirrored n d (snd e) (snd a)) (i_verts p) new) ps
    (snd (execute (setForce true (setPlane4 n d s)) None ps)).
Proof.
  intros s n d ps N N1 D F. pose proof dmin_pos as Dp. set (u := vscale (/ norm n) n). assert (U : of_length_one u) by (apply scaled_one; lra). pose proof (one_norm u U) as Nu. pose proof dmin_small as Ds.
  assert (E : snd (execute (setForce true (setPlane4 n d s)) None ps) = snd (execute (setForce true (setPlane4 u d s)) None ps)).
  { unfold execute, ready. cbn [setForce setPlane4 s_implicit s_plane s_out s_force]. destruct (Rlt_dec dmin (norm n)) as [_|X]; [|contradiction]. destruct (Rlt_dec dmin (norm u)) as [_|X]; [|rewrite Nu in X; lra]. rewrite Nu, Rinv_1, vscale_1. reflexivity. }
  rewrite E. pose proof (C105_force_refuted _ u d _ ps (then_force _ _ _ _ _ true (by_coefficients s u d U)) F) as M. clear E F.
  induction M as [|p g r gs Hp Hr IH]; constructor; [|exact IH]. destruct Hp as [new [V Fa]]. exists new. split; [exact V|]. clear -Fa N N1 D Dp. induction Fa as [|x a l l' Hx Fa IH]; constructor; [|exact IH].
  intros Hy. apply (mirrored_scale n d (/ norm n)) in Hy; [|apply Rinv_neq_0_compat; lra]. fold u in Hy. destruct Hx as [_ Hx], Hy as [_ Hy]. unfold on_plane in Hx, Hy.
  assert (Q : d = / norm n * d) by lra. apply N1. apply (Rmult_eq_reg_r d); [|exact D]. rewrite Q at 1. field. lra.
Qed.
Print Assumptions C105_coefficients_refuted.

Lemma ready_id : forall s, s_implicit s = true -> ready s = s.
Proof. intros s I. unfold ready. rewrite I. reflexivity. Qed.
(** Once executed, the object ignores the point and the normal given through its ports. *)
Theorem C105_ports_refuted : forall s surf ps o n surf' ps',
  let s' := fst (execute s surf ps) in snd (execute (setNormal n (setOrigin o s')) surf' ps') = snd (execute s' surf' ps').
Proof.
  intros s surf ps o n surf' ps'. cbv zeta. rewrite execute_settings. assert (I : s_implicit (ready s) = true) by (unfold ready; destruct (s_implicit s) eqn:I; [exact I|reflexivity]).
  generalize dependent (ready s). intros t I. unfold execute. rewrite (ready_id t I), (ready_id (setNormal n (setOrigin o t)) I). cbn [setNormal setOrigin s_plane s_out s_force]. destruct (s_plane t) as [m d]. destruct (Rlt_dec dmin (norm m)); reflexivity.
Qed.
Print Assumptions C105_ports_refuted.

(** And if it is cleared in between, nothing is mirrored any more. *)
Theorem C105_clear_refuted : forall s surf ps o n surf' ps',
  Forall2 (fun p g => verts g = i_verts p) ps' (snd (execute (setNormal n (setOrigin o (clear (fst (execute s surf ps))))) surf' ps')).
Proof.
  intros s surf ps o n surf' ps'. rewrite execute_settings. assert (I : s_implicit (ready s) = true) by (unfold ready; destruct (s_implicit s) eqn:I; [exact I|reflexivity]).
  generalize dependent (ready s). intros t I. unfold execute. rewrite (ready_id (setNormal n (setOrigin o (clear t))) I). cbn [setNormal setOrigin clear s_plane].
  destruct (Rlt_dec dmin (norm vzero)) as [X|_].
  - exfalso. unfold norm, dot, vzero in X. cbn [vx vy vz] in X. replace (0 * 0 + 0 * 0 + 0 * 0) with 0 in X by ring. rewrite sqrt_0 in X. pose proof dmin_pos. lra.
  - cbn [snd]. induction ps' as [|p r IH]; constructor; [reflexivity|exact IH].
Qed.
Print Assumptions C105_clear_refuted.

(** Without a plane the points are kept, but every value given on them is lost. *)
Theorem C105_no_plane_refuted : forall surf ps,
  Forall2 (fun p g => verts g = i_verts p /\ (forall id x, In (id, x) (scalars g) -> x = 0) /\ (forall id w, In (id, w) (vectors g) -> w = V3 0 0 0)) ps (snd (execute new_specular surf ps)).
Proof.
  intros surf ps. unfold execute, ready. cbn [new_specular s_implicit s_origin s_normal]. unfold setPlane. cbn [s_plane].
  assert (Z : norm vzero = 0). { unfold norm, dot, vzero. cbn [vx vy vz]. replace (0 * 0 + 0 * 0 + 0 * 0) with 0 by ring. apply sqrt_0. } pose proof dmin_pos as D.
  destruct (Rlt_dec dmin (norm vzero)) as [X|_]; [lra|]. destruct (Rlt_dec dmin (norm vzero)) as [X|_]; [lra|]. cbn [snd].
  induction ps as [|p r IH]; constructor; [|exact IH]. cbn [verts scalars vectors]. split; [reflexivity|]. unfold field_on. split; intros id x H; apply in_map_iff in H; destruct H as [e [E _]]; injection E as _ <-; reflexivity.
Qed.
Print Assumptions C105_no_plane_refuted.

(** Two processes, the plane x = 1: a point is mirrored, one on the plane and one behind are not. *)
Example C105_nonvacuous :
  let ps := [Input [(4%nat, V3 3 5 0); (2%nat, V3 1 0 0)] [(0%nat, 4%nat); (1%nat, 2%nat)] (Some [(4%nat, 7)]) None; Input [(9%nat, V3 0 0 0)] [(2%nat, 9%nat)] None None] in
  let s := setForce false (setPlane (V3 1 0 0) (V3 2 0 0) new_specular) in
  set_up s (V3 2 0 0) (-2) false false /\ Forall fields_ok ps /\
  exists g h id, snd (execute s None ps) = [g; h] /\ In (id, V3 (-1) 5 0) (verts g) /\ In (id, 7) (scalars g) /\ id <> 4%nat /\ id <> 2%nat /\ id <> 9%nat /\ length (verts g) = 3%nat /\ verts h = [(9%nat, V3 0 0 0)].
Proof.
  cbv zeta. set (ps := [_; _]). set (s := setForce _ _). assert (N : norm (V3 2 0 0) = 2).
  { unfold norm, dot. cbn [vx vy vz]. replace (2 * 2 + 0 * 0 + 0 * 0) with (2 * 2) by ring. apply sqrt_square. lra. }
  pose proof dmin_small as Ds. assert (Up : set_up s (V3 2 0 0) (-2) false false).
  { replace (-2) with (- dot (V3 1 0 0) (V3 2 0 0)) by (unfold dot; cbn [vx vy vz]; ring). apply (then_force _ _ _ _ true). apply (by_point new_specular). rewrite N. lra. }
  assert (F : Forall fields_ok ps). { repeat constructor; cbn; intros []. }
  split; [exact Up|]. split; [exact F|]. pose proof (C105_mirror _ _ _ _ _ ps Up F) as M. pose proof (fun id => C105_labels _ _ _ _ _ None ps id Up) as L. cbv zeta in L. rewrite N in M.
  unfold ps in M. inversion M as [|a1 g b1 gs Hg Hr E1 E2]. subst. inversion Hr as [|a2 h b2 hs Hh Hs E3 E4]. subst. inversion Hs. subst hs. clear Hr Hs M.
  exists g, h. destruct Hg as [src [new [nc [C [V [_ [_ [_ [_ [Vo Fa]]]]]]]]]]. destruct Hh as [src' [new' [nc' [C' [V' [_ [_ [_ [_ [_ Fa']]]]]]]]]]. cbn [i_verts i_scalar i_vector] in *. rewrite here in V, V'.
  assert (T : / 10 ^ 12 * 2 < 1) by (apply (Rmult_lt_reg_l (10 ^ 12)); [lra|]; rewrite <- Rmult_assoc, Rinv_r; lra).
  assert (Es : src = [(4%nat, V3 3 5 0)]).
  { inversion C as [|x l l' Px Cx|x l l' Px Cx]; subst.
    - f_equal. inversion Cx as [|y m m' Py Cy|y m m' Py Cy]; subst; [|inversion Cy; reflexivity]. exfalso. destruct Py as [Py|Py]; [discriminate|]. unfold height in Py. cbn [snd vx vy vz] in Py. assert (0 < / 10 ^ 12) by (apply Rinv_0_lt_compat; lra). lra.
    - exfalso. apply Px. right. unfold height. cbn [snd vx vy vz]. lra. }
  assert (Es' : src' = []).
  { inversion C' as [|x l l' Px Cx|x l l' Px Cx]; subst; [|inversion Cx; reflexivity]. exfalso. destruct Px as [Px|Px]; [discriminate|]. unfold height in Px. cbn [snd vx vy vz] in Px. assert (0 < / 10 ^ 12) by (apply Rinv_0_lt_compat; lra). lra. }
  subst src src'. inversion Fa as [|x a l l' Hx Fr]. subst. inversion Fr. subst l'. inversion Fa'. subst new'. clear Fa Fr Fa' C C'. destruct Hx as [Hm [Hs _]]. cbn [fst snd] in *.
  exists (fst a). split; [symmetry; assumption|]. rewrite V, V'.
  assert (Ex : snd a = V3 (-1) 5 0).
  { apply (mirrored_fun (V3 2 0 0) (-2) (V3 3 5 0)); [rewrite N; lra|exact Hm|]. split; [exists (-2); cbn [vx vy vz]; f_equal; lra|unfold on_plane; cbn [vx vy vz]; lra]. }
  split; [right; right; left; rewrite <- Ex; destruct a; reflexivity|]. split; [apply Hs; left; left; reflexivity|].
  assert (Fresh : ~ In (fst a) (flat_map (fun p => map fst (i_verts p)) ps)).
  { intros I. unfold ps in L. rewrite <- E2 in L. destruct (L (fst a)) as [L1 _]. specialize (L1 I). cbn [flat_map] in L1. clear L. rewrite V, V' in L1. cbn [map app fst] in L1. unfold ps in L1, I. cbn [flat_map map app fst i_verts] in L1, I.
    destruct I as [I|[I|[I|[]]]]; rewrite <- I in L1; cbn in L1; discriminate. }
  unfold ps in Fresh. cbn [flat_map map app fst i_verts] in Fresh. repeat split; try reflexivity; intros I; apply Fresh; rewrite I; cbn; auto.
Qed.
