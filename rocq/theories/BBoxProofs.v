(** Proofs about boxes. *)
From Coq Require Import Reals List Arith Bool Lra Lia Psatz Permutation.
From Verif Require Import Vec Shape ShapeSpec ShapeProofs Specular SpecularProofs BBox BBoxSpec.
From Verif Require BBoxIntegral.
Import ListNotations.
Open Scope R_scope.

(* ---------------------------------------------------------- extremes *)
Lemma fold_min_le : forall (f : vec -> R) l a, fold_left (fun m x => Rmin m (f x)) l a <= a.
Proof. intros f. induction l as [|y l IH]; intros a; cbn [fold_left]; [lra|]. eapply Rle_trans; [apply IH|apply Rmin_l]. Qed.
Lemma fold_min_in : forall (f : vec -> R) l a x, In x l -> fold_left (fun m x => Rmin m (f x)) l a <= f x.
Proof.
  intros f. induction l as [|y l IH]; intros a x H; [destruct H|]. cbn [fold_left]. destruct H as [H|H]; [subst y; eapply Rle_trans; [apply fold_min_le|apply Rmin_r]|apply IH; exact H].
Qed.
Lemma fold_min_attained : forall (f : vec -> R) l a, fold_left (fun m x => Rmin m (f x)) l a = a \/ exists x, In x l /\ fold_left (fun m x => Rmin m (f x)) l a = f x.
Proof.
  intros f. induction l as [|y l IH]; intros a; cbn [fold_left]; [left; reflexivity|]. destruct (IH (Rmin a (f y))) as [E|(x & I & E)].
  - rewrite E. unfold Rmin. destruct (Rle_dec a (f y)); [left; reflexivity|right; exists y; split; [left; reflexivity|reflexivity]].
  - right. exists x. split; [right; exact I|exact E].
Qed.
(** the two loops are one loop over all the points *)
Lemma fold_concat : forall A B (f : A -> B -> A) (ll : list (list B)) a, fold_left f (concat ll) a = fold_left (fun a l => fold_left f l a) ll a.
Proof. intros A B f. induction ll as [|l ll IH]; intros a; [reflexivity|]. cbn [concat fold_left]. rewrite fold_left_app. apply IH. Qed.
Lemma fold_map : forall A B C (f : A -> B -> A) (g : C -> B) l a, fold_left f (map g l) a = fold_left (fun a x => f a (g x)) l a.
Proof. intros A B C f g. induction l as [|y l IH]; intros a; [reflexivity|]. cbn [map fold_left]. apply IH. Qed.
Lemma local_min_eq : forall f gs, local_min f gs = fold_left (fun m x => Rmin m (f x)) (concat (map g_points gs)) dmax.
Proof. intros f gs. unfold local_min. rewrite fold_concat, fold_map. reflexivity. Qed.
Lemma fold_min_start : forall (f : vec -> R) l a, fold_left (fun m x => Rmin m (f x)) l a = Rmin a (fold_left (fun m x => Rmin m (f x)) l a).
Proof. intros. symmetry. apply Rmin_right. apply fold_min_le. Qed.
Lemma fold_min_min : forall (f : vec -> R) l a b, fold_left (fun m x => Rmin m (f x)) l (Rmin a b) = Rmin a (fold_left (fun m x => Rmin m (f x)) l b).
Proof. intros f. induction l as [|y l IH]; intros a b; [reflexivity|]. cbn [fold_left]. rewrite <- Rmin_assoc. apply IH. Qed.
Lemma least_eq : forall f w, least f w = fold_left (fun m x => Rmin m (f x)) (all_points w) dmax.
Proof.
  intros f w. unfold least, all_points. rewrite fold_concat, fold_map. generalize (Rle_refl dmax). generalize dmax at 1 3 4. induction w as [|gs w IH]; intros a A; [reflexivity|]. cbn [fold_left].
  rewrite local_min_eq. rewrite <- fold_min_min. rewrite (Rmin_left a dmax) by exact A. apply IH. eapply Rle_trans; [apply fold_min_le|exact A].
Qed.
Lemma Ropp_eq_reg : forall a b, - a = - b -> a = b.
Proof. intros a b H. lra. Qed.
Lemma opp_min : forall a b, - Rmax a b = Rmin (- a) (- b).
Proof. intros a b. unfold Rmax, Rmin. destruct (Rle_dec a b), (Rle_dec (- a) (- b)); lra. Qed.
Lemma fold_opp : forall (f : vec -> R) l a, - fold_left (fun m x => Rmax m (f x)) l a = fold_left (fun m x => Rmin m (- f x)) l (- a).
Proof. intros f. induction l as [|y l IH]; intros a; [reflexivity|]. cbn [fold_left]. rewrite IH, opp_min. reflexivity. Qed.
Lemma greatest_eq : forall f w, greatest f w = fold_left (fun m x => Rmax m (f x)) (all_points w) (-1 * dmax).
Proof.
  intros f w. apply Ropp_eq_reg. rewrite fold_opp. replace (- (-1 * dmax)) with dmax by ring. rewrite <- (least_eq (fun x => - f x)). unfold greatest, least.
  assert (L : forall gs, - local_max f gs = local_min (fun x => - f x) gs).
  { intros gs. unfold local_max, local_min. replace dmax with (- (-1 * dmax)) by ring. replace (-1 * - (-1 * dmax)) with (-1 * dmax) by ring. generalize (-1 * dmax). induction gs as [|g gs IH]; intros a; [reflexivity|]. cbn [fold_left]. rewrite IH, fold_opp. reflexivity. }
  replace dmax with (- (-1 * dmax)) at 2 by ring. generalize (-1 * dmax). induction w as [|gs w IH]; intros a; [reflexivity|]. cbn [fold_left]. rewrite IH, opp_min, L. reflexivity.
Qed.
Lemma point_in : forall w x, is_point w x <-> In x (all_points w).
Proof.
  intros w x. unfold is_point, all_points. rewrite in_concat. split.
  - intros (gs & g & H1 & H2 & H3). exists (concat (map g_points gs)). split; [apply in_map_iff; exists gs; auto|]. apply in_concat. exists (g_points g). split; [apply in_map; exact H2|exact H3].
  - intros (l & H1 & H2). apply in_map_iff in H1. destruct H1 as (gs & <- & H1). apply in_concat in H2. destruct H2 as (l & H2 & H3). apply in_map_iff in H2. destruct H2 as (g & <- & H2). exists gs, g. auto.
Qed.
Lemma least_le : forall f w x, is_point w x -> least f w <= f x.
Proof. intros f w x H. rewrite least_eq. apply fold_min_in. apply point_in. exact H. Qed.
Lemma greatest_ge : forall f w x, is_point w x -> f x <= greatest f w.
Proof. intros f w x H. rewrite greatest_eq. apply Ropp_le_cancel. rewrite fold_opp. apply (fold_min_in (fun x => - f x)). apply point_in. exact H. Qed.
Lemma least_at : forall f w x, is_point w x -> (forall y, is_point w y -> f y <= dmax) -> exists y, is_point w y /\ least f w = f y.
Proof.
  intros f w x H D. rewrite least_eq. destruct (fold_min_attained f (all_points w) dmax) as [E|(y & I & E)]; [|exists y; split; [apply point_in; exact I|exact E]].
  exists x. split; [exact H|]. apply Rle_antisym; [apply fold_min_in; apply point_in; exact H|]. rewrite E. apply D. exact H.
Qed.
Lemma greatest_at : forall f w x, is_point w x -> (forall y, is_point w y -> - dmax <= f y) -> exists y, is_point w y /\ greatest f w = f y.
Proof.
  intros f w x H D. rewrite greatest_eq. destruct (fold_min_attained (fun x => - f x) (all_points w) (- (-1 * dmax))) as [E|(y & I & E)]; rewrite <- fold_opp in E.
  - exists x. split; [exact H|]. apply Rle_antisym; [|rewrite <- greatest_eq; apply greatest_ge; exact H]. apply Ropp_eq_reg in E. rewrite E. specialize (D x H). lra.
  - exists y. split; [apply point_in; exact I|]. apply Ropp_eq_reg in E. exact E.
Qed.

(* ---------------------------------------------------------- the box along axes *)
Lemma place_dots : forall m i o x, (i < 3)%nat -> place m i o x = vent (dots x m) i - vent (dots o m) i.
Proof. intros m i o x Hi. three Hi; unfold place, sum3, dots, ment, vent, dot; cbn [vx vy vz row0 row1 row2]; ring. Qed.
Lemma along_between : forall m w x i, is_point w x -> (i < 3)%nat -> vent (fst (along m w)) i <= vent (dots x m) i <= vent (snd (along m w)) i.
Proof.
  intros m w x i H Hi. three Hi; cbn [along fst snd vent vx vy vz dots].
  - split; [apply (least_le (fun x => dot x (row0 m)))|apply (greatest_ge (fun x => dot x (row0 m)))]; exact H.
  - split; [apply (least_le (fun x => dot x (row1 m)))|apply (greatest_ge (fun x => dot x (row1 m)))]; exact H.
  - split; [apply (least_le (fun x => dot x (row2 m)))|apply (greatest_ge (fun x => dot x (row2 m)))]; exact H.
Qed.
Lemma widen_ge : forall s i, (i < 3)%nat -> vent s i <= vent (widen s) i.
Proof. intros s i Hi. three Hi; cbn [widen vent vx vy vz]; apply Rmax_l. Qed.
Lemma widen_or : forall s i, (i < 3)%nat -> (forall k, (k < 3)%nat -> 0 <= vent s k) -> vent (widen s) i = vent s i \/ vent (widen s) i <= / 10 ^ 4 * (sum3 (vent (widen s)) / 3).
Proof.
  intros s i Hi P. pose proof (widen_ge s 0 ltac:(lia)) as W0. pose proof (widen_ge s 1 ltac:(lia)) as W1. pose proof (widen_ge s 2 ltac:(lia)) as W2.
  set (avg := (vx s + vy s + vz s) / 3). assert (A : avg <= sum3 (vent (widen s)) / 3) by (unfold avg, sum3; cbn [vent] in *; lra).
  assert (B : / 10 ^ 4 * avg <= / 10 ^ 4 * (sum3 (vent (widen s)) / 3)) by (apply Rmult_le_compat_l; [left; apply Rinv_0_lt_compat; apply pow_lt; lra|exact A]).
  assert (C : vent (widen s) i = Rmax (vent s i) (/ 10 ^ 4 * avg)) by (three Hi; reflexivity). rewrite C at 1 2. unfold Rmax. destruct (Rle_dec (vent s i) (/ 10 ^ 4 * avg)); [right; exact B|left; reflexivity].
Qed.
Lemma box_along_eq : forall m w b, box_along m w = Some b -> leibniz m <> 0 /\ b_axes b = m /\ b_span b = widen (vsub (snd (along m w)) (fst (along m w))) /\
  dots (b_origin b) m = vscale (/ 2) (vadd (fst (along m w)) (snd (along m w))).
Proof.
  intros m w b E. unfold box_along in E. destruct (Req_EM_T (det m) 0) as [D|D]; [discriminate|]. rewrite det_leibniz in D. destruct (along m w) as [lo hi] eqn:A. injection E as <-. cbn [b_axes b_span b_origin fst snd].
  repeat split; [exact D|]. apply dots_inverse. exact D.
Qed.
Lemma box_between : forall m w b x, box_along m w = Some b -> is_point w x -> between b x.
Proof.
  intros m w b x E H i Hi. apply box_along_eq in E. destruct E as (D & A & Sp & O). rewrite A, Sp, (place_dots m i _ x Hi), O.
  pose proof (along_between m w x i H Hi) as B. pose proof (widen_ge (vsub (snd (along m w)) (fst (along m w))) i Hi) as W.
  destruct (along m w) as [lo hi]. cbn [fst snd] in *. apply Rabs_le. revert B W. three Hi; unfold vent, vsub, vscale, vadd; cbn [vx vy vz]; lra.
Qed.
Lemma box_touched : forall m w b x, box_along m w = Some b -> is_point w x -> representable m w -> forall i, (i < 3)%nat ->
  touched b w i \/ vent (b_span b) i <= / 10 ^ 4 * (sum3 (vent (b_span b)) / 3).
Proof.
  intros m w b x E H Rp i Hi. apply box_along_eq in E. destruct E as (D & A & Sp & O).
  assert (Hs : forall k, (k < 3)%nat -> 0 <= vent (vsub (snd (along m w)) (fst (along m w))) k).
  { intros k Hk. pose proof (along_between m w x k H Hk) as B. destruct (along m w) as [lo hi]. cbn [fst snd] in *. revert B. three Hk; unfold vent, vsub; cbn [vx vy vz]; lra. }
  rewrite Sp. destruct (widen_or _ i Hi Hs) as [W|W]; [left|right; exact W]. unfold touched. rewrite Sp, A, W.
  assert (Q : forall y k, is_point w y -> (k < 3)%nat -> - dmax <= vent (dots y m) k <= dmax).
  { intros y k Y Hk. specialize (Rp y k Y Hk). fold dmax in Rp. replace (sum3 (fun k0 => vent y k0 * ment m k k0)) with (vent (dots y m) k) in Rp by (three Hk; unfold sum3, dots, dot, ment, vent; cbn; ring).
    unfold Rabs in Rp. destruct (Rcase_abs (vent (dots y m) k)); lra. }
  assert (L : exists y, is_point w y /\ vent (fst (along m w)) i = vent (dots y m) i).
  { three Hi; cbn [along fst vent vx vy vz dots].
    - apply (least_at (fun x => dot x (row0 m)) w x H). intros y Y. apply (Q y 0%nat Y); lia.
    - apply (least_at (fun x => dot x (row1 m)) w x H). intros y Y. apply (Q y 1%nat Y); lia.
    - apply (least_at (fun x => dot x (row2 m)) w x H). intros y Y. apply (Q y 2%nat Y); lia. }
  assert (G : exists y, is_point w y /\ vent (snd (along m w)) i = vent (dots y m) i).
  { three Hi; cbn [along snd vent vx vy vz dots].
    - apply (greatest_at (fun x => dot x (row0 m)) w x H). intros y Y. apply (Q y 0%nat Y); lia.
    - apply (greatest_at (fun x => dot x (row1 m)) w x H). intros y Y. apply (Q y 1%nat Y); lia.
    - apply (greatest_at (fun x => dot x (row2 m)) w x H). intros y Y. apply (Q y 2%nat Y); lia. }
  destruct L as (y & Y & L). destruct G as (z & Z & G). split; [exists z|exists y]; (split; [assumption|]); rewrite (place_dots m i _ _ Hi), O, <- ?L, <- ?G; destruct (along m w) as [lo hi]; cbn [fst snd];
    clear - Hi; three Hi; unfold vent, vsub, vscale, vadd; cbn [vx vy vz]; lra.
Qed.

(* ---------------------------------------------------------- frames *)
Lemma ortho_rows : forall m, orthonormal m <->
  dot (row0 m) (row0 m) = 1 /\ dot (row1 m) (row1 m) = 1 /\ dot (row2 m) (row2 m) = 1 /\ dot (row0 m) (row1 m) = 0 /\ dot (row0 m) (row2 m) = 0 /\ dot (row1 m) (row2 m) = 0.
Proof.
  intros [a b c]. cbn [row0 row1 row2]. destruct (axis_dot_rows a b c) as (E1 & E2 & E3 & E4 & E5 & E6). split.
  - intros O. rewrite <- E1, <- E2, <- E3, <- E4, <- E5, <- E6. repeat split; match goal with |- axis_dot _ ?i ?j = _ => exact (O i j ltac:(lia) ltac:(lia)) end.
  - intros (H1 & H2 & H3 & H4 & H5 & H6) i j Hi Hj.
    assert (C : forall i j, axis_dot (M3 a b c) i j = axis_dot (M3 a b c) j i) by (intros; unfold axis_dot, sum3; ring).
    three Hi; three Hj; unfold delta; cbn [Nat.eqb]; try rewrite (C 1%nat 0%nat); try rewrite (C 2%nat 0%nat); try rewrite (C 2%nat 1%nat); congruence.
Qed.
Lemma gram_one : forall m, orthonormal m -> leibniz m * leibniz m = 1.
Proof. intros m O. rewrite gram. cbv zeta. rewrite !O by lia. unfold delta. cbn. ring. Qed.
Lemma ortho_det : forall m, orthonormal m -> leibniz m = 1 \/ leibniz m = -1.
Proof. intros m O. pose proof (gram_one m O) as G. assert (E : (leibniz m - 1) * (leibniz m + 1) = 0) by (ring_simplify; lra). apply Rmult_integral in E. destruct E; [left|right]; lra. Qed.
(** the columns of a frame are a frame as well *)
Lemma inverse_ortho : forall m, orthonormal m -> forall v, v = V3 (sum3 (fun i => vent (dots v m) i * ment m i 0)) (sum3 (fun i => vent (dots v m) i * ment m i 1)) (sum3 (fun i => vent (dots v m) i * ment m i 2)).
Proof.
  intros m O v. assert (D : leibniz m <> 0) by (destruct (ortho_det m O); lra).
  assert (E : dots v m = dots (V3 (sum3 (fun i => vent (dots v m) i * ment m i 0)) (sum3 (fun i => vent (dots v m) i * ment m i 1)) (sum3 (fun i => vent (dots v m) i * ment m i 2))) m).
  { generalize (dots v m). intros u. apply ortho_rows in O. destruct O as (H1 & H2 & H3 & H4 & H5 & H6). destruct m as [[a0 a1 a2] [b0 b1 b2] [c0 c1 c2]], u as [u0 u1 u2].
    unfold dots, dot, sum3, vent, ment in *. cbn [row0 row1 row2 vx vy vz vent] in *. f_equal.
    - transitivity (u0 * (a0 * a0 + a1 * a1 + a2 * a2) + u1 * (a0 * b0 + a1 * b1 + a2 * b2) + u2 * (a0 * c0 + a1 * c1 + a2 * c2)); [rewrite H1, H4, H5; ring|ring].
    - transitivity (u0 * (a0 * b0 + a1 * b1 + a2 * b2) + u1 * (b0 * b0 + b1 * b1 + b2 * b2) + u2 * (b0 * c0 + b1 * c1 + b2 * c2)); [rewrite H2, H4, H6; ring|ring].
    - transitivity (u0 * (a0 * c0 + a1 * c1 + a2 * c2) + u1 * (b0 * c0 + b1 * c1 + b2 * c2) + u2 * (c0 * c0 + c1 * c1 + c2 * c2)); [rewrite H3, H5, H6; ring|ring]. }
  pose proof (f_equal (fun u => dots u (inverse m)) E) as F. cbv beta in F. rewrite (dots_inverse' v m D), (dots_inverse' _ m D) in F. exact F.
Qed.
Lemma between_in : forall b x, orthonormal (b_axes b) -> between b x -> in_box b x.
Proof.
  intros b x O B. exists (fun i => place (b_axes b) i (b_origin b) x). split; [exact B|]. intros k Hk.
  pose proof (inverse_ortho _ O (vsub x (b_origin b))) as E.
  assert (F : vent x k - vent (b_origin b) k = sum3 (fun i => vent (dots (vsub x (b_origin b)) (b_axes b)) i * ment (b_axes b) i k)).
  { transitivity (vent (vsub x (b_origin b)) k); [three Hk; reflexivity|]. rewrite E at 1. three Hk; reflexivity. }
  apply (Rplus_eq_reg_l (- vent (b_origin b) k)). transitivity (vent x k - vent (b_origin b) k); [ring|]. rewrite F. 
  transitivity (sum3 (fun i => place (b_axes b) i (b_origin b) x * ment (b_axes b) i k)); [|ring]. unfold sum3. rewrite !place_dots by lia.
  unfold dots, vsub, dot, vent. cbn [vx vy vz]. ring.
Qed.

(* ---------------------------------------------------------- the axes of the user *)
Lemma canonical_ortho : orthonormal canonical /\ leibniz canonical = 1.
Proof. split; [apply ortho_rows; unfold canonical, dot; cbn; repeat split; ring|unfold leibniz, canonical, ment, vent; cbn; ring]. Qed.
Lemma cross_frame : forall a b, dot a a = 1 -> dot b b = 1 -> dot a b = 0 -> orthonormal (M3 a b (cross a b)) /\ leibniz (M3 a b (cross a b)) = 1.
Proof.
  intros a b A B C. assert (X : dot (cross a b) (cross a b) = 1).
  { transitivity (dot a a * dot b b - dot a b * dot a b); [unfold dot, cross; cbn [vx vy vz]; ring|]. rewrite A, B, C. ring. }
  split.
  - apply ortho_rows. cbn [row0 row1 row2]. repeat split; try assumption; unfold dot, cross; cbn [vx vy vz]; ring.
  - transitivity (dot (cross a b) (cross a b)); [|exact X]. unfold leibniz, ment, vent, cross, dot. cbn [row0 row1 row2 vx vy vz]. ring.
Qed.
Lemma scaled_dot : forall a, 0 < norm a -> dot (vscale (/ norm a) a) (vscale (/ norm a) a) = 1.
Proof. intros a H. pose proof (scaled_one a H) as E. exact E. Qed.

Lemma norm_scale_pos : forall k v, 0 <= k -> norm (vscale k v) = k * norm v.
Proof.
  intros k v K. unfold norm. replace (dot (vscale k v) (vscale k v)) with (k * k * dot v v) by (unfold dot, vscale; cbn; ring). rewrite sqrt_mult; [|apply Rle_0_sqr|unfold dot; nra]. rewrite sqrt_square by exact K. reflexivity.
Qed.

(* ---------------------------------------------------------- the adjusted basis *)
Lemma right_hand_ortho : forall e, orthonormal e -> orthonormal (right_hand e) /\ leibniz (right_hand e) = 1.
Proof.
  intros e O. assert (L : dot (row2 e) (cross (row0 e) (row1 e)) = leibniz e) by (unfold leibniz, ment, vent, cross, dot; cbn [vx vy vz]; ring).
  unfold right_hand. rewrite L. destruct (Rlt_dec (leibniz e) 0) as [N|N].
  - split.
    + apply ortho_rows in O. destruct O as (H1 & H2 & H3 & H4 & H5 & H6). apply ortho_rows. cbn [row0 row1 row2]. unfold dot, vscale in *. cbn [vx vy vz] in *. repeat split; lra.
    + destruct (ortho_det e O) as [E|E]; [lra|]. transitivity (- leibniz e); [unfold leibniz, ment, vent, vscale; cbn [row0 row1 row2 vx vy vz]; ring|rewrite E; ring].
  - split; [exact O|]. destruct (ortho_det e O) as [E|E]; [exact E|lra].
Qed.
Lemma unit_if_one : forall v, dot v v = 1 -> unit_if v = v.
Proof.
  intros v H. assert (N : norm v = 1) by (unfold norm; rewrite H; apply sqrt_1). unfold unit_if. rewrite N. destruct (Rlt_dec dmin 1); [|reflexivity]. destruct v as [a b c]. unfold vscale. cbn [vx vy vz]. f_equal; field.
Qed.
(** the third vector is the one it replaces, up to the sign *)
Lemma cross_of_frame : forall a b c, orthonormal (M3 a b c) -> cross a b = vscale (leibniz (M3 a b c)) c.
Proof.
  intros a b c O. set (m := M3 a b c). assert (D : leibniz m <> 0) by (destruct (ortho_det m O); lra).
  assert (E : dots (cross a b) m = dots (vscale (leibniz m) c) m).
  { pose proof (ortho_rows m) as [F _]. specialize (F O). destruct F as (H1 & H2 & H3 & H4 & H5 & H6). unfold m in *. cbn [row0 row1 row2] in *.
    unfold dots. cbn [row0 row1 row2]. f_equal.
    - transitivity 0; [unfold dot, cross; cbn [vx vy vz]; ring|]. transitivity (leibniz (M3 a b c) * dot a c); [rewrite H5; ring|unfold dot, vscale; cbn [vx vy vz]; ring].
    - transitivity 0; [unfold dot, cross; cbn [vx vy vz]; ring|]. transitivity (leibniz (M3 a b c) * dot b c); [rewrite H6; ring|unfold dot, vscale; cbn [vx vy vz]; ring].
    - transitivity (leibniz (M3 a b c) * dot c c); [|unfold dot, vscale; cbn [vx vy vz]; ring]. rewrite H3. unfold leibniz, ment, vent, cross, dot. cbn [row0 row1 row2 vx vy vz]. ring. }
  rewrite <- (dots_inverse' (cross a b) m D), E. apply (dots_inverse' _ m D).
Qed.
Definition sign_of (s : R) : Prop := s = 1 \/ s = -1.
Lemma adjust_shape : forall e l, orthonormal e -> (near (vy l) (vx l) && near (vz l) (vy l) && near (vx l) (vz l) = true /\ adjustBasis e l = canonical) \/
  (near (vy l) (vx l) && near (vz l) (vy l) && near (vx l) (vz l) = false /\ orthonormal (adjustBasis e l) /\ leibniz (adjustBasis e l) = 1 /\ exists s t, sign_of s /\ sign_of t /\ adjustBasis e l = M3 (row0 e) (vscale s (row1 e)) (vscale t (row2 e))).
Proof.
  intros e l O. unfold adjustBasis. cbv zeta. set (d0 := near (vy l) (vx l)). set (d1 := near (vz l) (vy l)). set (d2 := near (vx l) (vz l)).
  destruct (d0 && d1 && d2) eqn:A; [left; split; reflexivity|right; split; [reflexivity|]].
  assert (V1 : forall v, vscale 1 v = v) by (intros [x y z]; unfold vscale; cbn; f_equal; ring).
  assert (RH : forall m, orthonormal m -> exists t, sign_of t /\ right_hand m = M3 (row0 m) (row1 m) (vscale t (row2 m))).
  { intros m _. unfold right_hand. destruct (Rlt_dec _ 0); [exists (-1); split; [right; reflexivity|reflexivity]|]. exists 1. split; [left; reflexivity|]. rewrite V1. destruct m. reflexivity. }
  assert (VV : forall s t v, vscale s (vscale t v) = vscale (s * t) v) by (intros s t [x y z]; unfold vscale; cbn; f_equal; ring).
  destruct (negb d0 && negb d1 && negb d2) eqn:B.
  { destruct (right_hand_ortho e O) as [R1 R2]. split; [exact R1|split; [exact R2|]]. destruct (RH e O) as (t & T & E). exists 1, t. rewrite E, V1. split; [left; reflexivity|split; [exact T|reflexivity]]. }
  pose proof (proj1 (ortho_rows e) O) as (H1 & H2 & H3 & H4 & H5 & H6). destruct e as [a b c]. cbn [row0 row1 row2] in *.
  destruct d1 eqn:D1.
  - pose proof (cross_frame a b H1 H2 H4) as [F _]. assert (C1 : dot (cross a b) (cross a b) = 1) by (apply ortho_rows in F; apply F). rewrite (unit_if_one _ C1).
    destruct (right_hand_ortho _ F) as [R1 R2]. split; [exact R1|split; [exact R2|]]. destruct (RH _ F) as (t & T & E). cbn [row0 row1 row2] in E. rewrite E. rewrite (cross_of_frame a b c O), VV.
    exists 1, (t * leibniz (M3 a b c)). rewrite V1. split; [left; reflexivity|split; [|reflexivity]]. destruct (ortho_det _ O) as [Q|Q]; rewrite Q; destruct T as [-> | ->]; unfold sign_of; [left|right|right|left]; ring.
  - assert (O' : orthonormal (M3 c a b)) by (apply ortho_rows; cbn [row0 row1 row2]; assert (K : forall x y, dot x y = dot y x) by (intros; unfold dot; ring); rewrite (K c a), (K c b); repeat split; assumption).
    assert (LE : leibniz (M3 c a b) = leibniz (M3 a b c)) by (unfold leibniz, ment, vent; cbn [row0 row1 row2]; ring).
    rewrite (cross_of_frame c a b O'), LE. set (k := leibniz (M3 a b c)).
    assert (K : sign_of k) by (apply (ortho_det _ O)). assert (U : dot (vscale k b) (vscale k b) = 1).
    { transitivity (k * k * dot b b); [unfold dot, vscale; cbn [vx vy vz]; ring|]. rewrite H2. destruct K as [-> | ->]; ring. }
    rewrite (unit_if_one _ U). assert (F : orthonormal (M3 a (vscale k b) c)).
    { apply ortho_rows. cbn [row0 row1 row2]. repeat split; try assumption.
      - transitivity (k * dot a b); [unfold dot, vscale; cbn [vx vy vz]; ring|rewrite H4; ring].
      - transitivity (k * dot b c); [unfold dot, vscale; cbn [vx vy vz]; ring|rewrite H6; ring]. }
    destruct (right_hand_ortho _ F) as [R1 R2]. split; [exact R1|split; [exact R2|]]. destruct (RH _ F) as (t & T & E). cbn [row0 row1 row2] in E. rewrite E. exists k, t. split; [exact K|split; [exact T|reflexivity]].
Qed.
Lemma adjust_frame : forall e l, orthonormal e -> orthonormal (adjustBasis e l) /\ leibniz (adjustBasis e l) = 1.
Proof. intros e l O. destruct (adjust_shape e l O) as [[_ E]|(_ & A & B & _)]; [rewrite E; apply canonical_ortho|split; assumption]. Qed.
Lemma eigen_frame : forall dsyev c, eigen_right dsyev c -> orthonormal (fst (eigenVectors dsyev c)).
Proof.
  intros dsyev c (O & _). unfold eigenVectors. destruct (dsyev c) as [e l]. cbn [fst] in *. apply ortho_rows in O. destruct O as (H1 & H2 & H3 & H4 & H5 & H6).
  apply ortho_rows. cbn [row0 row1 row2]. assert (K : forall x y, dot x y = dot y x) by (intros; unfold dot; ring). rewrite (K (row2 e) (row1 e)), (K (row2 e) (row0 e)), (K (row1 e) (row0 e)). repeat split; assumption.
Qed.
Lemma obb_is_along : forall dsyev junk w b, (forall c, covariance junk w = Some c -> eigen_right dsyev c) -> computeOBB dsyev junk w = Some b ->
  exists m, orthonormal m /\ leibniz m = 1 /\ box_along m w = Some b.
Proof.
  intros dsyev junk w b E H. unfold computeOBB in H. destruct (covariance junk w) as [c|] eqn:C; [|discriminate]. pose proof (eigen_frame dsyev c (E c eq_refl)) as O.
  destruct (eigenVectors dsyev c) as [e l]. cbn [fst] in O. exists (adjustBasis e l). destruct (adjust_frame e l O) as [A B]. auto.
Qed.
Lemma aabb_is_along : forall w, box_along canonical w = Some (computeAABB w).
Proof.
  intros w. unfold box_along. destruct (Req_EM_T (det canonical) 0) as [D|D]; [rewrite det_leibniz in D; destruct canonical_ortho; lra|].
  assert (F : forall f g, (forall x, f x = g x) -> least f w = least g w /\ greatest f w = greatest g w).
  { intros f g Q. rewrite !least_eq, !greatest_eq. generalize (all_points w). intros l. assert (Z : forall a, fold_left (fun m x => Rmin m (f x)) l a = fold_left (fun m x => Rmin m (g x)) l a) by (induction l as [|y l IH]; intros a; [reflexivity|]; cbn [fold_left]; rewrite Q; apply IH).
    assert (Z' : forall a, fold_left (fun m x => Rmax m (f x)) l a = fold_left (fun m x => Rmax m (g x)) l a) by (clear Z; induction l as [|y l IH]; intros a; [reflexivity|]; cbn [fold_left]; rewrite Q; apply IH). split; [apply Z|apply Z']. }
  destruct (F (fun x => dot x (row0 canonical)) vx) as [A0 B0]; [intros x; unfold dot, canonical; cbn; ring|].
  destruct (F (fun x => dot x (row1 canonical)) vy) as [A1 B1]; [intros x; unfold dot, canonical; cbn; ring|].
  destruct (F (fun x => dot x (row2 canonical)) vz) as [A2 B2]; [intros x; unfold dot, canonical; cbn; ring|].
  unfold along. rewrite A0, A1, A2, B0, B1, B2. unfold computeAABB. f_equal. f_equal.
  set (o := vscale (/ 2) _). rewrite <- (dots_inverse' o canonical) at 2; [|destruct canonical_ortho; lra]. f_equal. destruct o as [x y z]. unfold dots, canonical, dot. cbn. f_equal; ring.
Qed.

(* ---------------------------------------------------------- variances *)
Lemma eigen_sum : forall c e l v, orthonormal e -> (forall i k, (i < 3)%nat -> (k < 3)%nat -> sum3 (fun j => ment c k j * ment e i j) = vent l i * ment e i k) ->
  variance c v = sum3 (fun i => vent l i * (vent (dots v e) i * vent (dots v e) i)).
Proof.
  intros c e l v O E. pose proof (inverse_ortho e O v) as X. set (u := vent (dots v e)) in *.
  assert (Y : forall k, (k < 3)%nat -> vent v k = sum3 (fun i => u i * ment e i k)) by (intros k Hk; rewrite X at 1; three Hk; reflexivity).
  assert (C : forall k, (k < 3)%nat -> sum3 (fun j => ment c k j * vent v j) = sum3 (fun i => vent l i * u i * ment e i k)).
  { intros k Hk. transitivity (sum3 (fun i => u i * sum3 (fun j => ment c k j * ment e i j))); [unfold sum3 at 1; rewrite !Y by lia; unfold sum3; ring|]. unfold sum3 at 1. rewrite !E by lia. unfold sum3. ring. }
  assert (U : forall i, (i < 3)%nat -> u i = sum3 (fun k => vent v k * ment e i k)) by (intros i Hi; unfold u; three Hi; unfold sum3, dots, dot, ment, vent; cbn; ring).
  transitivity (sum3 (fun k => vent v k * sum3 (fun j => ment c k j * vent v j))); [unfold variance, sum3; ring|]. unfold sum3 at 1. rewrite !C by lia.
  transitivity (sum3 (fun i => vent l i * u i * sum3 (fun k => vent v k * ment e i k))); [unfold sum3; ring|]. unfold sum3 at 1. rewrite <- !U by lia. unfold sum3. ring.
Qed.
Lemma dots_one : forall e v, orthonormal e -> length_one v -> sum3 (fun i => vent (dots v e) i * vent (dots v e) i) = 1.
Proof.
  intros e v O L. pose proof (inverse_ortho e O v) as X. set (u := vent (dots v e)) in *.
  assert (Y : forall k, (k < 3)%nat -> vent v k = sum3 (fun i => u i * ment e i k)) by (intros k Hk; rewrite X at 1; three Hk; reflexivity).
  assert (U : forall i, (i < 3)%nat -> u i = sum3 (fun k => vent v k * ment e i k)) by (intros i Hi; unfold u; three Hi; unfold sum3, dots, dot, ment, vent; cbn; ring).
  transitivity (sum3 (fun i => u i * sum3 (fun k => vent v k * ment e i k))); [unfold sum3 at 2; rewrite <- !U by lia; unfold sum3; ring|].
  transitivity (sum3 (fun k => vent v k * sum3 (fun i => u i * ment e i k))); [unfold sum3; ring|]. rewrite <- L. unfold sum3 at 1 3. rewrite <- !Y by lia. ring.
Qed.
Lemma variance_bounds : forall c e l v, orthonormal e -> (forall i k, (i < 3)%nat -> (k < 3)%nat -> sum3 (fun j => ment c k j * ment e i j) = vent l i * ment e i k) ->
  vz l <= vy l <= vx l -> length_one v -> vz l <= variance c v <= vx l.
Proof.
  intros c e l v O E L V. rewrite (eigen_sum c e l v O E). pose proof (dots_one e v O V) as D. unfold sum3 in *. cbn [vent] in *. set (a := vx (dots v e)) in *. set (b := vy (dots v e)) in *. set (d := vz (dots v e)) in *.
  pose proof (Rle_0_sqr a) as A. pose proof (Rle_0_sqr b) as B. pose proof (Rle_0_sqr d) as C. unfold Rsqr in *. cbv beta in *. clear E O. revert A B C D. generalize (a * a) (b * b) (d * d). intros x y z A B C D.
  assert (Z : vz l * (x + y + z) = vz l) by (rewrite D; ring). assert (X : vx l * (x + y + z) = vx l) by (rewrite D; ring).
  pose proof (Rmult_le_pos (vx l - vz l) x ltac:(lra) A). pose proof (Rmult_le_pos (vy l - vz l) y ltac:(lra) B). pose proof (Rmult_le_pos (vx l - vy l) y ltac:(lra) B). pose proof (Rmult_le_pos (vx l - vz l) z ltac:(lra) C). split; lra.
Qed.
Lemma variance_axis : forall c e l i s, orthonormal e -> (forall i k, (i < 3)%nat -> (k < 3)%nat -> sum3 (fun j => ment c k j * ment e i j) = vent l i * ment e i k) -> (i < 3)%nat -> sign_of s ->
  variance c (vscale s (match i with 0%nat => row0 e | 1%nat => row1 e | _ => row2 e end)) = vent l i.
Proof.
  intros c e l i s O E Hi Hs. rewrite (eigen_sum c e l _ O E). apply ortho_rows in O. destruct O as (H1 & H2 & H3 & H4 & H5 & H6).
  assert (K : forall x y, dot x y = dot y x) by (intros; unfold dot; ring). assert (Q : forall x y, dot (vscale s x) y = s * dot x y) by (intros; unfold dot, vscale; cbn; ring). assert (S2 : s * s = 1) by (destruct Hs as [-> | ->]; ring).
  unfold sum3, dots. cbn [vent vx vy vz]. three Hi; rewrite !Q; rewrite ?(K (row1 e) (row0 e)), ?(K (row2 e) (row0 e)), ?(K (row2 e) (row1 e)), ?H1, ?H2, ?H3, ?H4, ?H5, ?H6; cbn [vent].
  - transitivity (vx l * (s * s)); [ring|rewrite S2; ring].
  - transitivity (vy l * (s * s)); [ring|rewrite S2; ring].
  - transitivity (vz l * (s * s)); [ring|rewrite S2; ring].
Qed.

(* ---------------------------------------------------------- sums *)
Lemma fold_sum : forall A (f : A -> R) l a, fold_left (fun s x => s + f x) l a = a + sum_list (map f l).
Proof. unfold sum_list. intros A f. induction l as [|y l IH]; intros a; cbn [fold_left map fold_right]; [ring|]. rewrite IH. ring. Qed.
Lemma sum_cons : forall x l, sum_list (x :: l) = x + sum_list l.
Proof. reflexivity. Qed.
Lemma sum_app : forall l l', sum_list (l ++ l') = sum_list l + sum_list l'.
Proof. unfold sum_list. induction l as [|y l IH]; intros l'; cbn [app fold_right]; [ring|]. rewrite IH. ring. Qed.
Lemma sum_perm : forall l l', Permutation l l' -> sum_list l = sum_list l'.
Proof. unfold sum_list. intros l l' P. induction P; cbn [fold_right] in *; lra. Qed.
Lemma sum_fold2 : forall A (g : geo -> list A) (f : A -> R) w,
  fold_left (fun s gs => s + fold_left (fun s x => fold_left (fun s y => s + f y) (g x) s) gs 0) w 0 = sum_list (map f (concat (map (fun gs => concat (map g gs)) w))).
Proof.
  intros A g f w. assert (L : forall gs a, fold_left (fun s x => fold_left (fun s y => s + f y) (g x) s) gs a = a + sum_list (map f (concat (map g gs)))).
  { induction gs as [|x gs IH]; intros a; cbn [fold_left map concat]; [cbn; ring|]. rewrite IH, fold_sum, map_app, sum_app. ring. }
  rewrite (fold_sum _ (fun gs => fold_left (fun s x => fold_left (fun s y => s + f y) (g x) s) gs 0)). rewrite Rplus_0_l. induction w as [|gs w IH]; [reflexivity|]. cbn [map concat]. rewrite sum_cons.
  rewrite IH, L, map_app, sum_app. ring.
Qed.
Lemma sum_over_eq : forall f w, sum_over f w = sum_list (map f (all_points w)).
Proof. intros f w. apply (sum_fold2 vec g_points f w). Qed.
Lemma tri_sum_eq : forall f w, tri_sum f w = sum_list (map f (all_triangles w)).
Proof. intros f w. apply (sum_fold2 _ g_tris f w). Qed.
Lemma count_eq : forall w, count w = INR (length (all_points w)).
Proof. intros w. unfold count, all_points. f_equal. f_equal. rewrite flat_map_concat_map. f_equal. apply map_ext. intros gs. apply flat_map_concat_map. Qed.
(** one geometry for each process and a matrix that starts from zero: the covariance *)
Lemma point_cov_right : forall w j k, (forall gs, In gs w -> (length gs <= 1)%nat) -> point_cov 0 w j k = spread (all_points w) j k.
Proof.
  intros w j k H. unfold point_cov, spread, mean at 1. rewrite count_eq, map_length.
  assert (MC : forall i, mass_center w i = mean (map (fun y => vent y i) (all_points w))) by (intros i; unfold mass_center, mean; rewrite sum_over_eq, count_eq, map_length; reflexivity).
  rewrite !MC. set (c := fun x : vec => _). f_equal. change (fun x => (vent x j - mean (map (fun y => vent y j) (all_points w))) * (vent x k - mean (map (fun y => vent y k) (all_points w)))) with c.
  clearbody c. clear MC. assert (L : forall gs, (length gs <= 1)%nat -> local_cov c 0 gs = sum_list (map c (concat (map g_points gs)))).
  { intros [|g [|h r]] Hl; [reflexivity| |cbn in Hl; lia]. unfold local_cov. cbn [fold_left fst snd map concat]. rewrite fold_sum, app_nil_r. ring. }
  rewrite (fold_sum _ (local_cov c 0)). rewrite Rplus_0_l. unfold all_points. induction w as [|gs w IH]; [reflexivity|]. cbn [map concat]. rewrite sum_cons.
  rewrite IH by (intros; apply H; right; assumption). rewrite L by (apply H; left; reflexivity). rewrite map_app, sum_app. reflexivity.
Qed.
Lemma over_product : forall f t a b c a' b' c', (let '(p, q, r) := t in forall s u, f (vadd p (vadd (vscale s (vsub q p)) (vscale u (vsub r p)))) = (a + s * (b - a) + u * (c - a)) * (a' + s * (b' - a') + u * (c' - a'))) ->
  over_triangle f t = area t * (((a + b + c) * (a' + b' + c') + a * a' + b * b' + c * c') / 12).
Proof.
  intros f [[p q] r] a b c a' b' c' H. unfold over_triangle. replace (integral _ 0 1) with (((a + b + c) * (a' + b' + c') + a * a' + b * b' + c * c') / 24); [field|].
  rewrite <- BBoxIntegral.tri_integral. unfold integral. apply (@RInt.RInt_ext Hierarchy.R_CompleteNormedModule). intros s _. apply (@RInt.RInt_ext Hierarchy.R_CompleteNormedModule). intros u _. symmetry. apply H.
Qed.
Lemma area_eq : forall t, tri_area t = area t.
Proof. intros [[p q] r]. unfold tri_area, area. field. Qed.
Lemma over_place : forall t i, (i < 3)%nat -> over_triangle (fun x => vent x i) t = tri_area t * tri_mid t i.
Proof.
  intros t i Hi. rewrite area_eq. destruct t as [[p q] r] eqn:T. rewrite (over_product _ _ (vent p i) (vent q i) (vent r i) 1 1 1).
  - unfold tri_mid, coord. fold (vent p i) (vent q i) (vent r i). field.
  - intros s u. three Hi; unfold vent, vadd, vscale, vsub; cbn [vx vy vz]; ring.
Qed.
Lemma over_products : forall t j k m n, (j < 3)%nat -> (k < 3)%nat ->
  over_triangle (fun x => (vent x j - m) * (vent x k - n)) t = tri_moment j k t - n * (tri_area t * tri_mid t j) - m * (tri_area t * tri_mid t k) + m * n * tri_area t.
Proof.
  intros t j k m n Hj Hk. rewrite area_eq. destruct t as [[p q] r] eqn:T. rewrite (over_product _ _ (vent p j - m) (vent q j - m) (vent r j - m) (vent p k - n) (vent q k - n) (vent r k - n)).
  - unfold tri_moment, tri_mid. rewrite area_eq. unfold coord. fold (vent p j) (vent q j) (vent r j) (vent p k) (vent q k) (vent r k). field.
  - intros s u. three Hj; three Hk; unfold vent, vadd, vscale, vsub; cbn [vx vy vz]; ring.
Qed.
Lemma sum_lin : forall A (f g h k : A -> R) a b c l, sum_list (map (fun t => f t - a * g t - b * h t + c * k t) l) = sum_list (map f l) - a * sum_list (map g l) - b * sum_list (map h l) + c * sum_list (map k l).
Proof. unfold sum_list. intros A f g h k a b c. induction l as [|x l IH]; cbn [map fold_right]; [ring|]. rewrite IH. ring. Qed.
Lemma tri_cov_right : forall w j k, (j < 3)%nat -> (k < 3)%nat -> tri_sum tri_area w <> 0 ->
  tri_cov w j k = surface_mean (fun x => (vent x j - surface_mean (fun y => vent y j) w) * (vent x k - surface_mean (fun y => vent y k) w)) w.
Proof.
  intros w j k Hj Hk A. assert (TA : total area w = tri_sum tri_area w) by (rewrite tri_sum_eq; unfold total; f_equal; apply map_ext; intros t; symmetry; apply area_eq).
  assert (M : forall i, (i < 3)%nat -> surface_mean (fun y => vent y i) w = tri_sum (fun t => tri_area t * tri_mid t i) w / tri_sum tri_area w).
  { intros i Hi. unfold surface_mean. rewrite TA. f_equal. unfold total. rewrite tri_sum_eq. f_equal. apply map_ext. intros t. apply over_place. exact Hi. }
  rewrite (M j Hj), (M k Hk). set (m := tri_sum (fun t => tri_area t * tri_mid t j) w / tri_sum tri_area w). set (n := tri_sum (fun t => tri_area t * tri_mid t k) w / tri_sum tri_area w).
  unfold surface_mean. rewrite TA. unfold total. rewrite (map_ext _ _ (fun t => over_products t j k m n Hj Hk)).
  rewrite (sum_lin _ (tri_moment j k) (fun t => tri_area t * tri_mid t j) (fun t => tri_area t * tri_mid t k) tri_area). rewrite <- !tri_sum_eq. unfold tri_cov. fold m n.
  assert (E1 : tri_sum (fun t => tri_area t * tri_mid t j) w = m * tri_sum tri_area w) by (unfold m; field; exact A). assert (E2 : tri_sum (fun t => tri_area t * tri_mid t k) w = n * tri_sum tri_area w) by (unfold n; field; exact A).
  rewrite E1, E2. field. exact A.
Qed.
