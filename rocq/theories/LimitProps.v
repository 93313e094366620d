(** C108: how much a deformation violates a limit. *)
From Coq Require Import Reals List Arith Bool Lra Lia.
From Verif Require Import Vec BBox Limit LimitSpec SkdDistProofs LimitProofs.
Import ListNotations.
Open Scope R_scope.

(** The violation of each vertex is the distance of its new position from the surface not deformed, less the limit,
    on all processes; a vertex without a displacement does not move. *)
Theorem C108_distance : forall on closest limit ps, search_right on closest -> (forall p, In p ps -> suitable p) -> (forall p id x, In p ps -> In (id, x) (m_verts (fst p)) -> on x) ->
  exists v, max_execute closest limit ps = Some v /\
    Forall2 (fun p l => map fst l = map fst (m_verts (fst p)) /\ forall id w, In (id, w) l -> exists x y d, displaced p id x y /\ far_from on y d /\ w = d - limit) ps v.
Proof.
  intros on closest limit ps Sr Su On. unfold max_execute.
  destruct (all_some_right _ _ (max_part closest limit) (max_good on limit) ps) as (v & E & F).
  { intros p I. apply max_part_right; [exact Sr|apply Su; exact I|]. intros id x H. apply (On p id); assumption. }
  exists v. split; [exact E|]. clear - F. induction F as [|p l ps v G F IH]; constructor; [|exact IH]. destruct G as (A & B & _). split; assumption.
Qed.
Print Assumptions C108_distance.

(** The violation of the deformation is positive if and only if some vertex ends up farther than the limit from the
    surface; it is the greatest distance less the limit. *)
Theorem C108_violation : forall on closest t ps v, search_right on closest -> (forall p, In p ps -> suitable p) -> (forall p id x, In p ps -> In (id, x) (m_verts (fst p)) -> on x) -> / 10 ^ 12 <= t ->
  max_execute closest (setLimitDistance t) ps = Some v ->
  (0 < getViolation v <-> exists p id x y d, In p ps /\ displaced p id x y /\ far_from on y d /\ t < d) /\
  (0 <= getViolation v <-> exists p id x y d, In p ps /\ displaced p id x y /\ far_from on y d /\ t <= d) /\
  (forall p id x y, In p ps -> displaced p id x y -> exists d, far_from on y d /\ d - t <= getViolation v).
Proof.
  intros on closest t ps v Sr Su On T. replace (setLimitDistance t) with t by (unfold setLimitDistance; rewrite Rmax_right by lra; reflexivity). unfold max_execute. intros E.
  destruct (all_some_right _ _ (max_part closest t) (max_good on t) ps) as (v' & E' & F).
  { intros p I. apply max_part_right; [exact Sr|apply Su; exact I|]. intros id x H. apply (On p id); assumption. }
  rewrite E in E'. injection E' as <-.
  assert (A : forall p id x y, In p ps -> displaced p id x y -> exists d, far_from on y d /\ d - t <= getViolation v).
  { intros p id x y Ip D. destruct (Forall2_in_l _ _ _ _ _ _ F Ip) as (l & Il & _ & _ & G). destruct (G id x y D) as (d & Fd & Id). exists d. split; [exact Fd|]. apply (violation_ge v l (id, d - t) Il Id). }
  assert (B : forall k, - 10 ^ 25 <= k -> (k <= getViolation v -> exists p id x y d, In p ps /\ displaced p id x y /\ far_from on y d /\ getViolation v = d - t)).
  { intros k K H. destruct (violation_at v) as [Q|(l & [id w] & Il & Ie & Q)]; [pose proof dmax_big; lra|]. destruct (Forall2_in_r _ _ _ _ _ _ F Il) as (p & Ip & _ & G & _). destruct (G id w Ie) as (x & y & d & D & Fd & W). exists p, id, x, y, d. cbn [snd] in Q. rewrite Q, W. auto. }
  assert (Z : - 10 ^ 25 <= 0) by (assert (0 < 10 ^ 25) by (apply pow_lt; lra); lra).
  split; [|split; [|exact A]]; split.
  - intros H. destruct (B 0 Z ltac:(lra)) as (p & id & x & y & d & Ip & D & Fd & Q). exists p, id, x, y, d. split; [exact Ip|split; [exact D|split; [exact Fd|lra]]].
  - intros (p & id & x & y & d & Ip & D & Fd & L). destruct (A p id x y Ip D) as (e & Fe & Q). rewrite (far_unique _ _ _ _ Fe Fd) in Q. lra.
  - intros H. destruct (B 0 Z ltac:(lra)) as (p & id & x & y & d & Ip & D & Fd & Q). exists p, id, x, y, d. split; [exact Ip|split; [exact D|split; [exact Fd|lra]]].
  - intros (p & id & x & y & d & Ip & D & Fd & L). destruct (A p id x y Ip D) as (e & Fe & Q). rewrite (far_unique _ _ _ _ Fe Fd) in Q. lra.
Qed.
Print Assumptions C108_violation.

(** Displacements not longer than the limit violate nothing. *)
Theorem C108_small : forall on closest t ps v, search_right on closest -> (forall p, In p ps -> suitable p) -> (forall p id x, In p ps -> In (id, x) (m_verts (fst p)) -> on x) -> / 10 ^ 12 <= t ->
  max_execute closest (setLimitDistance t) ps = Some v -> (forall p id d, In p ps -> In (id, d) (f_data (snd p)) -> vx d * vx d + vy d * vy d + vz d * vz d <= t * t) -> getViolation v <= 0.
Proof.
  intros on closest t ps v Sr Su On T E Sm. destruct (C108_violation on closest t ps v Sr Su On T E) as [(A & _) _]. destruct (Rlt_dec 0 (getViolation v)) as [H|H]; [|lra]. exfalso.
  assert (T0 : 0 < t) by (assert (0 < / 10 ^ 12) by (apply Rinv_0_lt_compat; apply pow_lt; lra); lra).
  destruct (A H) as (p & id & x & y & d & Ip & D & Fd & L). destruct D as (Ix & e & De & ->). destruct Fd as [_ Fd]. specialize (Fd x (On p id x Ip Ix)). change (d <= norm (vsub (vadd x e) x)) in Fd. rewrite minus_self in Fd.
  assert (N : norm e <= t); [|lra]. apply norm_le_sq; [lra|]. destruct De as [De|[-> _]]; [apply (Sm p id e Ip De)|unfold dot; cbn; nra].
Qed.
Print Assumptions C108_small.

(** With constraint surfaces: the violation of each vertex is the greatest of its excesses, the side of the middle
    of the box of the geometry not deformed being the allowed one, for points within 10^12 of the surfaces. *)
Theorem C108_external : forall diagonal lo hi t cs ss ps, Forall2 (fun c s => signed_right (s_on s) (s_out s) (c_signed c)) cs ss -> 0 <= t -> (forall p, In p ps -> suitable p) ->
  (forall s, In s ss -> within (10 ^ 12) s (V3 (/ 2 * (vx lo + vx hi)) (/ 2 * (vy lo + vy hi)) (/ 2 * (vz lo + vz hi)))) -> (forall s p id x y, In s ss -> In p ps -> displaced p id x y -> within (10 ^ 12) s y) ->
  exists v, ext_execute diagonal lo hi (setTolerance t) cs ps = Some v /\
    Forall2 (fun p l => map fst l = map fst (m_verts (fst p)) /\
      forall id w, In (id, w) l -> exists x y, displaced p id x y /\ worst ss (V3 (/ 2 * (vx lo + vx hi)) (/ 2 * (vy lo + vy hi)) (/ 2 * (vz lo + vz hi))) y t w) ps v.
Proof.
  intros diagonal lo hi t cs ss ps CS T Su Wm Wp. replace (setTolerance t) with t by (unfold setTolerance; rewrite Rmax_right by lra; reflexivity). unfold ext_execute.
  destruct (all_some_right _ _ (ext_part diagonal lo hi t cs) (ext_good ss (middle lo hi) t) ps) as (v & E & F).
  { intros p I. apply ext_part_right; [exact T|exact CS|apply Su; exact I|exact Wm|]. intros s id x y Is D. apply (Wp s p id x); assumption. }
  exists v. split; [exact E|]. clear - F. induction F as [|p l ps v G F IH]; constructor; [|exact IH]. destruct G as (A & B & _). split; assumption.
Qed.
Print Assumptions C108_external.

(** No violation if and only if every vertex ends up on the side of the middle, farther than the tolerance from each
    constraint. *)
Theorem C108_external_violation : forall diagonal lo hi t cs ss ps v, Forall2 (fun c s => signed_right (s_on s) (s_out s) (c_signed c)) cs ss -> 0 <= t -> (forall p, In p ps -> suitable p) ->
  (forall s, In s ss -> within (10 ^ 12) s (V3 (/ 2 * (vx lo + vx hi)) (/ 2 * (vy lo + vy hi)) (/ 2 * (vz lo + vz hi)))) -> (forall s p id x y, In s ss -> In p ps -> displaced p id x y -> within (10 ^ 12) s y) ->
  ext_execute diagonal lo hi (setTolerance t) cs ps = Some v ->
  (getViolation v < 0 <-> forall p id x y s d, In p ps -> displaced p id x y -> In s ss -> far_from (s_on s) y d ->
     ~ opposite (s_out s) (V3 (/ 2 * (vx lo + vx hi)) (/ 2 * (vy lo + vy hi)) (/ 2 * (vz lo + vz hi))) y /\ t < d).
Proof.
  intros diagonal lo hi t cs ss ps v CS T Su Wm Wp. replace (setTolerance t) with t by (unfold setTolerance; rewrite Rmax_right by lra; reflexivity). unfold ext_execute. intros E.
  destruct (all_some_right _ _ (ext_part diagonal lo hi t cs) (ext_good ss (middle lo hi) t) ps) as (v' & E' & F).
  { intros p I. apply ext_part_right; [exact T|exact CS|apply Su; exact I|exact Wm|]. intros s id x y Is D. apply (Wp s p id x); assumption. }
  rewrite E in E'. injection E' as <-. change (V3 (/ 2 * (vx lo + vx hi)) (/ 2 * (vy lo + vy hi)) (/ 2 * (vz lo + vz hi))) with (middle lo hi) in *. split.
  - intros H p id x y s d Ip D Is Fd. destruct (Forall2_in_l _ _ _ _ _ _ F Ip) as (l & Il & _ & _ & G). destruct (G id x y D) as (w & (W1 & _) & Iw). pose proof (violation_ge v l (id, w) Il Iw) as Q. cbn [snd] in Q.
    destruct (W1 s Is) as (u & (e & Fe & U) & L). rewrite (far_unique _ _ _ _ Fe Fd) in U. destruct Fd as [(z & _ & Ez) _]. assert (0 <= d) by (rewrite <- Ez; apply norm_ge). destruct U as [[_ U]|[U1 U]]; [lra|]. split; [exact U1|lra].
  - intros H. assert (Z : 0 < 10 ^ 25) by (apply pow_lt; lra). destruct (violation_at v) as [Q|(l & [id w] & Il & Ie & Q)]; [pose proof dmax_big; lra|]. destruct (Forall2_in_r _ _ _ _ _ _ F Il) as (p & Ip & _ & G & _). destruct (G id w Ie) as (x & y & D & _ & W). cbn [snd] in Q. rewrite Q.
    destruct W as [[_ ->]|(s & Is & d & Fd & W)]; [lra|]. destruct (H p id x y s d Ip D Is Fd) as [H1 H2]. destruct W as [[W _]|[_ ->]]; [contradiction|lra].
Qed.
Print Assumptions C108_external_violation.

(** A vertex of no cell, not displaced: the violation is as great as a double can be. *)
Theorem C108_isolated_refuted : forall on closest limit p id x, search_right on closest -> suitable p -> In (id, x) (m_verts (fst p)) -> ~ In id (map fst (f_data (snd p))) ->
  (forall y, on y -> / 10 ^ 8 < norm (vsub x y)) -> exists l, max_execute closest limit [p] = Some [l] /\ In (id, dmax - limit) l.
Proof.
  intros on closest limit p id x Sr Su I N Far. destruct (displacements_right p Su) as (l & E & M & F). unfold max_execute, max_part. cbn [map all_some]. rewrite E. eexists. split; [reflexivity|].
  assert (D : displaced p id x x) by (split; [exact I|]; exists (V3 0 0 0); split; [right; split; [reflexivity|exact N]|destruct x; cbn; f_equal; ring]).
  destruct (displaced_back p l id x x Su M F D) as (d & Id & Ed). destruct (F _ _ _ Id) as [G|[G _]]; [exfalso; apply N; apply in_map_iff; exists (id, d); auto|].
  apply in_map_iff. exists (id, (x, d)). split; [|exact Id]. f_equal. f_equal. unfold far. rewrite <- Ed.
  assert (R0 : radius d = / 10 ^ 8). { unfold radius. replace (norm d) with 0 by (rewrite G; unfold norm, dot; cbn; replace (0 * 0 + 0 * 0 + 0 * 0) with 0 by ring; rewrite sqrt_0; reflexivity). rewrite Rmult_0_r. apply Rmax_left. apply Rlt_le, Rinv_0_lt_compat, pow_lt. lra. }
  rewrite R0. pose proof (Sr x (/ 10 ^ 8)) as Q. destruct (closest x (/ 10 ^ 8)) as [h|]; [|reflexivity]. exfalso. destruct Q as [[(y & Oy & Ey) _] Q]. specialize (Far y Oy). lra.
Qed.
Print Assumptions C108_isolated_refuted.
(** the plane z = 0 as surface, with its search *)
Definition flat (p : vec) : Prop := vz p = 0.
Definition flat_search (p : vec) (r : R) : option R := if Rle_dec (Rabs (vz p)) r then Some (Rabs (vz p)) else None.
Lemma flat_least : forall p y, flat y -> Rabs (vz p) <= norm (vsub p y).
Proof. intros [a b c] [e f g] H. unfold flat in H. cbn in H. subst g. unfold norm, vsub, dot. cbn. rewrite <- sqrt_Rsqr_abs. apply sqrt_le_1_alt. unfold Rsqr. replace (c - 0) with c by ring. pose proof (Rle_0_sqr (a - e)). pose proof (Rle_0_sqr (b - f)). unfold Rsqr in *. lra. Qed.
Lemma flat_far : forall p, far_from flat p (Rabs (vz p)).
Proof.
  intros [a b c]. split; [|intros y Hy; apply flat_least; exact Hy]. exists (V3 a b 0). split; [reflexivity|]. unfold norm, vsub, dot. cbn. rewrite <- sqrt_Rsqr_abs. f_equal. unfold Rsqr. ring.
Qed.
Lemma flat_right : search_right flat flat_search.
Proof.
  intros p r. unfold flat_search. destruct (Rle_dec (Rabs (vz p)) r) as [H|H]; [split; [apply flat_far|exact H]|]. intros y Hy. pose proof (flat_least p y Hy). lra.
Qed.
Definition corner : mesh := Mesh 0 [(0%nat, V3 0 0 0); (1%nat, V3 1 0 0); (2%nat, V3 0 1 0)] [0%nat].
Definition raised : field := Field (Some corner) Point [(1%nat, V3 0 0 2)].
Lemma corner_suitable : suitable (corner, raised).
Proof.
  split; [reflexivity|split; [reflexivity|split; [|split]]]; [repeat constructor; cbn; intuition lia|repeat constructor; cbn; intuition lia|]. intros id d [H|[]]. injection H as <- <-. cbn. auto.
Qed.
Definition lonely : mesh := Mesh 0 [(0%nat, V3 0 0 0); (1%nat, V3 1 0 0); (2%nat, V3 0 1 0); (3%nat, V3 0 0 5)] [0%nat].
Example C108_isolated_nonvacuous : suitable (lonely, Field (Some lonely) Point [(1%nat, V3 0 0 2)]) /\ In (3%nat, V3 0 0 5) (m_verts lonely) /\ forall y, flat y -> / 10 ^ 8 < norm (vsub (V3 0 0 5) y).
Proof.
  split; [|split; [cbn; auto|]].
  - split; [reflexivity|split; [reflexivity|split; [|split]]]; [repeat constructor; cbn; intuition lia|repeat constructor; cbn; intuition lia|]. intros id d [H|[]]. injection H as <- <-. cbn. auto.
  - intros y Hy. pose proof (flat_least (V3 0 0 5) y Hy) as Q. cbn [vz] in Q. rewrite Rabs_right in Q by lra. assert (/ 10 ^ 8 < / 1) by (apply Rinv_lt_contravar; [rewrite Rmult_1_l; apply pow_lt; lra|apply Rlt_pow_R1; [lra|lia]]). rewrite Rinv_1 in *. lra.
Qed.

(** Without a field, or with a field on the cells, an error instead of the null displacement; a field of another
    geometry with the same ids is used. *)
Theorem C108_field_refuted :
  (forall closest limit g ps, m_verts g <> [] -> In (g, no_field) ps -> max_execute closest limit ps = None) /\
  (forall diagonal lo hi tol cs g ps, m_verts g <> [] -> In (g, no_field) ps -> ext_execute diagonal lo hi tol cs ps = None) /\
  (exists g f, f_geo f = Some g /\ f_loc f = Cell /\ forall closest limit, max_execute closest limit [(g, f)] = None) /\
  (exists g h f x, f_geo f = Some h /\ m_id g <> m_id h /\ forall limit, max_execute flat_search limit [(g, f)] = Some [[(0%nat, x - limit)]] /\ 0 < x).
Proof.
  assert (AN : forall A (l : list (option A)), In None l -> all_some l = None) by (intros A; induction l as [|[y|] l IH]; intros H; [destruct H| |reflexivity]; destruct H as [H|H]; [discriminate|]; cbn; rewrite (IH H); reflexivity).
  assert (DN : forall g, m_verts g <> [] -> displacements (m_verts g) (complete no_field) = None) by (intros g H; destruct (m_verts g) as [|[i x] r]; [contradiction|reflexivity]).
  split; [|split; [|split]].
  - intros closest limit g ps H I. apply AN. apply in_map_iff. exists (g, no_field). split; [|exact I]. unfold max_part. cbn [fst snd]. rewrite DN by exact H. reflexivity.
  - intros diagonal lo hi tol cs g ps H I. apply AN. apply in_map_iff. exists (g, no_field). split; [|exact I]. unfold ext_part. cbn [fst snd]. rewrite DN by exact H. reflexivity.
  - exists corner, (Field (Some corner) Cell [(0%nat, V3 0 0 2)]). split; [reflexivity|split; [reflexivity|]]. intros closest limit. reflexivity.
  - exists (Mesh 0 [(0%nat, V3 0 0 0)] []), (Mesh 1 [(0%nat, V3 7 7 7)] []), (Field (Some (Mesh 1 [(0%nat, V3 7 7 7)] [])) Point [(0%nat, V3 0 0 2)]), 2. split; [reflexivity|split; [cbn; lia|]]. intros limit. split; [|lra].
    cbn. repeat f_equal. unfold far, flat_search. cbn [vadd vz]. replace (0 + 2) with 2 by ring. rewrite Rabs_right by lra.
    assert (N : norm (V3 0 0 2) = 2) by (unfold norm, dot; cbn; replace (0 * 0 + 0 * 0 + 2 * 2) with (2 * 2) by ring; apply sqrt_square; lra).
    pose proof (radius_enough (V3 0 0 2)) as Q. rewrite N in Q. destruct (Rle_dec 2 (radius (V3 0 0 2))); [reflexivity|contradiction].
Qed.
Print Assumptions C108_field_refuted.

(** the unit sphere and its distance with sign *)
Definition ball_on (p : vec) : Prop := norm p = 1.
Definition ball_out (p : vec) : Prop := 1 < norm p.
Definition ball_signed (p : vec) (r : R) : option R := if Rle_dec (Rabs (norm p - 1)) r then Some (norm p - 1) else None.
Lemma ball_far : forall p, far_from ball_on p (Rabs (norm p - 1)).
Proof.
  intros p. split.
  - destruct (Req_EM_T (norm p) 0) as [Z|Z].
    + exists (V3 1 0 0). assert (P0 : dot p p = 0) by (rewrite <- norm_sq, Z; ring). destruct p as [a b c]. unfold dot in P0. cbn in P0. pose proof (Rle_0_sqr a). pose proof (Rle_0_sqr b). pose proof (Rle_0_sqr c). unfold Rsqr in *.
      assert (a = 0) by (apply Rsqr_0_uniq; unfold Rsqr; lra). assert (b = 0) by (apply Rsqr_0_uniq; unfold Rsqr; lra). assert (c = 0) by (apply Rsqr_0_uniq; unfold Rsqr; lra). subst. rewrite Z. split.
      * unfold ball_on, norm, dot. cbn. replace (1 * 1 + 0 * 0 + 0 * 0) with 1 by ring. apply sqrt_1.
      * unfold norm, vsub, dot. cbn. replace ((0 - 1) * (0 - 1) + (0 - 0) * (0 - 0) + (0 - 0) * (0 - 0)) with 1 by ring. rewrite sqrt_1. replace (0 - 1) with (-(1)) by ring. rewrite Rabs_Ropp, Rabs_R1. reflexivity.
    + exists (vscale (/ norm p) p). pose proof (norm_ge p) as G. split.
      * unfold ball_on. rewrite norm_scale, Rabs_right by (apply Rle_ge, Rlt_le, Rinv_0_lt_compat; lra). field. exact Z.
      * replace (vsub p (vscale (/ norm p) p)) with (vscale (1 - / norm p) p) by (destruct p as [a b c]; unfold vscale, vsub; cbn; f_equal; ring). rewrite norm_scale. rewrite <- (Rabs_right (norm p)) at 2 by lra. rewrite <- Rabs_mult. f_equal. field. exact Z.
  - intros y Oy. unfold ball_on in Oy. rewrite <- (Rabs_right (norm (vsub p y))) by (apply Rle_ge, norm_ge). apply Rsqr_le_abs_0. unfold Rsqr. rewrite (norm_sq (vsub p y)). pose proof (norm_sq p) as P. pose proof (norm_sq y) as Y. rewrite Oy in Y. pose proof (schwarz p y) as C. rewrite Oy, Rmult_1_r in C. pose proof (Rle_abs (dot p y)).
    replace (dot (vsub p y) (vsub p y)) with (dot p p + dot y y - 2 * dot p y) by (destruct p, y; unfold dot, vsub; cbn; ring). nra.
Qed.
Lemma ball_right : signed_right ball_on ball_out ball_signed.
Proof.
  intros p r. unfold ball_signed. destruct (Rle_dec (Rabs (norm p - 1)) r) as [H|H]; [split; [apply ball_far|split; [exact H|unfold ball_out; split; lra]]|]. intros y Oy. pose proof (proj2 (ball_far p) y Oy). lra.
Qed.
Lemma ball_within : forall p, norm p <= 2 -> within (10 ^ 12) (Surf ball_on ball_out) p.
Proof.
  intros p H. destruct (ball_far p) as [(x & Ox & Ex) _]. exists x. split; [exact Ox|]. rewrite Ex. pose proof (norm_ge p). assert (1 < 10 ^ 12) by (apply Rlt_pow_R1; [lra|lia]). assert (Rabs (norm p - 1) <= 1) by (apply Rabs_le; lra). lra.
Qed.
Definition around : mesh := Mesh 0 [(0%nat, V3 2 0 0); (1%nat, V3 (-2) 0 0)] [].
Lemma around_suitable : suitable (around, Field (Some around) Point []).
Proof. split; [reflexivity|split; [reflexivity|split; [|split]]]; [repeat constructor; cbn; intuition lia|constructor|intros id d []]. Qed.
Lemma norm_two : norm (V3 2 0 0) = 2.
Proof. unfold norm, dot; cbn; replace (2 * 2 + 0 * 0 + 0 * 0) with (2 * 2) by ring; apply sqrt_square; lra. Qed.
Lemma norm_two' : norm (V3 (-2) 0 0) = 2.
Proof. unfold norm, dot; cbn; replace (-2 * -2 + 0 * 0 + 0 * 0) with (2 * 2) by ring; apply sqrt_square; lra. Qed.
Lemma centre_zero : norm (V3 (/ 2 * (-2 + 2)) (/ 2 * (0 + 0)) (/ 2 * (0 + 0))) = 0.
Proof. unfold norm, dot. cbn [vx vy vz]. replace (_ + _ + _) with 0 by field. apply sqrt_0. Qed.
Lemma around_within : forall s p id x y, In s [Surf ball_on ball_out] -> In p [(around, Field (Some around) Point [])] -> displaced p id x y -> within (10 ^ 12) s y.
Proof.
  intros s p id x y [<- | []] [<- | []] (I & d & D & ->). cbn [snd f_data] in D. destruct D as [[]|[-> _]]. cbn [vx vy vz]. rewrite !Rplus_0_r. apply ball_within. cbn in I. destruct I as [I|[I|[]]]; injection I as <- <-; cbn [vx vy vz]; rewrite ?norm_two, ?norm_two'; lra.
Qed.
Lemma centre_within : forall s, In s [Surf ball_on ball_out] -> within (10 ^ 12) s (V3 (/ 2 * (vx (V3 (-2) 0 0) + vx (V3 2 0 0))) (/ 2 * (vy (V3 (-2) 0 0) + vy (V3 2 0 0))) (/ 2 * (vz (V3 (-2) 0 0) + vz (V3 2 0 0)))).
Proof.
  intros s [<- | []]. apply ball_within. cbn [vx vy vz]. rewrite centre_zero. lra.
Qed.
(** A geometry around a constraint violates it without being deformed: its middle is inside. *)
Theorem C108_enclosed_refuted : exists sd g f v, signed_right ball_on ball_out sd /\ suitable (g, f) /\ f_data f = [] /\ (forall id x, In (id, x) (m_verts g) -> ball_out x) /\
  (forall diagonal lo hi, ext_execute diagonal (V3 (-2) 0 0) (V3 2 0 0) (setTolerance 0) [Con sd lo hi] [(g, f)] = Some v) /\ 1 <= getViolation v.
Proof.
  exists ball_signed, around, (Field (Some around) Point []), [[(0%nat, 1); (1%nat, 1)]]. split; [apply ball_right|]. split; [apply around_suitable|]. split; [reflexivity|]. split; [|split].
  - intros id x I. unfold ball_out. cbn in I. destruct I as [I|[I|[]]]; injection I as <- <-; rewrite ?norm_two, ?norm_two'; lra.
  - intros diagonal lo hi.
    destruct (C108_external diagonal (V3 (-2) 0 0) (V3 2 0 0) 0 [Con ball_signed lo hi] [Surf ball_on ball_out] [(around, Field (Some around) Point [])]) as (v & E & F).
    + constructor; [apply ball_right|constructor].
    + lra.
    + intros p [<- | []]. apply around_suitable.
    + apply centre_within.
    + apply around_within.
    + rewrite E. f_equal. inversion F as [|? l ? r [M W] F']; subst. inversion F'; subst. f_equal. cbn [fst around m_verts map] in M. destruct l as [|[i a] [|[j b] [|? ?]]]; try discriminate. cbn [map fst] in M. injection M as -> ->.
      assert (K : forall id w, In (id, w) [(0%nat, a); (1%nat, b)] -> w = 1).
      { intros id w I. destruct (W id w I) as (x & y & (Ix & d & D & ->) & _ & [[B _]|(s & [<- | []] & e & Fe & X)]); [discriminate|]. cbn [snd f_data] in D. destruct D as [[]|[-> _]]. cbn [vx vy vz] in X, Fe. cbn [s_on s_out] in *. rewrite (Rplus_0_r (vx x)), (Rplus_0_r (vy x)), (Rplus_0_r (vz x)) in X, Fe.
        assert (N2 : norm (V3 (vx x) (vy x) (vz x)) = 2) by (cbn in Ix; destruct Ix as [Ix|[Ix|[]]]; injection Ix as <- <-; cbn [vx vy vz]; rewrite ?norm_two, ?norm_two'; reflexivity).
        pose proof (far_unique _ _ _ _ Fe (ball_far _)) as Q. rewrite N2 in Q. rewrite Rabs_right in Q by lra. 
        assert (OP : opposite ball_out (V3 (/ 2 * (-2 + 2)) (/ 2 * (0 + 0)) (/ 2 * (0 + 0))) (V3 (vx x) (vy x) (vz x))).
        { right. unfold ball_out. rewrite N2. split; [|lra]. rewrite centre_zero. lra. }
        destruct X as [[_ ->]|[X _]]; [lra|contradiction]. }
      rewrite (K 0%nat a (or_introl eq_refl)), (K 1%nat b (or_intror (or_introl eq_refl))). reflexivity.
  - apply (violation_ge _ [(0%nat, 1); (1%nat, 1)] (0%nat, 1)); left; reflexivity.
Qed.
Print Assumptions C108_enclosed_refuted.

(** A corner of the plane lifted by 2 with limit 1; with limit 3 it violates nothing. *)
Example C108_nonvacuous : search_right flat flat_search /\ suitable (corner, raised) /\ (forall id x, In (id, x) (m_verts corner) -> flat x) /\ displaced (corner, raised) 1 (V3 1 0 0) (V3 1 0 2) /\ far_from flat (V3 1 0 2) 2 /\
  (exists v, max_execute flat_search (setLimitDistance 1) [(corner, raised)] = Some v /\ 0 < getViolation v) /\ exists v, max_execute flat_search (setLimitDistance 3) [(corner, raised)] = Some v /\ getViolation v <= 0.
Proof.
  assert (On : forall p id x, In p [(corner, raised)] -> In (id, x) (m_verts (fst p)) -> flat x) by (intros p id x [<- | []] I; cbn in I; destruct I as [I|[I|[I|[]]]]; injection I as <- <-; reflexivity).
  assert (Su : forall p, In p [(corner, raised)] -> suitable p) by (intros p [<- | []]; apply corner_suitable).
  assert (D : displaced (corner, raised) 1 (V3 1 0 0) (V3 1 0 2)) by (split; [cbn; auto|]; exists (V3 0 0 2); split; [left; cbn; auto|cbn; f_equal; ring]).
  assert (Fa : far_from flat (V3 1 0 2) 2) by (pose proof (flat_far (V3 1 0 2)) as Q; cbn [vz] in Q; rewrite Rabs_right in Q by lra; exact Q).
  assert (T : / 10 ^ 12 <= 1) by (rewrite <- Rinv_1; apply Rinv_le_contravar; [lra|apply pow_R1_Rle; lra]).
  split; [apply flat_right|split; [apply corner_suitable|split; [intros id x; apply (On (corner, raised)); left; reflexivity|split; [exact D|split; [exact Fa|split]]]]].
  - destruct (C108_distance flat flat_search (setLimitDistance 1) _ flat_right Su On) as (v & E & _). exists v. split; [exact E|]. apply (C108_violation flat flat_search 1 _ v flat_right Su On T E). exists (corner, raised), 1%nat, (V3 1 0 0), (V3 1 0 2), 2. split; [left; reflexivity|split; [exact D|split; [exact Fa|lra]]].
  - destruct (C108_distance flat flat_search (setLimitDistance 3) _ flat_right Su On) as (v & E & _). exists v. split; [exact E|]. apply (C108_small flat flat_search 3 _ v flat_right Su On ltac:(lra) E). intros p id d [<- | []] [I|[]]. injection I as <- <-. cbn. lra.
Qed.
(** the hypotheses of the external control are met by the sphere *)
Example C108_nonvacuous_external : exists cs ss ps, Forall2 (fun c s => signed_right (s_on s) (s_out s) (c_signed c)) cs ss /\ ss <> [] /\ ps <> [] /\ (forall p, In p ps -> suitable p) /\
  (forall s, In s ss -> within (10 ^ 12) s (V3 (/ 2 * (vx (V3 (-2) 0 0) + vx (V3 2 0 0))) (/ 2 * (vy (V3 (-2) 0 0) + vy (V3 2 0 0))) (/ 2 * (vz (V3 (-2) 0 0) + vz (V3 2 0 0))))) /\ forall s p id x y, In s ss -> In p ps -> displaced p id x y -> within (10 ^ 12) s y.
Proof.
  exists [Con ball_signed vzero vzero], [Surf ball_on ball_out], [(around, Field (Some around) Point [])]. split; [constructor; [apply ball_right|constructor]|]. split; [discriminate|split; [discriminate|split; [intros p [<- | []]; apply around_suitable|split; [apply centre_within|apply around_within]]]].
Qed.
