(** C98: distance from a surface, with and without sign, and projection on it. *)
From Coq Require Import List Arith Bool Reals Lia Lra.
From Verif Require Import Vec SkdDist SkdDistSpec SkdDistProofs.
Import ListNotations.
Open Scope R_scope.

(** The distance is the one of the nearest point of the surface, if it is within the radius, or the
    maximum double. *)
Theorem C98_distance : forall big closest on p r, search_right on closest ->
  match distance big closest p r with
  | (Some id, d) => exists x, on id x /\ nearest on p x /\ d = Fin (norm (vsub p x)) /\ norm (vsub p x) <= r
  | (None, d) => d = Fin big /\ forall id y, on id y -> r < norm (vsub p y)
  end.
Proof.
  intros big closest on p r Sr. unfold distance, find_closest. specialize (Sr p r). destruct (closest p r) as [(id, h)|].
  - destruct Sr as (x & O & N & -> & R). exists x. auto.
  - split; [reflexivity|exact Sr].
Qed.

(** The distance with sign has the same value, positive on the side of the normal of the surface at the
    nearest point (and on the surface), negative on the other; the normal given has length one and goes
    from the nearest point to the point or back. *)
Theorem C98_signed : forall big corners vnormals tol weights closest on p r id h, search_right on closest -> weights_right on corners weights ->
  closest p r = Some (id, h) -> r <= big -> 0 < tol -> length (vnormals id) = length (corners id) ->
  exists d x m n, signedDistance big corners vnormals tol weights closest p r = (Some id, Fin d, n) /\
    on id x /\ nearest on p x /\ weighted (weights p (corners id)) (corners id) x /\ weighted (weights p (corners id)) (vnormals id) m /\
    Rabs d = norm (vsub p x) /\ (0 <= dot m (vsub p x) -> 0 <= d) /\ (dot m (vsub p x) < 0 -> d < 0) /\
    (tol <= norm (vsub p x) -> exists u, n = Some u /\ norm u = 1 /\ vsub p x = vscale d u) /\
    (norm (vsub p x) < tol -> m <> vzero -> exists u, n = Some u /\ norm u = 1 /\ m = vscale (norm m) u).
Proof.
  intros big corners vnormals tol weights closest on p r id h Sr Wr E Rb T Ln. destruct (foot_nearest corners weights closest on Sr Wr p r id h E) as (W & O & N & Hh & Hr).
  destruct (signed_found big corners vnormals tol weights closest on Sr Wr p r id h E (Rle_trans _ _ _ Hr Rb)) as (d & n & Q & D & U1 & U2).
  set (x := blend (weights p (corners id)) (corners id)) in *. set (m := blend (weights p (corners id)) (vnormals id)) in *. assert (H0 : 0 <= h) by (rewrite Hh; apply norm_ge).
  exists d, x, m, n. split; [exact Q|]. split; [exact O|]. split; [exact N|]. split; [exact W|]. split; [apply blend_weighted; rewrite Ln; apply W|].
  split; [rewrite <- Hh, D; destruct (Rlt_dec (dot m (vsub p x)) 0); [rewrite Rabs_Ropp|]; apply Rabs_right; lra|].
  split; [intros S0; rewrite D; destruct (Rlt_dec (dot m (vsub p x)) 0); lra|]. split.
  - intros S0. rewrite D. destruct (Rlt_dec (dot m (vsub p x)) 0) as [_|C]; [|contradiction]. destruct (Req_dec h 0) as [Z|Z]; [|lra].
    assert (A : Rabs (dot m (vsub p x)) <= 0) by (eapply Rle_trans; [apply schwarz|]; rewrite <- Hh, Z; lra). pose proof (Rabs_pos_lt (dot m (vsub p x))). lra.
  - rewrite <- Hh. split.
    + intros Th. destruct (U1 T Th) as (u & -> & Nu & X). exists u. split; [reflexivity|]. split; [exact Nu|]. rewrite <- X. apply vec_eq; unfold vsub, vscale; cbn; lra.
    + intros Th M0. apply U2; [exact Th|]. intros Z. apply M0. destruct (coord_le m) as (A & B & C). rewrite Z in A, B, C.
      assert (P : forall k, Rabs k <= 0 -> k = 0) by (intros k K; destruct (Req_dec k 0) as [Y|Y]; [exact Y|pose proof (Rabs_pos_lt k Y); lra]). apply vec_eq; apply P; assumption.
Qed.

(** The projected points: when the surface is within the radius of every point, each goes to the nearest
    point of the surface if it is as far as the tolerance of the patch, and within twice the tolerance
    of it otherwise. *)
Definition point_of (q : num * num * num) (v : vec) : Prop := q = (Fin (vx v), Fin (vy v), Fin (vz v)).
Theorem C98_project : forall big corners vnormals tol weights closest on steps l, search_right on closest -> weights_right on corners weights -> 0 < tol < big ->
  (forall p id, (exists x, on id x) -> length (vnormals id) = length (corners id) /\ forall m, weighted (weights p (corners id)) (vnormals id) m -> m <> vzero) ->
  Forall (fun e => snd e < big /\ exists id x, on id x /\ norm (vsub (fst e) x) <= Rmax (snd e) tol) l ->
  exists pts ids radii, projectPoint big corners vnormals tol weights closest (S steps) l = Some (pts, ids, radii) /\
    Forall2 (fun e q => exists x v, nearest on (fst e) x /\ point_of q v /\ (tol <= norm (vsub (fst e) x) -> v = x) /\ norm (vsub v x) <= 2 * tol) l pts /\
    Forall2 (fun e i => exists id x, i = Some id /\ on id x /\ nearest on (fst e) x) l ids.
Proof.
  intros big corners vnormals tol weights closest on steps l Sr Wr (T & Tb) Vn F.
  set (sd := signedDistance big corners vnormals tol weights closest).
  assert (One : Forall (fun e => exists id d n x v, sd (fst e) (Rmax (snd e) tol) = (Some id, Fin d, n) /\ Rabs d < big /\ on id x /\ nearest on (fst e) x /\ point_of (moved_point big (fst e) (Fin d) n) v /\
      (tol <= norm (vsub (fst e) x) -> v = x) /\ norm (vsub v x) <= 2 * tol) l).
  { apply Forall_forall. intros (p, r) I. apply (proj1 (Forall_forall _ _) F) in I. cbn [fst snd] in *. destruct I as (Rb & id0 & y & Oy & Hy).
    assert (Mb : Rmax r tol < big) by (unfold Rmax; destruct (Rle_dec r tol); lra).
    destruct (closest p (Rmax r tol)) as [(id, h)|] eqn:E; [|pose proof (Sr p (Rmax r tol)) as S1; rewrite E in S1; pose proof (S1 id0 y Oy); lra].
    destruct (foot_nearest corners weights closest on Sr Wr p _ id h E) as (W & O & N & Hh & Hr). destruct (Vn p id (ex_intro _ _ O)) as (Ln & Vm).
    destruct (signed_found big corners vnormals tol weights closest on Sr Wr p _ id h E) as (d & n & Q & D & U1 & U2); [lra|].
    set (x := blend (weights p (corners id)) (corners id)) in *. set (m := blend (weights p (corners id)) (vnormals id)) in *. assert (H0 : 0 <= h) by (rewrite Hh; apply norm_ge).
    assert (Ad : Rabs d = h) by (rewrite D; destruct (Rlt_dec (dot m (vsub p x)) 0); [rewrite Rabs_Ropp|]; apply Rabs_right; lra).
    destruct (Rlt_le_dec h tol) as [Ht|Ht].
    - assert (Nm : norm m <> 0).
      { intros Z. assert (M0 : m <> vzero) by (apply Vm; apply blend_weighted; rewrite Ln; apply W). apply M0. destruct (coord_le m) as (A & B & C). rewrite Z in A, B, C.
        assert (P : forall k, Rabs k <= 0 -> k = 0) by (intros k K; destruct (Req_dec k 0) as [Y|Y]; [exact Y|pose proof (Rabs_pos_lt k Y); lra]). apply vec_eq; apply P; assumption. }
      destruct (U2 Ht Nm) as (u & -> & Nu & _). exists id, d, (Some u), x, (vsub p (vscale d u)). split; [exact Q|]. split; [lra|]. split; [exact O|]. split; [exact N|].
      split; [apply moved_fin; [exact Nu|lra]|]. split; [intros X; lra|].
      replace (vsub (vsub p (vscale d u)) x) with (vsub (vsub p x) (vscale d u)) by (apply vec_eq; unfold vsub; cbn; ring). eapply Rle_trans; [apply norm_step; exact Nu|]. rewrite <- Hh, Ad. lra.
    - destruct (U1 T Ht) as (u & -> & Nu & X). exists id, d, (Some u), x, (vsub p (vscale d u)). split; [exact Q|]. split; [lra|]. split; [exact O|]. split; [exact N|].
      split; [apply moved_fin; [exact Nu|lra]|]. split; [intros _; exact X|]. rewrite X. replace (norm (vsub x x)) with 0; [lra|]. unfold norm, dot, vsub. cbn.
      replace ((vx x - vx x) * (vx x - vx x) + (vy x - vy x) * (vy x - vy x) + (vz x - vz x) * (vz x - vz x)) with 0 by ring. rewrite sqrt_0. reflexivity. }
  clear F. unfold projectPoint. destruct l as [|e0 l0]; [exists [], [], []; split; [reflexivity|]; split; constructor|]. set (l := e0 :: l0) in *. clearbody l.
  cbn [search]. cbv zeta. fold sd. rewrite !map_map. cbn [fst snd].
  assert (Mx : exists m, fold_right (fun e m => larger (fabs (snd (fst (snd e)))) m) (Fin 0) (map (fun e => (fst e, sd (fst e) (Rmax (snd e) tol))) l) = Fin m /\ (m < big)).
  { clear - One T Tb. induction l as [|e l IH]; cbn [map fold_right]; [exists 0; split; [reflexivity|lra]|]. destruct (proj1 (Forall_cons_iff _ _ _) One) as ((id & d & n & x & v & Q & Dn & _) & Fl).
    destruct (IH Fl) as (m & -> & M). cbn [fst snd]. rewrite Q. cbn [fst snd fabs larger]. eexists. split; [reflexivity|]. unfold Rmax. destruct (Rle_dec (Rabs d) m); lra. }
  destruct Mx as (m & -> & M). cbn [is_big]. destruct (Req_EM_T m big) as [Z|Z]; [lra|]. eexists. eexists. eexists. split; [reflexivity|]. rewrite !map_map. cbn [fst snd]. clear - One. split.
  - induction l as [|e l IH]; cbn [map]; [constructor|]. destruct (proj1 (Forall_cons_iff _ _ _) One) as ((id & d & n & x & v & Q & _ & O & N & P & V1 & V2) & Fl). constructor; [|apply IH; exact Fl].
    rewrite Q. cbn [fst snd]. exists x, v. auto.
  - induction l as [|e l IH]; cbn [map]; [constructor|]. destruct (proj1 (Forall_cons_iff _ _ _) One) as ((id & d & n & x & v & Q & _ & O & N & P & V1 & V2) & Fl). constructor; [|apply IH; exact Fl].
    rewrite Q. cbn [fst snd]. exists id, x. auto.
Qed.

(** ** A segment *)
Definition on_seg (id : nat) (x : vec) : Prop := id = 0%nat /\ 0 <= vx x <= 1 /\ vy x = 0 /\ vz x = 0.
Definition clamp (t : R) : R := Rmax 0 (Rmin 1 t).
Definition seg_foot (p : vec) : vec := V3 (clamp (vx p)) 0 0.
Definition seg_weights (p : vec) (l : list vec) : list R := [1 - clamp (vx p); clamp (vx p)].
Definition seg_corners (id : nat) : list vec := [V3 0 0 0; V3 1 0 0].
Definition seg_normals (id : nat) : list vec := [V3 0 1 0; V3 0 1 0].
Definition seg_closest (p : vec) (r : R) : option (nat * R) := let h := norm (vsub p (seg_foot p)) in if Rle_dec h r then Some (0%nat, h) else None.
Lemma clamp_in : forall t, 0 <= clamp t <= 1 /\ forall y, 0 <= y <= 1 -> (t - clamp t) * (t - clamp t) <= (t - y) * (t - y).
Proof.
  intros t. unfold clamp, Rmax, Rmin. destruct (Rle_dec 1 t) as [A|A].
  - destruct (Rle_dec 0 1) as [B|B]; [|lra]. split; [lra|]. intros y Y. assert (0 <= (1 - y) * (2 * t - 1 - y)) by (apply Rmult_le_pos; lra). lra.
  - destruct (Rle_dec 0 t) as [B|B]; (split; [lra|]); intros y Y.
    + pose proof (Rle_0_sqr (t - y)) as Q. unfold Rsqr in Q. lra.
    + assert (0 <= y * (y - 2 * t)) by (apply Rmult_le_pos; lra). lra.
Qed.
Lemma seg_near : forall p, on_seg 0 (seg_foot p) /\ forall id y, on_seg id y -> norm (vsub p (seg_foot p)) <= norm (vsub p y).
Proof.
  intros p. destruct (clamp_in (vx p)) as (A & B). split; [unfold on_seg, seg_foot; cbn; split; [reflexivity|lra]|]. intros id y (_ & X & Y & Z). apply sqrt_le_1_alt. unfold dot, vsub, seg_foot. cbn. rewrite Y, Z. specialize (B (vx y) X). lra.
Qed.
Lemma seg_search : search_right on_seg seg_closest.
Proof.
  intros p r. unfold seg_closest. cbv zeta. destruct (seg_near p) as (O & N). destruct (Rle_dec (norm (vsub p (seg_foot p))) r) as [H|H].
  - exists (seg_foot p). split; [exact O|]. split; [split; [exists 0%nat; exact O|exact N]|]. split; [reflexivity|exact H].
  - intros id y Y. specialize (N id y Y). lra.
Qed.
Lemma seg_wr : weights_right on_seg seg_corners seg_weights.
Proof.
  intros p id (x & I & _). subst id. destruct (seg_near p) as (O & N). exists (seg_foot p). split; [|split; [exact O|intros y Y; apply (N 0%nat y Y)]]. unfold weighted, seg_corners, seg_weights, seg_foot. cbn. repeat split; ring.
Qed.

(** Nothing within the radius: the distance with sign is not the maximum double that is documented. *)
Theorem C98_lost_refuted : exists big corners vnormals tol weights closest on p r, search_right on closest /\ weights_right on corners weights /\ closest p r = None /\
  snd (fst (signedDistance big corners vnormals tol weights closest p r)) <> Fin big.
Proof.
  exists 1000, seg_corners, seg_normals, (/ 1000), seg_weights, seg_closest, on_seg, (V3 0 10 0), 1. split; [exact seg_search|]. split; [exact seg_wr|].
  assert (E : seg_closest (V3 0 10 0) 1 = None).
  { unfold seg_closest. cbv zeta. destruct (Rle_dec (norm (vsub (V3 0 10 0) (seg_foot (V3 0 10 0)))) 1) as [H|H]; [|reflexivity]. destruct (coord_le (vsub (V3 0 10 0) (seg_foot (V3 0 10 0)))) as (_ & Y & _). cbn [vsub seg_foot vy] in Y. rewrite Rabs_right in Y by lra. lra. }
  split; [exact E|]. rewrite signed_lost; [|exact E|lra]. discriminate.
Qed.
(** The radius is not enlarged until the surface is found: the point is not a number, however many steps
    are allowed. *)
Theorem C98_enlarge_refuted : exists big corners vnormals tol weights closest on p r, search_right on closest /\ weights_right on corners weights /\ 0 < tol < big /\
  (exists id x, on id x /\ norm (vsub p x) < big) /\
  forall steps, exists radii, projectPoint big corners vnormals tol weights closest (S steps) [(p, r)] = Some ([(NaN, NaN, NaN)], [None], radii).
Proof.
  exists 1000, seg_corners, seg_normals, (/ 1000), seg_weights, seg_closest, on_seg, (V3 0 10 0), 1. split; [exact seg_search|]. split; [exact seg_wr|]. split; [lra|].
  assert (E : seg_closest (V3 0 10 0) 1 = None).
  { unfold seg_closest. cbv zeta. destruct (Rle_dec (norm (vsub (V3 0 10 0) (seg_foot (V3 0 10 0)))) 1) as [H|H]; [|reflexivity]. destruct (coord_le (vsub (V3 0 10 0) (seg_foot (V3 0 10 0)))) as (_ & Y & _). cbn [vsub seg_foot vy] in Y. rewrite Rabs_right in Y by lra. lra. }
  split.
  - exists 0%nat, (V3 0 0 0). split; [unfold on_seg; cbn; split; [reflexivity|lra]|]. apply Rle_lt_trans with 10; [|lra]. apply norm_le_sq; [lra|]. unfold dot, vsub. cbn. lra.
  - intros steps. unfold projectPoint. cbn [map fst snd]. replace (Rmax 1 (/ 1000)) with 1 by (unfold Rmax; destruct (Rle_dec 1 (/ 1000)); lra). cbn [search map fst snd fold_right]. cbv zeta.
    rewrite signed_lost by (first [exact E|lra]). cbn [fst snd fabs larger is_big at_least_big map]. eexists. unfold moved_point, fcoord, vzero. cbn [vx vy vz fmul]. destruct (Req_EM_T 0 0) as [_|C]; [|lra]. reflexivity.
Qed.
(** The radii given as an array of input are changed. *)
Theorem C98_radii_refuted : exists big corners vnormals tol weights closest on p r pts ids r', search_right on closest /\
  projectPoint big corners vnormals tol weights closest 1 [(p, r)] = Some (pts, ids, [r']) /\ r' <> r.
Proof.
  assert (E : seg_closest (V3 0 0 0) (/ 1000) = Some (0%nat, norm (vsub (V3 0 0 0) (seg_foot (V3 0 0 0))))).
  { unfold seg_closest. cbv zeta. destruct (Rle_dec (norm (vsub (V3 0 0 0) (seg_foot (V3 0 0 0)))) (/ 1000)) as [H|H]; [reflexivity|]. destruct H. apply norm_le_sq; [lra|]. unfold dot, vsub, seg_foot, clamp, Rmax, Rmin. cbn. destruct (Rle_dec 1 0); [lra|]. destruct (Rle_dec 0 0); lra. }
  assert (Z : norm (vsub (V3 0 0 0) (seg_foot (V3 0 0 0))) <= / 1000) by (pose proof (seg_search (V3 0 0 0) (/ 1000)) as H; rewrite E in H; destruct H as (x & _ & _ & _ & H); exact H).
  destruct (signed_found 1000 seg_corners seg_normals (/ 1000) seg_weights seg_closest on_seg seg_search seg_wr (V3 0 0 0) (/ 1000) _ _ E) as (d & n & Q & D & _ & _); [lra|].
  exists 1000, seg_corners, seg_normals, (/ 1000), seg_weights, seg_closest, on_seg, (V3 0 0 0), 0. eexists. eexists. exists (/ 1000). split; [exact seg_search|]. split; [|lra].
  unfold projectPoint. cbn [map fst snd]. replace (Rmax 0 (/ 1000)) with (/ 1000) by (unfold Rmax; destruct (Rle_dec 0 (/ 1000)); lra). cbn [search map fst snd fold_right]. cbv zeta. rewrite Q. cbn [fst snd fabs larger is_big at_least_big].
  assert (Ad : Rabs d <= / 1000).
  { rewrite D. pose proof (norm_ge (vsub (V3 0 0 0) (seg_foot (V3 0 0 0)))). destruct (Rlt_dec _ 0); [rewrite Rabs_Ropp|]; rewrite Rabs_right; lra. }
  destruct (Req_EM_T (Rmax (Rabs d) 0) 1000) as [C|C]; [unfold Rmax in C; destruct (Rle_dec (Rabs d) 0); lra|]. destruct (Rle_dec 1000 (Rabs d)) as [C'|C']; [lra|]. reflexivity.
Qed.

(** The point (0,2,0), two away from the segment. *)
Example C98_nonvacuous : search_right on_seg seg_closest /\ weights_right on_seg seg_corners seg_weights /\
  (forall p id, (exists x, on_seg id x) -> length (seg_normals id) = length (seg_corners id) /\ forall m, weighted (seg_weights p (seg_corners id)) (seg_normals id) m -> m <> vzero) /\
  (exists id x, on_seg id x /\ norm (vsub (V3 0 2 0) x) <= Rmax 5 (/ 1000)) /\ exists id h, seg_closest (V3 0 2 0) 5 = Some (id, h).
Proof.
  split; [exact seg_search|]. split; [exact seg_wr|].
  assert (N5 : norm (vsub (V3 0 2 0) (V3 0 0 0)) <= 5) by (apply norm_le_sq; [lra|]; unfold dot, vsub; cbn; lra).
  assert (O : on_seg 0 (V3 0 0 0)) by (unfold on_seg; cbn; split; [reflexivity|lra]). split; [|split].
  - intros p id _. split; [reflexivity|]. intros m (_ & _ & Y & _) ->. unfold seg_weights, seg_normals in Y. cbn in Y. lra.
  - exists 0%nat, (V3 0 0 0). split; [exact O|]. unfold Rmax. destruct (Rle_dec 5 (/ 1000)); lra.
  - pose proof (seg_search (V3 0 2 0) 5) as H. destruct (seg_closest (V3 0 2 0) 5) as [(id, h)|]; [exists id, h; reflexivity|]. specialize (H 0%nat _ O). lra.
Qed.

Print Assumptions C98_distance.
Print Assumptions C98_signed.
Print Assumptions C98_project.
Print Assumptions C98_lost_refuted.
Print Assumptions C98_enlarge_refuted.
Print Assumptions C98_radii_refuted.
