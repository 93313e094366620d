(** C162-C164: stencils of finite volumes. *)
From Coq Require Import Reals List ZArith Bool Lra Lia.
From Verif Require Import Vec FvSten FvStenSpec.
Import ListNotations.
Open Scope R_scope.

Lemma vext : forall a b : vec, vx a = vx b -> vy a = vy b -> vz a = vz b -> a = b.
Proof. intros [] []; cbn; intros; subst; reflexivity. Qed.
Ltac vring := apply vext; unfold vadd, vsub, vscale, vzero, dot; cbn; ring.

(** ** Algebra of stencils *)
Lemma fold_const : forall (l : list (Z * vec)) u a, fold_right (fun e a => vadd (vscale (u (fst e)) (snd e)) a) a l = vadd a (fold_right (fun e a => vadd (vscale (u (fst e)) (snd e)) a) vzero l).
Proof. induction l as [|e l IH]; intros; cbn; [vring|]. rewrite IH. vring. Qed.
Lemma gradient_plus : forall s t u, gradient_of (vplus s t) u = vadd (gradient_of s u) (gradient_of t u).
Proof.
  intros [l c] [l' c'] u. unfold gradient_of, vplus. cbn [items constant]. rewrite fold_right_app. rewrite (fold_const l), (fold_const l'), (fold_const l u c), (fold_const l' u c'). vring.
Qed.
Lemma gradient_const : forall l c k u, gradient_of (Stencil l (vadd c k)) u = vadd (gradient_of (Stencil l c) u) k.
Proof. intros. unfold gradient_of. cbn [items constant]. rewrite (fold_const l u (vadd c k)), (fold_const l u c). vring. Qed.
Lemma value_plus : forall s t u, value_of (splus s t) u = value_of s u + value_of t u.
Proof.
  intros [l c] [l' c'] u. unfold value_of, splus. cbn [items constant]. rewrite fold_right_app. induction l as [|e l IH]; cbn; [|rewrite IH; ring]. induction l' as [|e l' IH]; cbn; [reflexivity|rewrite IH; ring].
Qed.
Lemma gradient_times : forall k s u, gradient_of (vtimes k s) u = vscale k (gradient_of s u).
Proof. intros k [l c] u. unfold gradient_of, vtimes, through. cbn. induction l as [|e l IH]; cbn; [reflexivity|]. rewrite IH. vring. Qed.
Lemma value_times : forall k s u, value_of (stimes k s) u = k * value_of s u.
Proof. intros k [l c] u. unfold value_of, stimes, through. cbn. induction l as [|e l IH]; cbn; [reflexivity|]. rewrite IH. ring. Qed.
Lemma value_along : forall v s u, value_of (along v s) u = dot (gradient_of s u) v.
Proof. intros v [l c] u. unfold value_of, gradient_of, along, through. cbn. induction l as [|e l IH]; cbn; [reflexivity|]. rewrite IH. unfold dot, vadd, vscale. cbn. ring. Qed.
Lemma gradient_vec : forall v s u, gradient_of (times_vec v s) u = vscale (value_of s u) v.
Proof. intros v [l c] u. unfold value_of, gradient_of, times_vec, through. cbn. induction l as [|e l IH]; cbn; [reflexivity|]. rewrite IH. vring. Qed.
Lemma gradient_minus : forall s t u, gradient_of (vminus s t) u = vsub (gradient_of s u) (gradient_of t u).
Proof. intros. unfold vminus. rewrite gradient_plus, gradient_times. vring. Qed.
Lemma value_minus : forall s t u, value_of (sminus s t) u = value_of s u - value_of t u.
Proof. intros. unfold sminus. rewrite value_plus, value_times. ring. Qed.
Lemma value_div : forall k s u, value_of (through (fun x => x / k) s) u = value_of s u / k.
Proof. intros k [l c] u. unfold value_of, through. cbn. induction l as [|e l IH]; cbn; [reflexivity|]. rewrite IH. unfold Rdiv. ring. Qed.
Lemma value_one : forall i u, value_of (Stencil [(i, 1)] 0) u = u i.
Proof. intros. unfold value_of. cbn. ring. Qed.
Lemma gradient_complement : forall c l u, gradient_of (complement c (Stencil l vzero)) u = fold_right (fun e a => vadd (vscale (u (fst e) - u c) (snd e)) a) vzero l.
Proof.
  intros c l u. unfold gradient_of, complement. cbn [items constant]. rewrite fold_right_app. cbn [fold_right fst snd].
  assert (G : forall k, fold_right (fun e a => vadd (vscale (u (fst e)) (snd e)) a) (vadd (vscale (u c) (vscale (-1) (vadd k (fold_right (fun e a => vadd (snd e) a) vzero l)))) vzero) l
    = vadd (vscale (- u c) k) (fold_right (fun e a => vadd (vscale (u (fst e) - u c) (snd e)) a) vzero l)).
  { induction l as [|e l IH]; intro k; cbn; [vring|]. replace (vadd k (vadd (snd e) (fold_right (fun e a => vadd (snd e) a) vzero l))) with (vadd (vadd k (snd e)) (fold_right (fun e a => vadd (snd e) a) vzero l)) by vring. rewrite IH. vring. }
  specialize (G vzero). replace (vadd vzero (fold_right (fun (e : Z * vec) (a : vec) => vadd (snd e) a) vzero l)) with (fold_right (fun (e : Z * vec) (a : vec) => vadd (snd e) a) vzero l) in G by vring. rewrite G. vring.
Qed.

(** ** Cells *)
(** C162: the gradient of a constant is zero. *)
Theorem C162_constant : forall centroid neighs c s k, cell_gradient centroid neighs c = Some s -> gradient_of s (fun _ => k) = vzero.
Proof.
  intros centroid neighs c s k H. unfold cell_gradient in H. destruct (forallb _ _); [|discriminate H]. destruct (weights _) as [ws|]; [|discriminate H]. injection H as <-. rewrite gradient_complement. induction (combine neighs ws) as [|e l IH]; cbn; [reflexivity|]. rewrite IH. vring.
Qed.
Print Assumptions C162_constant.
Lemma moment_sym : forall x y pw, moment x y pw = moment y x pw.
Proof. intros x y. unfold moment. induction pw as [|e r IH]; cbn; [reflexivity|]. rewrite IH. ring. Qed.
Lemma row_sum : forall b r pw, fold_right (fun (e : vec * R) a => dot b (fst e) * (snd e * dot r (fst e)) + a) 0 pw =
  vx r * (moment vx vx pw * vx b + moment vy vx pw * vy b + moment vz vx pw * vz b) + vy r * (moment vy vx pw * vx b + moment vy vy pw * vy b + moment vz vy pw * vz b) + vz r * (moment vz vx pw * vx b + moment vz vy pw * vy b + moment vz vz pw * vz b).
Proof. intros b r. unfold moment. induction pw as [|[d w] l IH]; cbn; [ring|]. rewrite IH. unfold dot. ring. Qed.
Definition positive (pw : list (vec * R)) : Prop := forall e, In e pw -> 0 < snd e.
Lemma square_zero : forall b pw, positive pw -> 0 <= fold_right (fun (e : vec * R) a => dot b (fst e) * (snd e * dot b (fst e)) + a) 0 pw /\
  (fold_right (fun (e : vec * R) a => dot b (fst e) * (snd e * dot b (fst e)) + a) 0 pw = 0 -> forall e, In e pw -> dot b (fst e) = 0).
Proof.
  intros b. induction pw as [|[d w] l IH]; intro P; cbn; [split; [lra|intros _ e []]|]. destruct IH as (I1 & I2); [intros e I; apply P; right; exact I|]. assert (W : 0 < w) by (apply (P (d, w)); left; reflexivity).
  assert (Q : dot b d * (w * dot b d) = w * Rsqr (dot b d)) by (unfold Rsqr; ring). rewrite Q. pose proof (Rle_0_sqr (dot b d)) as S0. assert (0 <= w * Rsqr (dot b d)) by (apply Rmult_le_pos; lra). split; [lra|].
  intros Z e [<- | I]; [|apply I2; [lra|exact I]]. cbn. apply Rsqr_0_uniq. apply Rmult_eq_reg_l with w; lra.
Qed.
Lemma flat_missing : forall x pw, flat x (map fst pw) -> missing x pw = true /\ (forall y, moment x y pw = 0) /\ regular x pw = 1.
Proof.
  intros x pw F. assert (M : missing x pw = true). { unfold missing. apply forallb_forall. intros e I. rewrite (F (fst e)) by (apply in_map; exact I). rewrite Rabs_R0. destruct (Rlt_dec 0 epsilon) as [|N]; [reflexivity|]. exfalso. apply N. unfold epsilon. apply Rinv_0_lt_compat. apply pow_lt. lra. }
  split; [exact M|]. split; [|unfold regular; rewrite M; reflexivity]. intro y. clear M. unfold moment. induction pw as [|e r IH]; cbn; [reflexivity|]. rewrite IH by (intros d I; apply F; right; exact I). rewrite (F (fst e)) by (left; reflexivity). ring.
Qed.
Lemma seen_there : forall x pw, seen x (map fst pw) -> missing x pw = false /\ regular x pw = 0.
Proof.
  intros x pw (d & I & L). assert (M : missing x pw = false). { destruct (missing x pw) eqn:E; [|reflexivity]. unfold missing in E. rewrite forallb_forall in E. apply in_map_iff in I. destruct I as (e & <- & I). specialize (E e I). destruct (Rlt_dec (Rabs (x (fst e))) epsilon); [unfold epsilon in *; lra|discriminate E]. }
  split; [exact M|]. unfold regular. rewrite M. reflexivity.
Qed.
(** a symmetric matrix with no kernel has a determinant *)
Lemma det_nonzero : forall a b c d e f : R,
  (forall v, a * vx v + b * vy v + c * vz v = 0 -> b * vx v + d * vy v + e * vz v = 0 -> c * vx v + e * vy v + f * vz v = 0 -> v = vzero) ->
  a * (d * f - e * e) - b * (b * f - e * c) + c * (b * e - d * c) <> 0.
Proof.
  intros a b c d e f K D.
  assert (C0 := K (V3 (d * f - e * e) (c * e - b * f) (b * e - c * d)) ltac:(cbn; nra) ltac:(cbn; ring) ltac:(cbn; ring)).
  assert (C1 := K (V3 (c * e - b * f) (a * f - c * c) (b * c - a * e)) ltac:(cbn; ring) ltac:(cbn; nra) ltac:(cbn; ring)).
  assert (C2 := K (V3 (b * e - c * d) (b * c - a * e) (a * d - b * b)) ltac:(cbn; ring) ltac:(cbn; ring) ltac:(cbn; nra)).
  injection C0 as M0 M1 M2. injection C1 as _ M3 M4. injection C2 as _ _ M5.
  assert (V0 := K (V3 b (- a) 0) ltac:(cbn; ring) ltac:(cbn; lra) ltac:(cbn; lra)). assert (V1 := K (V3 0 e (- d)) ltac:(cbn; lra) ltac:(cbn; ring) ltac:(cbn; lra)). assert (V2 := K (V3 f 0 (- c)) ltac:(cbn; lra) ltac:(cbn; lra) ltac:(cbn; ring)).
  injection V0 as B0 A0. injection V1 as E0 D0. injection V2 as F0 CC0.
  assert (X := K (V3 1 0 0) ltac:(cbn; lra) ltac:(cbn; lra) ltac:(cbn; lra)). injection X as X. lra.
Qed.
Lemma weighted_fst : forall ds, map fst (map weighted ds) = ds.
Proof. induction ds as [|d r IH]; cbn; [reflexivity|rewrite IH; reflexivity]. Qed.
Lemma weighted_positive : forall ds, positive (map weighted ds).
Proof. intros ds e I. apply in_map_iff in I. destruct I as (d & <- & _). cbn. apply Rinv_0_lt_compat. unfold Rpower. apply exp_pos. Qed.
Lemma combine_sum : forall centroid c (g : vec * R -> vec) neighs a b u, linear_on (c :: neighs) centroid a b u ->
  fold_right (fun (e : Z * vec) acc => vadd (vscale (u (fst e) - u c) (snd e)) acc) vzero (combine neighs (map g (map weighted (map (fun n => vsub (centroid n) (centroid c)) neighs)))) =
  fold_right (fun (e : vec * R) acc => vadd (vscale (dot b (fst e)) (g e)) acc) vzero (map weighted (map (fun n => vsub (centroid n) (centroid c)) neighs)).
Proof.
  intros centroid c g neighs a b u L. induction neighs as [|n r IH]; [reflexivity|]. cbn [map combine fold_right fst snd]. rewrite IH by (intros x [<- | I]; apply L; [left; reflexivity|right; right; exact I]).
  rewrite (L n) by (right; left; reflexivity). rewrite (L c) by (left; reflexivity). unfold weighted at 1 3. cbn [fst]. f_equal. f_equal. unfold dot, vsub. cbn. ring.
Qed.
Lemma comps : forall b r0 r1 r2 pw, fold_right (fun (e : vec * R) acc => vadd (vscale (dot b (fst e)) (vscale (snd e) (V3 (dot r0 (fst e)) (dot r1 (fst e)) (dot r2 (fst e))))) acc) vzero pw =
  V3 (fold_right (fun (e : vec * R) a => dot b (fst e) * (snd e * dot r0 (fst e)) + a) 0 pw) (fold_right (fun (e : vec * R) a => dot b (fst e) * (snd e * dot r1 (fst e)) + a) 0 pw) (fold_right (fun (e : vec * R) a => dot b (fst e) * (snd e * dot r2 (fst e)) + a) 0 pw).
Proof. intros. induction pw as [|e r IH]; cbn [fold_right]; [reflexivity|]. rewrite IH. reflexivity. Qed.
(** the algebra: e is one where the matrix has a zero row, and else zero *)
Lemma solve : forall s00 s01 s02 s11 s12 s22 e0 e1 e2 bx by_ bz : R,
  (e0 = 0 \/ (e0 = 1 /\ s00 = 0 /\ s01 = 0 /\ s02 = 0)) -> (e1 = 0 \/ (e1 = 1 /\ s01 = 0 /\ s11 = 0 /\ s12 = 0)) -> (e2 = 0 \/ (e2 = 1 /\ s02 = 0 /\ s12 = 0 /\ s22 = 0)) ->
  let a00 := s00 + e0 in let a11 := s11 + e1 in let a22 := s22 + e2 in
  let det := a00 * (a11 * a22 - s12 * s12) - s01 * (s01 * a22 - s12 * s02) + s02 * (s01 * s12 - a11 * s02) in det <> 0 ->
  let t0 := s00 * bx + s01 * by_ + s02 * bz in let t1 := s01 * bx + s11 * by_ + s12 * bz in let t2 := s02 * bx + s12 * by_ + s22 * bz in
  (a11 * a22 - s12 * s12) * / det * t0 + - (s01 * a22 - s12 * s02) * / det * t1 + (s01 * s12 - s02 * a11) * / det * t2 = (1 - e0) * bx /\
  - (s01 * a22 - s02 * s12) * / det * t0 + (a00 * a22 - s02 * s02) * / det * t1 + - (a00 * s12 - s02 * s01) * / det * t2 = (1 - e1) * by_ /\
  (s01 * s12 - s02 * a11) * / det * t0 + - (a00 * s12 - s01 * s02) * / det * t1 + (a00 * a11 - s01 * s01) * / det * t2 = (1 - e2) * bz.
Proof.
  intros s00 s01 s02 s11 s12 s22 e0 e1 e2 bx by_ bz H0 H1 H2. cbn zeta. intro D. pose proof (Rinv_r _ D) as I. revert I. generalize (/ ((s00 + e0) * ((s11 + e1) * (s22 + e2) - s12 * s12) - s01 * (s01 * (s22 + e2) - s12 * s02) + s02 * (s01 * s12 - (s11 + e1) * s02))). clear D. intros k I.
  assert (T : forall x y, x = ((s00 + e0) * ((s11 + e1) * (s22 + e2) - s12 * s12) - s01 * (s01 * (s22 + e2) - s12 * s02) + s02 * (s01 * s12 - (s11 + e1) * s02)) * k * y -> x = y) by (intros x y E; rewrite E, I; ring). clear I.
  destruct H0 as [-> | (-> & -> & -> & ->)]; destruct H1 as [-> | (-> & ? & -> & ?)]; destruct H2 as [-> | (-> & ? & ? & ->)]; subst; (split; [|split]); apply T; ring.
Qed.
(** C162: the gradient of a linear field is its slope, in all directions in which there are neighbours. *)
Theorem C162_linear : forall centroid neighs c a b u, linear_on (c :: neighs) centroid a b u -> (forall n, In n neighs -> centroid n <> centroid c) ->
  let ds := map (fun n => vsub (centroid n) (centroid c)) neighs in well_placed ds ->
  exists s, cell_gradient centroid neighs c = Some s /\ let g := gradient_of s u in
  (seen vx ds -> vx g = vx b) /\ (flat vx ds -> vx g = 0) /\ (seen vy ds -> vy g = vy b) /\ (flat vy ds -> vy g = 0) /\ (seen vz ds -> vz g = vz b) /\ (flat vz ds -> vz g = 0).
Proof.
  intros centroid neighs c a b u L NE ds (HX & HY & HZ & K). set (pw := map weighted ds) in *. assert (PF : map fst pw = ds) by apply weighted_fst. assert (PP : positive pw) by apply weighted_positive.
  rewrite <- PF in HX, HY, HZ, K.
  assert (CX : regular vx pw = 0 \/ (regular vx pw = 1 /\ moment vx vx pw = 0 /\ moment vy vx pw = 0 /\ moment vz vx pw = 0)).
  { destruct HX as [F|F]; [right; destruct (flat_missing _ _ F) as (_ & M & ->); rewrite (moment_sym vy vx), (moment_sym vz vx), !M; repeat split|left; apply (seen_there _ _ F)]. }
  assert (CY : regular vy pw = 0 \/ (regular vy pw = 1 /\ moment vy vx pw = 0 /\ moment vy vy pw = 0 /\ moment vz vy pw = 0)).
  { destruct HY as [F|F]; [right; destruct (flat_missing _ _ F) as (_ & M & ->); rewrite (moment_sym vz vy), !M; repeat split|left; apply (seen_there _ _ F)]. }
  assert (CZ : regular vz pw = 0 \/ (regular vz pw = 1 /\ moment vz vx pw = 0 /\ moment vz vy pw = 0 /\ moment vz vz pw = 0)).
  { destruct HZ as [F|F]; [right; destruct (flat_missing _ _ F) as (_ & M & ->); rewrite !M; repeat split|left; apply (seen_there _ _ F)]. }
  set (s00 := moment vx vx pw) in *. set (s01 := moment vy vx pw) in *. set (s02 := moment vz vx pw) in *. set (s11 := moment vy vy pw) in *. set (s12 := moment vz vy pw) in *. set (s22 := moment vz vz pw) in *.
  set (e0 := regular vx pw) in *. set (e1 := regular vy pw) in *. set (e2 := regular vz pw) in *.
  assert (D : (s00 + e0) * ((s11 + e1) * (s22 + e2) - s12 * s12) - s01 * (s01 * (s22 + e2) - s12 * s02) + s02 * (s01 * s12 - (s11 + e1) * s02) <> 0).
  { apply det_nonzero. intros v A0 A1 A2. pose proof (square_zero v pw PP) as (Q0 & Q1). rewrite row_sum in Q0, Q1. fold s00 s01 s02 s11 s12 s22 in Q0, Q1.
    assert (E0 : 0 <= e0) by (destruct CX as [-> | (-> & _)]; lra). assert (E1 : 0 <= e1) by (destruct CY as [-> | (-> & _)]; lra). assert (E2 : 0 <= e2) by (destruct CZ as [-> | (-> & _)]; lra).
    assert (N0 : 0 <= e0 * Rsqr (vx v)) by (apply Rmult_le_pos; [exact E0|apply Rle_0_sqr]). assert (N1 : 0 <= e1 * Rsqr (vy v)) by (apply Rmult_le_pos; [exact E1|apply Rle_0_sqr]). assert (N2 : 0 <= e2 * Rsqr (vz v)) by (apply Rmult_le_pos; [exact E2|apply Rle_0_sqr]).
    match type of Q0 with 0 <= ?q => set (quad := q) in * end.
    assert (T : quad + e0 * Rsqr (vx v) + e1 * Rsqr (vy v) + e2 * Rsqr (vz v) = 0).
    { transitivity (vx v * ((s00 + e0) * vx v + s01 * vy v + s02 * vz v) + vy v * (s01 * vx v + (s11 + e1) * vy v + s12 * vz v) + vz v * (s02 * vx v + s12 * vy v + (s22 + e2) * vz v)); [unfold quad, Rsqr; ring|]. rewrite A0, A1, A2. ring. }
    assert (QZ : quad = 0) by lra. assert (X0 : e0 * Rsqr (vx v) = 0) by lra. assert (X1 : e1 * Rsqr (vy v) = 0) by lra. assert (X2 : e2 * Rsqr (vz v) = 0) by lra.
    apply K.
    - intro F. destruct (flat_missing _ _ F) as (_ & _ & E). fold e0 in E. rewrite E in X0. apply Rsqr_0_uniq. lra.
    - intro F. destruct (flat_missing _ _ F) as (_ & _ & E). fold e1 in E. rewrite E in X1. apply Rsqr_0_uniq. lra.
    - intro F. destruct (flat_missing _ _ F) as (_ & _ & E). fold e2 in E. rewrite E in X2. apply Rsqr_0_uniq. lra.
    - intros d I. apply in_map_iff in I. destruct I as (e & <- & I). apply Q1; assumption. }
  unfold cell_gradient. fold ds. fold pw.
  assert (FB : forallb (fun d => if Req_EM_T (norm d) 0 then false else true) ds = true).
  { apply forallb_forall. intros d I. unfold ds in I. apply in_map_iff in I. destruct I as (n & <- & I). destruct (Req_EM_T (norm (vsub (centroid n) (centroid c))) 0) as [Z|]; [|reflexivity]. exfalso. apply (NE n I). unfold norm in Z. apply sqrt_eq_0 in Z; [|unfold dot; nra]. unfold dot, vsub in Z. cbn in Z.
    assert (SX := Rle_0_sqr (vx (centroid n) - vx (centroid c))). assert (SY := Rle_0_sqr (vy (centroid n) - vy (centroid c))). assert (SZ := Rle_0_sqr (vz (centroid n) - vz (centroid c))). unfold Rsqr in SX, SY, SZ. apply vext; apply Rminus_diag_uniq; apply Rsqr_0_uniq; unfold Rsqr; lra. }
  rewrite FB. unfold weights. rewrite (moment_sym vx vy), (moment_sym vx vz), (moment_sym vy vz). fold s00 s01 s02 s11 s12 s22 e0 e1 e2.
  destruct (Req_EM_T _ 0) as [Z|_]; [contradiction|]. eexists. split; [reflexivity|]. cbn zeta. rewrite gradient_complement. unfold pw, ds. rewrite (combine_sum centroid c _ neighs a b u L). fold ds. fold pw. rewrite comps, !row_sum. fold s00 s01 s02 s11 s12 s22. cbn [vx vy vz].
  destruct (solve s00 s01 s02 s11 s12 s22 e0 e1 e2 (vx b) (vy b) (vz b) CX CY CZ D) as (R0 & R1 & R2).
  rewrite R0, R1, R2. rewrite <- PF.
  repeat split; intro F; first [destruct (seen_there _ _ F) as (_ & E) | destruct (flat_missing _ _ F) as (_ & _ & E)]; unfold e0, e1, e2; rewrite E; ring.
Qed.
Print Assumptions C162_linear.
(** the formula of the gradient of a linear field *)
Lemma linear_formula : forall centroid neighs c a b u s, linear_on (c :: neighs) centroid a b u -> cell_gradient centroid neighs c = Some s ->
  let pw := map weighted (map (fun n => vsub (centroid n) (centroid c)) neighs) in
  let s00 := moment vx vx pw in let s01 := moment vy vx pw in let s02 := moment vz vx pw in let s11 := moment vy vy pw in let s12 := moment vz vy pw in let s22 := moment vz vz pw in
  let e0 := regular vx pw in let e1 := regular vy pw in let e2 := regular vz pw in let g := gradient_of s u in
  (s00 + e0) * vx g + s01 * vy g + s02 * vz g = s00 * vx b + s01 * vy b + s02 * vz b /\ s01 * vx g + (s11 + e1) * vy g + s12 * vz g = s01 * vx b + s11 * vy b + s12 * vz b /\
  s02 * vx g + s12 * vy g + (s22 + e2) * vz g = s02 * vx b + s12 * vy b + s22 * vz b.
Proof.
  intros centroid neighs c a b u s L H. cbn zeta. unfold cell_gradient in H. destruct (forallb _ _); [|discriminate H]. unfold weights in H. rewrite (moment_sym vx vy), (moment_sym vx vz), (moment_sym vy vz) in H.
  set (pw := map weighted (map (fun n => vsub (centroid n) (centroid c)) neighs)) in *.
  destruct (Req_EM_T _ 0) as [|D]; [discriminate H|]. injection H as <-. rewrite gradient_complement. match goal with |- context [fold_right ?f vzero (combine neighs (map ?g pw))] => replace (fold_right f vzero (combine neighs (map g pw))) with (fold_right (fun (e : vec * R) acc => vadd (vscale (dot b (fst e)) (g e)) acc) vzero pw) by (symmetry; exact (combine_sum centroid c g neighs a b u L)) end. rewrite comps, !row_sum. cbn [vx vy vz].
  revert D. generalize (moment vx vx pw) (moment vy vx pw) (moment vz vx pw) (moment vy vy pw) (moment vz vy pw) (moment vz vz pw) (regular vx pw) (regular vy pw) (regular vz pw) (vx b) (vy b) (vz b). clear. intros s00 s01 s02 s11 s12 s22 e0 e1 e2 bx by_ bz D.
  pose proof (Rinv_r _ D) as I. revert I. generalize (/ ((s00 + e0) * ((s11 + e1) * (s22 + e2) - s12 * s12) - s01 * (s01 * (s22 + e2) - s12 * s02) + s02 * (s01 * s12 - (s11 + e1) * s02))). clear D. intros k I.
  assert (T : forall x y, x = ((s00 + e0) * ((s11 + e1) * (s22 + e2) - s12 * s12) - s01 * (s01 * (s22 + e2) - s12 * s02) + s02 * (s01 * s12 - (s11 + e1) * s02)) * k * y -> x = y) by (intros x y E; rewrite E, I; ring). clear I.
  split; [|split]; apply T; ring.
Qed.
(** if the neighbours are all in a plane that is not one of coordinates there is no gradient, though its part in the plane is known *)
Theorem C162_plane_refuted : forall centroid neighs c b, let ds := map (fun n => vsub (centroid n) (centroid c)) neighs in
  seen vx ds -> seen vy ds -> seen vz ds -> b <> vzero -> (forall d, In d ds -> dot b d = 0) -> cell_gradient centroid neighs c = None.
Proof.
  intros centroid neighs c b ds SX SY SZ NB O. unfold cell_gradient. fold ds. destruct (forallb _ ds); [|reflexivity]. set (pw := map weighted ds). assert (PF : map fst pw = ds) by apply weighted_fst. rewrite <- PF in SX, SY, SZ, O.
  destruct (seen_there _ _ SX) as (_ & EX). destruct (seen_there _ _ SY) as (_ & EY). destruct (seen_there _ _ SZ) as (_ & EZ).
  assert (Z : forall r l, (forall e, In e l -> In e pw) -> fold_right (fun (e : vec * R) a => dot b (fst e) * (snd e * dot r (fst e)) + a) 0 l = 0).
  { intros r l. induction l as [|e l IH]; intro I; cbn; [reflexivity|]. rewrite IH by (intros x J; apply I; right; exact J). rewrite O by (apply in_map, I; left; reflexivity). ring. }
  pose proof (Z (V3 1 0 0) pw (fun e i => i)) as R0. pose proof (Z (V3 0 1 0) pw (fun e i => i)) as R1. pose proof (Z (V3 0 0 1) pw (fun e i => i)) as R2. rewrite row_sum in R0, R1, R2. cbn [vx vy vz] in R0, R1, R2.
  unfold weights. rewrite EX, EY, EZ, (moment_sym vx vy), (moment_sym vx vz), (moment_sym vy vz).
  revert R0 R1 R2. generalize (moment vx vx pw) (moment vy vx pw) (moment vz vx pw) (moment vy vy pw) (moment vz vy pw) (moment vz vz pw). intros s00 s01 s02 s11 s12 s22 R0 R1 R2.
  destruct (Req_EM_T _ 0) as [|D]; [reflexivity|]. exfalso. apply NB.
  assert (T0 : s00 * vx b + s01 * vy b + s02 * vz b = 0) by lra. assert (T1 : s01 * vx b + s11 * vy b + s12 * vz b = 0) by lra. assert (T2 : s02 * vx b + s12 * vy b + s22 * vz b = 0) by lra.
  apply vext; cbn; apply Rmult_eq_reg_l with (2 := D); rewrite Rmult_0_r.
  - transitivity ((s11 * s22 - s12 * s12) * (s00 * vx b + s01 * vy b + s02 * vz b) - (s01 * s22 - s12 * s02) * (s01 * vx b + s11 * vy b + s12 * vz b) + (s01 * s12 - s02 * s11) * (s02 * vx b + s12 * vy b + s22 * vz b)); [ring|rewrite T0, T1, T2; ring].
  - transitivity (- (s01 * s22 - s12 * s02) * (s00 * vx b + s01 * vy b + s02 * vz b) + (s00 * s22 - s02 * s02) * (s01 * vx b + s11 * vy b + s12 * vz b) - (s00 * s12 - s02 * s01) * (s02 * vx b + s12 * vy b + s22 * vz b)); [ring|rewrite T0, T1, T2; ring].
  - transitivity ((s01 * s12 - s02 * s11) * (s00 * vx b + s01 * vy b + s02 * vz b) - (s00 * s12 - s02 * s01) * (s01 * vx b + s11 * vy b + s12 * vz b) + (s00 * s11 - s01 * s01) * (s02 * vx b + s12 * vy b + s22 * vz b)); [ring|rewrite T0, T1, T2; ring].
Qed.
Print Assumptions C162_plane_refuted.
(** in a mesh whose cells are all smaller than the threshold of coordinates, no slope is right *)
Theorem C162_small_refuted : forall centroid neighs c a b u s, linear_on (c :: neighs) centroid a b u -> (forall n, In n neighs -> let d := vsub (centroid n) (centroid c) in Rabs (vx d) < / 10 ^ 12 /\ Rabs (vy d) < / 10 ^ 12 /\ Rabs (vz d) < / 10 ^ 12) ->
  b <> vzero -> cell_gradient centroid neighs c = Some s -> gradient_of s u <> b.
Proof.
  intros centroid neighs c a b u s L SM NB H E. pose proof (linear_formula centroid neighs c a b u s L H) as F. cbn zeta in F. rewrite E in F. set (pw := map weighted (map (fun n => vsub (centroid n) (centroid c)) neighs)) in *.
  assert (M : forall x, (forall n, In n neighs -> Rabs (x (vsub (centroid n) (centroid c))) < / 10 ^ 12) -> regular x pw = 1).
  { intros x Q. unfold regular. replace (missing x pw) with true; [reflexivity|]. symmetry. apply forallb_forall. intros e I. unfold pw in I. apply in_map_iff in I. destruct I as (d & <- & I). apply in_map_iff in I. destruct I as (n & <- & I). cbn [weighted fst]. specialize (Q n I). unfold epsilon. destruct (Rlt_dec _ _); [reflexivity|contradiction]. }
  rewrite (M vx), (M vy), (M vz) in F by (intros n I; apply (SM n I)). destruct F as (F0 & F1 & F2). apply NB. apply vext; cbn; lra.
Qed.
Print Assumptions C162_small_refuted.
Definition cross_at (i : Z) : vec := match i with 1%Z => V3 1 0 0 | 2%Z => V3 (-1) 0 0 | 3%Z => V3 0 2 0 | 4%Z => V3 0 (-2) 0 | _ => vzero end.
Example C162_nonvacuous : well_placed (map (fun n => vsub (cross_at n) (cross_at 0)) [1; 2; 3; 4]%Z) /\ linear_on [0; 1; 2; 3; 4]%Z cross_at 5 (V3 2 3 0) (fun i => 5 + dot (V3 2 3 0) (cross_at i)).
Proof.
  split; [|intros c _; reflexivity]. cbn [map cross_at]. assert (EP : / 10 ^ 12 <= 1) by (apply Rmult_le_reg_l with (10 ^ 12); [apply pow_lt; lra|]; rewrite Rinv_r by (apply pow_nonzero; lra); rewrite Rmult_1_r; apply pow_R1_Rle; lra).
  split; [right; exists (vsub (V3 1 0 0) vzero); split; [left; reflexivity|cbn; rewrite Rminus_0_r, Rabs_R1; exact EP]|]. split; [right; exists (vsub (V3 0 2 0) vzero); split; [right; right; left; reflexivity|cbn; rewrite Rminus_0_r, Rabs_right by lra; lra]|].
  split; [left; intros d I; repeat (destruct I as [<- | I]; [cbn; lra|]); destruct I|]. intros b _ _ BZ O. assert (FZ : vz b = 0) by (apply BZ; intros d I; repeat (destruct I as [<- | I]; [cbn; lra|]); destruct I).
  assert (O1 := O _ (or_introl eq_refl)). assert (O2 := O _ (or_intror (or_intror (or_introl eq_refl)))). unfold dot, vsub in O1, O2. cbn in O1, O2. apply vext; cbn; lra.
Qed.
Lemma norm_unit : forall n k, unit n -> norm (vscale k n) = Rabs k.
Proof. intros n k U. unfold norm, unit in *. rewrite <- sqrt_Rsqr_abs. f_equal. unfold dot, vscale in *. cbn. unfold Rsqr. nra. Qed.

(** ** Interfaces *)
(** C163: between two cells, the gradient of a linear field is its slope. *)
Theorem C163_linear : forall owner neigh so sn co cn ci n a b u s, gradient_of so u = b -> gradient_of sn u = b -> u owner = a + dot b co -> u neigh = a + dot b cn ->
  face_gradient owner neigh so sn co cn ci n = Some s -> gradient_of s u = b.
Proof.
  intros owner neigh so sn co cn ci n a b u s GO GN UO UN H. unfold face_gradient in H. set (m := Rmin _ _) in H. destruct (Req_EM_T m 0) as [|M]; [discriminate H|]. injection H as <-.
  rewrite gradient_plus, gradient_minus, !gradient_vec, value_along, value_minus, !value_plus, !value_one, !value_along, gradient_times, gradient_plus, GO, GN, UO, UN.
  replace (a + dot b cn + dot b (vsub (vadd ci (vscale m n)) cn) - (a + dot b co + dot b (vsub (vsub ci (vscale m n)) co))) with (2 * m * dot b n) by (unfold dot, vsub, vadd, vscale; cbn; ring).
  apply vext; unfold dot, vadd, vsub, vscale; cbn; field; exact M.
Qed.
Print Assumptions C163_linear.
(** ... when the normal is a unit one, it is given unless the centre of a cell is in the plane of the interface *)
Theorem C163_given : forall owner neigh so sn co cn ci n, unit n -> (dot (vsub co ci) n <> 0 /\ dot (vsub cn ci) n <> 0 <-> exists s, face_gradient owner neigh so sn co cn ci n = Some s).
Proof.
  intros owner neigh so sn co cn ci n U. unfold face_gradient, projected.
  assert (N : forall p, norm (vsub (vadd ci (vscale (dot (vsub p ci) n) n)) ci) = Rabs (dot (vsub p ci) n)) by (intro p; rewrite <- (norm_unit n _ U); f_equal; vring). rewrite !N. set (x := dot (vsub co ci) n). set (y := dot (vsub cn ci) n).
  assert (R : Rmin (Rabs x) (Rabs y) = 0 <-> x = 0 \/ y = 0).
  { split.
    - intro Z. destruct (Rle_dec (Rabs x) (Rabs y)) as [Q|Q]; [left|right]; unfold Rmin in Z; destruct (Rle_dec (Rabs x) (Rabs y)); try contradiction; match goal with |- ?t = 0 => destruct (Req_dec t 0) as [E|E]; [exact E|]; apply Rabs_no_R0 in E; contradiction end.
    - intros [-> | ->]; rewrite Rabs_R0; [apply Rmin_left|apply Rmin_right]; apply Rabs_pos. }
  destruct (Req_EM_T (Rmin (Rabs x) (Rabs y)) 0) as [Z|Z].
  - apply R in Z. split; [intros (A & B); destruct Z; contradiction|intros (s & H); discriminate H].
  - split; [intros _; eexists; reflexivity|]. intros _. split; intro E; apply Z, R; [left|right]; exact E.
Qed.
Print Assumptions C163_given.
Theorem C163_plane_refuted : forall owner neigh so sn co cn ci n, unit n -> dot (vsub co ci) n = 0 \/ dot (vsub cn ci) n = 0 -> face_gradient owner neigh so sn co cn ci n = None.
Proof. intros owner neigh so sn co cn ci n U Z. destruct (face_gradient owner neigh so sn co cn ci n) as [s|] eqn:E; [|reflexivity]. exfalso. destruct (proj2 (C163_given owner neigh so sn co cn ci n U) (ex_intro _ s E)) as (A & B). destruct Z; contradiction. Qed.
Print Assumptions C163_plane_refuted.
(** C163: it does not depend on which cell is the owner, for any field. *)
Theorem C163_turned : forall owner neigh so sn co cn ci n u s, face_gradient owner neigh so sn co cn ci n = Some s ->
  exists t, face_gradient neigh owner sn so cn co ci (vscale (-1) n) = Some t /\ gradient_of t u = gradient_of s u.
Proof.
  intros owner neigh so sn co cn ci n u s H. unfold face_gradient in *.
  assert (P : forall p, projected p ci (vscale (-1) n) = projected p ci n) by (intro p; unfold projected; vring). rewrite !P, Rmin_comm. set (m := Rmin _ _) in *. destruct (Req_EM_T m 0) as [|M]; [discriminate H|]. injection H as <-. eexists. split; [reflexivity|].
  rewrite !gradient_plus, !gradient_minus, !gradient_vec, !value_along, !value_minus, !value_plus, !value_one, !value_along, !gradient_times, !gradient_plus.
  apply vext; unfold dot, vadd, vsub, vscale; cbn; field; exact M.
Qed.
Print Assumptions C163_turned.
(** C163: on the border, the gradient has no normal part and the tangential part of that of the cell; the corrections make the normal derivative that of the condition. *)
Theorem C163_border : forall n s u, unit n -> dot (gradient_of (border_gradient n s) u) n = 0 /\ (forall t, dot t n = 0 -> dot (gradient_of (border_gradient n s) u) t = dot (gradient_of s u) t).
Proof.
  intros n s u U. unfold border_gradient. rewrite gradient_minus, gradient_vec, value_along. generalize (gradient_of s u). intro g. unfold unit in U. split; [|intros t T]; unfold dot, vsub, vscale in *; cbn.
  - transitivity ((vx g * vx n + vy g * vy n + vz g * vz n) * (1 - (vx n * vx n + vy n * vy n + vz n * vz n))); [ring|rewrite U; ring].
  - transitivity (vx g * vx t + vy g * vy t + vz g * vz t - (vx g * vx n + vy g * vy n + vz g * vz n) * (vx t * vx n + vy t * vy n + vz t * vz n)); [ring|rewrite T; ring].
Qed.
Print Assumptions C163_border.
Theorem C163_neumann : forall n s val u, unit n -> let g := gradient_of (vplus (border_gradient n s) (neumann val n)) u in
  dot g n = val /\ (forall t, dot t n = 0 -> dot g t = dot (gradient_of s u) t).
Proof.
  intros n s val u U. cbn zeta. rewrite gradient_plus. destruct (C163_border n s u U) as (A & B). assert (C : gradient_of (neumann val n) u = vscale val n) by (unfold neumann, gradient_of; cbn; vring). rewrite C. unfold unit in U. split; [|intros t T; rewrite <- (B t T)].
  - transitivity (dot (gradient_of (border_gradient n s) u) n + val * dot n n); [unfold dot, vadd, vscale; cbn; ring|rewrite A, U; ring].
  - transitivity (dot (gradient_of (border_gradient n s) u) t + val * dot t n); [unfold dot, vadd, vscale; cbn; ring|rewrite T; ring].
Qed.
Print Assumptions C163_neumann.
(** with the value of a linear field at the centre of the face, its slope is found *)
Theorem C163_dirichlet : forall owner co ci n d s a b u t, gradient_of s u = b -> u owner = a + dot b co ->
  dirichlet (a + dot b ci) owner co ci n d s = Some t -> unit n -> gradient_of (vplus (border_gradient n s) t) u = b.
Proof.
  intros owner co ci n d s a b u t G UO H U. unfold dirichlet in H. destruct (Req_EM_T d 0) as [|D]; [discriminate H|]. match type of H with Some ?x = _ => assert (T : t = x) by congruence end. rewrite T. clear T H. rewrite gradient_plus. unfold border_gradient. rewrite gradient_minus, gradient_vec, value_along, G.
  rewrite gradient_const. match goal with |- context [Stencil (items ?c) (constant ?c)] => change (Stencil (items c) (constant c)) with c end.
  rewrite gradient_vec, value_times, value_div, value_plus, value_one, value_along, G, UO.
  replace (a + dot b co + dot b (vsub (vsub ci (vscale d n)) co)) with (a + dot b ci - d * dot b n) by (unfold dot, vsub, vscale; cbn; ring).
  apply vext; unfold dot, vadd, vsub, vscale; cbn; field; exact D.
Qed.
Print Assumptions C163_dirichlet.
Example C163_nonvacuous : exists s, face_gradient 1 2 (Stencil [(2%Z, V3 1 0 0); (1%Z, V3 (-1) 0 0)] vzero) (Stencil [(2%Z, V3 1 0 0); (1%Z, V3 (-1) 0 0)] vzero) vzero (V3 1 0 0) (V3 (1/2) 0 0) (V3 1 0 0) = Some s.
Proof. apply C163_given; [unfold unit, dot; cbn; ring|]. split; unfold dot, vsub; cbn; lra. Qed.

(** ** The laplacian *)
(** what an interface brings to a cell *)
Definition brings (interior : Z -> bool) (diff : option (Z -> R)) (u : Z -> R) (c : Z) (f : face) : R :=
  (if Z.eqb (f_owner f) c then match f_neigh f with None => value_of (flux diff f) u | Some _ => if interior c then value_of (flux diff f) u else 0 end else 0) +
  (match f_neigh f with Some n => if Z.eqb n c then if interior c then - value_of (flux diff f) u else 0 else 0 | None => 0 end).
Lemma add_faces : forall interior diff u c faces m used,
  let st := fold_left (add_face interior diff) faces (m, used) in
  value_of (fst st c) u = value_of (m c) u + rsum (map (brings interior diff u c) faces) /\
  (In c (snd st) <-> In c used \/ exists f, In f faces /\ ((f_owner f = c /\ (f_neigh f = None \/ interior c = true)) \/ (f_neigh f = Some c /\ interior c = true))).
Proof.
  intros interior diff u c. induction faces as [|f r IH]; intros m used.
  - cbn. split; [ring|]. split; [intro H; left; exact H|intros [H|(f & [] & _)]; exact H].
  - cbn zeta. cbn [fold_left map rsum fold_right]. destruct (add_face interior diff (m, used) f) as [m' used'] eqn:E. specialize (IH m' used'). cbn zeta in IH. destruct IH as (I1 & I2). rewrite I1, I2. clear I1 I2.
    assert (S : value_of (m' c) u = value_of (m c) u + brings interior diff u c f /\ (In c used' <-> In c used \/ ((f_owner f = c /\ (f_neigh f = None \/ interior c = true)) \/ (f_neigh f = Some c /\ interior c = true)))).
    { unfold add_face in E. unfold brings. set (phi := flux diff f) in *. destruct (f_neigh f) as [n|].
      - assert (V : forall k s mm, value_of (put k s mm c) u = value_of (mm c) u + (if Z.eqb k c then value_of s u else 0)).
        { intros k s mm. unfold put. rewrite (Z.eqb_sym c k). destruct (Z.eqb k c); [apply value_plus|ring]. }
        destruct (interior (f_owner f)) eqn:IO; destruct (interior n) eqn:IN; injection E as <- <-; rewrite ?V, ?value_times; destruct (Z.eqb_spec (f_owner f) c) as [EO|NO]; destruct (Z.eqb_spec n c) as [EN|NN]; try rewrite EO in IO; try rewrite EN in IN; try (rewrite IO in IN; discriminate IN); rewrite ?IO, ?IN; cbn [In]; (split; [try ring|]);
          try (split; [intuition (try congruence; auto)|intuition (try congruence; auto)]).
      - injection E as <- <-. split; [unfold put; rewrite (Z.eqb_sym c); destruct (Z.eqb (f_owner f) c); [rewrite value_plus; ring|ring]|]. cbn [In]. split; [intuition auto|intuition (try discriminate; auto)]. }
    destruct S as (S1 & S2). split; [rewrite S1; unfold rsum; ring|]. rewrite S2. split.
    + intros [[H|H]|(g & G & H)]; [left; exact H|right; exists f; split; [left; reflexivity|exact H]|right; exists g; split; [right; exact G|exact H]].
    + intros [H|(g & [<- |G] & H)]; [left; left; exact H|left; right; exact H|right; exists g; split; [exact G|exact H]].
Qed.
Lemma flux_value : forall diff f u, value_of (flux diff f) u = mean_diff diff f * dot (gradient_of (f_grad f) u) (vscale (f_area f) (f_normal f)).
Proof. intros diff f u. unfold flux. rewrite value_times, value_along. unfold mean_diff. destruct diff as [d|]; [destruct (f_neigh f)|]; unfold dot, vscale; cbn; field. Qed.
Lemma brings_outflow : forall interior diff u c f, interior c = true -> brings interior diff u c f = outflow diff u c f.
Proof.
  intros interior diff u c f I. unfold brings, outflow, outward. rewrite I, flux_value. destruct (f_neigh f) as [n|]; [destruct (Z.eqb n c)|]; destruct (Z.eqb (f_owner f) c); unfold dot, vadd, vscale, vzero; cbn; ring.
Qed.
(** C164: the laplacian of a cell is what flows out of it, over its volume; cells have one if an interface of theirs is given. *)
Theorem C164_cell : forall interior volume diff faces c, interior c = true -> volume c <> 0 -> (exists f, In f faces /\ touches c f) ->
  exists s, laplacian interior volume diff faces c = Some s /\ forall u, volume c * value_of s u = rsum (map (outflow diff u c) faces).
Proof.
  intros interior volume diff faces c I V (f & F & T). unfold laplacian. pose proof (fun u => add_faces interior diff u c faces (fun _ => Stencil [] 0) []) as A. cbn zeta in A. destruct (fold_left _ _ _) as [m used]. cbn [fst snd] in A.
  assert (U : existsb (Z.eqb c) used = true). { apply existsb_exists. exists c. split; [|apply Z.eqb_refl]. apply (proj2 (A (fun _ => 0))). right. exists f. split; [exact F|]. destruct T as [T|T]; [left|right]; (split; [exact T|]); [right|]; exact I. }
  rewrite U. destruct (Req_EM_T (volume c) 0) as [|_]; [contradiction|]. eexists. split; [reflexivity|]. intro u. rewrite value_div, (proj1 (A u)). replace (map (outflow diff u c) faces) with (map (brings interior diff u c) faces) by (apply map_ext; intro; apply brings_outflow; exact I). unfold value_of. cbn. field. exact V.
Qed.
Print Assumptions C164_cell.
Theorem C164_ghost : forall interior volume diff faces c, (interior c = false \/ forall f, In f faces -> ~ touches c f) -> (forall f, In f faces -> f_owner f = c -> f_neigh f <> None) -> laplacian interior volume diff faces c = None.
Proof.
  intros interior volume diff faces c H B. unfold laplacian. pose proof (add_faces interior diff (fun _ => 0) c faces (fun _ => Stencil [] 0) []) as A. cbn zeta in A. destruct (fold_left _ _ _) as [m used]. cbn [fst snd] in A.
  destruct (existsb (Z.eqb c) used) eqn:E; [|reflexivity]. exfalso. apply existsb_exists in E. destruct E as (x & X & Q). apply Z.eqb_eq in Q. subst x. apply (proj2 A) in X. destruct X as [[]|(f & F & X)].
  destruct H as [H|H]; [|apply (H f F); destruct X as [(X & _)|(X & _)]; [left|right]; exact X]. destruct X as [(X & [Y|Y])|(X & Y)]; [apply (B f F X Y)|congruence|congruence].
Qed.
Print Assumptions C164_ghost.
(** C164: that of a linear field is zero in a closed cell. *)
Lemma vsum_dot : forall b l, dot b (vsum l) = rsum (map (dot b) l).
Proof. intro b. induction l as [|v r IH]; [unfold dot; cbn; ring|]. change (dot b (vadd v (vsum r)) = dot b v + rsum (map (dot b) r)). rewrite <- IH. unfold dot, vadd. cbn. ring. Qed.
Lemma linear_sum : forall u c b faces, (forall f, In f faces -> touches c f -> gradient_of (f_grad f) u = b) -> rsum (map (outflow None u c) faces) = dot b (vsum (map (outward c) faces)).
Proof.
  intros u c b faces H. rewrite vsum_dot, map_map. f_equal. apply map_ext_in. intros f F. unfold outflow, mean_diff.
  destruct (Z.eqb_spec (f_owner f) c) as [E|E]; [rewrite (H f F (or_introl E)); ring|]. destruct (f_neigh f) as [n|] eqn:N; [destruct (Z.eqb_spec n c) as [E'|E']; [subst n; rewrite (H f F (or_intror N)); ring|]|];
    unfold outward; rewrite N; destruct (Z.eqb_spec (f_owner f) c); try contradiction; try (destruct (Z.eqb_spec n c); [contradiction|]); unfold dot, vadd, vzero; cbn; ring.
Qed.
Theorem C164_linear : forall interior volume faces c u b, interior c = true -> volume c <> 0 -> (exists f, In f faces /\ touches c f) -> closed c faces ->
  (forall f, In f faces -> touches c f -> gradient_of (f_grad f) u = b) -> exists s, laplacian interior volume None faces c = Some s /\ value_of s u = 0.
Proof.
  intros interior volume faces c u b I V E C H. destruct (C164_cell interior volume None faces c I V E) as (s & L & S). exists s. split; [exact L|]. specialize (S u). rewrite (linear_sum u c b faces H), C in S. apply Rmult_eq_reg_l with (2 := V). rewrite S. unfold dot, vzero. cbn. ring.
Qed.
Print Assumptions C164_linear.
(** C164: without ghosts, nothing is lost inside: the laplacians of all cells, by their volumes, make what flows through the border. *)
Lemma rsum_plus : forall (A : Type) (f g : A -> R) l, rsum (map (fun x => f x + g x) l) = rsum (map f l) + rsum (map g l).
Proof. intros A f g. unfold rsum. induction l as [|x r IH]; cbn; [ring|]. rewrite IH. ring. Qed.
Lemma rsum_zero : forall (A : Type) (f : A -> R) l, (forall x, In x l -> f x = 0) -> rsum (map f l) = 0.
Proof. intros A f. unfold rsum. induction l as [|x r IH]; intro H; cbn; [reflexivity|]. rewrite H by (left; reflexivity). rewrite IH by (intros; apply H; right; assumption). ring. Qed.
Lemma exchange : forall (A B : Type) (g : A -> B -> R) l k, rsum (map (fun a => rsum (map (g a) k)) l) = rsum (map (fun b => rsum (map (fun a => g a b) l)) k).
Proof.
  intros A B g. induction l as [|a r IH]; intro k; [symmetry; apply rsum_zero; reflexivity|]. cbn [map rsum fold_right]. change (fold_right Rplus 0 (map (fun a => rsum (map (g a) k)) r)) with (rsum (map (fun a => rsum (map (g a) k)) r)). rewrite IH, <- rsum_plus. reflexivity.
Qed.
Lemma pick : forall (l : list Z) x k, NoDup l -> In x l -> rsum (map (fun c => if Z.eqb x c then k else 0) l) = k.
Proof.
  induction l as [|a r IH]; intros x k N I; [destruct I|]. inversion N as [|? ? NI NR]; subst. cbn. destruct (Z.eqb_spec x a) as [->|NE].
  - change (fold_right Rplus 0 (map (fun c => if Z.eqb a c then k else 0) r)) with (rsum (map (fun c => if Z.eqb a c then k else 0) r)). rewrite rsum_zero; [ring|]. intros y Y. destruct (Z.eqb_spec a y); [subst; contradiction|reflexivity].
  - destruct I as [->|I]; [contradiction|]. specialize (IH x k NR I). unfold rsum in IH. rewrite IH. ring.
Qed.
Theorem C164_balance : forall volume diff faces cells u, NoDup cells -> (forall c, In c cells -> volume c <> 0) -> (forall f c, In f faces -> touches c f -> In c cells) ->
  rsum (map (fun c => volume c * value_if (laplacian (fun _ => true) volume diff faces c) u) cells) = rsum (map (through_border diff u) faces).
Proof.
  intros volume diff faces cells u N V T.
  transitivity (rsum (map (fun c => rsum (map (outflow diff u c) faces)) cells)).
  - f_equal. apply map_ext_in. intros c I.
    destruct (existsb (fun f => (Z.eqb (f_owner f) c || match f_neigh f with Some n => Z.eqb n c | None => false end)%bool) faces) eqn:E.
    + apply existsb_exists in E. destruct E as (f & F & E). assert (TC : touches c f). { apply orb_true_iff in E. destruct E as [E|E]; [left; apply Z.eqb_eq; exact E|right]. destruct (f_neigh f) as [n|]; [|discriminate E]. apply Z.eqb_eq in E. subst. reflexivity. }
      destruct (C164_cell (fun _ => true) volume diff faces c eq_refl (V c I) (ex_intro _ f (conj F TC))) as (s & L & S). rewrite L. apply S.
    + assert (NT : forall f, In f faces -> ~ touches c f). { intros f F TC. assert (X : existsb (fun f => (Z.eqb (f_owner f) c || match f_neigh f with Some n => Z.eqb n c | None => false end)%bool) faces = true); [|congruence]. apply existsb_exists. exists f. split; [exact F|]. destruct TC as [-> | ->]; rewrite Z.eqb_refl; [reflexivity|apply orb_true_r]. }
      rewrite (C164_ghost (fun _ => true) volume diff faces c (or_intror NT)) by (intros f F O _; apply (NT f F); left; exact O). cbn. rewrite Rmult_0_r. symmetry. apply rsum_zero. intros f F. unfold outflow, outward. destruct (Z.eqb_spec (f_owner f) c) as [Q|Q]; [exfalso; apply (NT f F); left; exact Q|].
      destruct (f_neigh f) as [n|] eqn:FN; [destruct (Z.eqb_spec n c) as [Q'|Q']; [exfalso; apply (NT f F); right; congruence|]|]; unfold dot, vadd, vzero; cbn; ring.
  - rewrite exchange. f_equal. apply map_ext_in. intros f F. set (k := mean_diff diff f * dot (gradient_of (f_grad f) u) (vscale (f_area f) (f_normal f))).
    assert (E : forall c, outflow diff u c f = (if Z.eqb (f_owner f) c then k else 0) + match f_neigh f with Some n => if Z.eqb n c then - k else 0 | None => 0 end).
    { intro c. unfold outflow, outward, k. destruct (f_neigh f) as [n|]; [destruct (Z.eqb n c)|]; destruct (Z.eqb (f_owner f) c); unfold dot, vadd, vscale, vzero; cbn; ring. }
    transitivity (rsum (map (fun c => (if Z.eqb (f_owner f) c then k else 0) + match f_neigh f with Some n => if Z.eqb n c then - k else 0 | None => 0 end) cells)); [f_equal; apply map_ext; exact E|].
    rewrite rsum_plus, pick by (try assumption; apply (T f _ F); left; reflexivity). unfold through_border. fold k. destruct (f_neigh f) as [n|] eqn:FN.
    + rewrite pick by (try assumption; apply (T f _ F); right; exact FN). ring.
    + rewrite rsum_zero by reflexivity. ring.
Qed.
Print Assumptions C164_balance.
(** a cell of which not all interfaces are given has a stencil too, that is wrong for linear fields *)
Theorem C164_part_refuted : forall volume c n area g u b, volume c <> 0 -> area <> 0 -> gradient_of g u = b -> dot b n <> 0 ->
  exists s, laplacian (fun _ => true) volume None [Face c None n area g] c = Some s /\ value_of s u <> 0.
Proof.
  intros volume c n area g u b V A G D. destruct (C164_cell (fun _ => true) volume None [Face c None n area g] c eq_refl V) as (s & L & S); [eexists; split; [left; reflexivity|left; reflexivity]|]. exists s. split; [exact L|]. intro E. specialize (S u). rewrite E in S. rewrite (linear_sum u c b) in S by (intros f [<- |[]] _; exact G).
  cbn in S. unfold outward in S. cbn in S. rewrite Z.eqb_refl in S. assert (X : area * dot b n = 0) by (unfold dot, vadd, vscale, vzero in *; cbn in *; lra). apply Rmult_integral in X. destruct X; contradiction.
Qed.
Print Assumptions C164_part_refuted.
Example C164_nonvacuous : closed 1 [Face 1 (Some 2%Z) (V3 1 0 0) 2 (Stencil [] vzero); Face 3 (Some 1%Z) (V3 1 0 0) 2 (Stencil [] vzero); Face 1 None (V3 0 1 0) 1 (Stencil [] vzero); Face 1 None (V3 0 (-1) 0) 1 (Stencil [] vzero)].
Proof. unfold closed, outward. cbn. vring. Qed.
