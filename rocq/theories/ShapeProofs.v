(** Proofs about matrices, frames and coordinates of shapes. *)
From Coq Require Import Reals List Arith ZArith Bool Lia Lra Psatz.
From Verif Require Import Vec Shape ShapeSpec.
Import ListNotations.
Open Scope R_scope.

Lemma lt3 (i : nat) : (i < 3)%nat -> i = 0%nat \/ i = 1%nat \/ i = 2%nat.
Proof. lia. Qed.
Ltac three H := destruct (lt3 _ H) as [->|[->| ->]].
Lemma vec_ext a b : vx a = vx b -> vy a = vy b -> vz a = vz b -> a = b.
Proof. destruct a, b; cbn; intros; subst; reflexivity. Qed.
Lemma vent_ext a b : (forall i, (i < 3)%nat -> vent a i = vent b i) -> a = b.
Proof. intros H. apply vec_ext; [apply (H 0%nat)|apply (H 1%nat)|apply (H 2%nat)]; lia. Qed.

(* ------------------------------------------------------------------ matrices *)
Lemma det_leibniz m : det m = leibniz m.
Proof. unfold det, leibniz, ment, vent. ring. Qed.

Lemma inverse_ok m : leibniz m <> 0 -> inverses m (inverse m).
Proof.
  rewrite <- det_leibniz. intros D i j Hi Hj.
  three Hi; three Hj; split; unfold sum3, delta, ment, vent, inverse; cbn [row0 row1 row2 vx vy vz Nat.eqb];
    unfold det in *; field; exact D.
Qed.
Lemma transpose_ok m i j : (i < 3)%nat -> (j < 3)%nat -> ment (transpose m) i j = ment m j i.
Proof. intros Hi Hj. three Hi; three Hj; reflexivity. Qed.
Lemma matmul_vm_ok v m i : (i < 3)%nat -> vent (matmul_vm v m) i = sum3 (fun k => vent v k * ment m k i).
Proof. intros Hi. three Hi; unfold sum3, matmul_vm, ment, vent; cbn; ring. Qed.
Lemma matmul_mv_ok v m i : (i < 3)%nat -> vent (matmul_mv m v) i = sum3 (fun k => ment m i k * vent v k).
Proof. intros Hi. three Hi; unfold sum3, matmul_mv, ment, vent; cbn; ring. Qed.

Lemma dots_inverse v m : leibniz m <> 0 -> dots (dots v (inverse m)) m = v.
Proof.
  rewrite <- det_leibniz. intros D. apply vec_ext; unfold dots, dot, inverse; cbn [row0 row1 row2 vx vy vz];
    unfold det in *; field; exact D.
Qed.
Lemma dots_inverse' v m : leibniz m <> 0 -> dots (dots v m) (inverse m) = v.
Proof.
  rewrite <- det_leibniz. intros D. apply vec_ext; unfold dots, dot, inverse; cbn [row0 row1 row2 vx vy vz];
    unfold det in *; field; exact D.
Qed.

(* ------------------------------------------------------------------ frames *)
Lemma norm_pos_sq v : 0 < norm v -> norm v * norm v = dot v v.
Proof. intros H. unfold norm in *. apply sqrt_sqrt. unfold dot. nra. Qed.
Lemma dot_self_nonneg v : 0 <= dot v v.
Proof. unfold dot. nra. Qed.
Lemma unit_vdivs v : 0 < norm v -> dot (vdivs v (norm v)) (vdivs v (norm v)) = 1.
Proof.
  intros H. pose proof (norm_pos_sq v H) as E. unfold dot, vdivs in *; cbn.
  replace (vx v / norm v * (vx v / norm v) + vy v / norm v * (vy v / norm v) + vz v / norm v * (vz v / norm v))
    with ((vx v * vx v + vy v * vy v + vz v * vz v) / (norm v * norm v)) by (field; lra).
  rewrite E. unfold Rdiv. apply Rinv_r. nra.
Qed.
Lemma norm_zero_iff v : norm v = 0 <-> v = vzero.
Proof.
  split.
  - intros H. unfold norm in H. apply sqrt_eq_0 in H; [|apply dot_self_nonneg]. unfold dot in H.
    apply vec_ext; cbn; nra.
  - intros ->. unfold norm, dot, vzero; cbn. replace (0 * 0 + 0 * 0 + 0 * 0) with 0 by ring. apply sqrt_0.
Qed.
Lemma norm_nonneg v : 0 <= norm v.
Proof. apply sqrt_pos. Qed.
Lemma norm_pos_iff v : 0 < norm v <-> v <> vzero.
Proof.
  split.
  - intros H E. subst. pose proof (proj2 (norm_zero_iff vzero) eq_refl). lra.
  - intros H. destruct (Req_dec (norm v) 0) as [E|E]; [apply norm_zero_iff in E; contradiction|].
    pose proof (norm_nonneg v). lra.
Qed.
Lemma nonnull_iff v : nonnull v <-> v <> vzero.
Proof.
  split.
  - intros (i & Hi & H) ->. three Hi; apply H; reflexivity.
  - intros H. destruct (Req_dec (vx v) 0) as [X|X]; [|exists 0%nat; split; [lia|exact X]].
    destruct (Req_dec (vy v) 0) as [Y|Y]; [|exists 1%nat; split; [lia|exact Y]].
    destruct (Req_dec (vz v) 0) as [Z|Z]; [|exists 2%nat; split; [lia|exact Z]].
    elim H. apply vec_ext; assumption.
Qed.
Lemma axis_dot_rows a b c :
  axis_dot (M3 a b c) 0 0 = dot a a /\ axis_dot (M3 a b c) 1 1 = dot b b /\ axis_dot (M3 a b c) 2 2 = dot c c /\
  axis_dot (M3 a b c) 0 1 = dot a b /\ axis_dot (M3 a b c) 1 2 = dot b c /\ axis_dot (M3 a b c) 0 2 = dot a c.
Proof. repeat split; unfold axis_dot, sum3, ment, vent, dot; cbn; ring. Qed.

(** Gram determinant. *)
Lemma gram m : leibniz m * leibniz m =
  let a := axis_dot m in
  a 0%nat 0%nat * a 1%nat 1%nat * a 2%nat 2%nat + 2 * a 0%nat 1%nat * a 1%nat 2%nat * a 0%nat 2%nat
  - a 0%nat 0%nat * (a 1%nat 2%nat * a 1%nat 2%nat) - a 1%nat 1%nat * (a 0%nat 2%nat * a 0%nat 2%nat)
  - a 2%nat 2%nat * (a 0%nat 1%nat * a 0%nat 1%nat).
Proof. unfold leibniz, axis_dot, sum3, ment, vent. ring. Qed.

Lemma abs_sq_le x e : Rabs x <= e -> x * x <= e * e.
Proof. intros H. pose proof (Rabs_pos x). assert (x * x = Rabs x * Rabs x) as -> by (unfold Rabs; destruct (Rcase_abs x); ring). nra. Qed.
Lemma within_invertible m : orthonormal_within (/ 1000) m -> leibniz m <> 0.
Proof.
  intros [U V] E.
  pose proof (gram m) as G. rewrite E in G. cbn beta zeta in G.
  rewrite (U 0%nat), (U 1%nat), (U 2%nat) in G by lia.
  set (x := axis_dot m 0 1) in *. set (y := axis_dot m 1 2) in *. set (z := axis_dot m 0 2) in *.
  pose proof (Rabs_pos x). pose proof (Rabs_pos y). pose proof (Rabs_pos z).
  assert (Hx : x * x <= / 1000 * / 1000) by (apply abs_sq_le; lra).
  assert (Hy : y * y <= / 1000 * / 1000) by (apply abs_sq_le; lra).
  assert (Hz : z * z <= / 1000 * / 1000) by (apply abs_sq_le; lra).
  set (e := / 1000) in *. assert (He : 0 < e < / 100) by (subst e; lra).
  assert (Hee : 0 <= e * e <= / 10000) by nra.
  assert (Hxy : - (e * e) <= x * y <= e * e) by (pose proof (Rle_0_sqr (x + y)); pose proof (Rle_0_sqr (x - y)); unfold Rsqr in *; lra).
  assert (Hz1 : -1 <= z <= 1).
  { pose proof (Rle_abs z). pose proof (Rle_abs (- z)). rewrite Rabs_Ropp in *. lra. }
  assert (B : - (e * e) <= x * y * z) by (set (t := x * y) in *; nra).
  lra.
Qed.

Lemma setRefSystem_changed s a0 a1 a2 s' :
  setRefSystem s a0 a1 a2 = Changed s' ->
  nonnull a0 /\ nonnull a1 /\ nonnull a2 /\
  s' = with_frame s (M3 (vdivs a0 (norm a0)) (vdivs a1 (norm a1)) (vdivs a2 (norm a2))) /\
  orthonormal_within (/ 1000) (s_sdr s').
Proof.
  unfold setRefSystem. destruct (Rlt_dec 0 (norm a0)) as [A|A]; [|discriminate].
  destruct (Rlt_dec 0 (norm a1)) as [B|B]; [|discriminate].
  destruct (Rlt_dec 0 (norm a2)) as [C|C]; [|discriminate].
  destruct (Rlt_dec _ _) as [D|D]; [discriminate|]. intros H. injection H as H.
  rewrite !nonnull_iff, <- !norm_pos_iff. subst s'. repeat split; try assumption.
  - intros i Hi. cbn [s_sdr with_frame]. destruct (axis_dot_rows (vdivs a0 (norm a0)) (vdivs a1 (norm a1)) (vdivs a2 (norm a2))) as (E0 & E1 & E2 & _).
    three Hi; [rewrite E0|rewrite E1|rewrite E2]; apply unit_vdivs; assumption.
  - cbn [s_sdr with_frame]. destruct (axis_dot_rows (vdivs a0 (norm a0)) (vdivs a1 (norm a1)) (vdivs a2 (norm a2))) as (_ & _ & _ & E0 & E1 & E2).
    rewrite E0, E1, E2. lra.
Qed.

Lemma vdivs_direction v : v <> vzero -> direction (vdivs v (norm v)) v.
Proof.
  intros H. apply norm_pos_iff in H. exists (/ norm v). split; [apply Rinv_0_lt_compat; exact H|].
  intros i Hi. three Hi; unfold vdivs, vent; cbn; unfold Rdiv; ring.
Qed.

(** Projection of a unit vector e off a unit vector u. *)
Lemma project_norm0 e u : dot e e = 1 -> dot u u = 1 ->
  let w := vsub e (vscale (dot e u) u) in dot w w = 1 - dot e u * dot e u /\ dot w u = 0.
Proof.
  intros He Hu w. subst w. unfold dot, vsub, vscale in *; cbn in *. split.
  - transitivity ((vx e * vx e + vy e * vy e + vz e * vz e) - 2 * (vx e * vx u + vy e * vy u + vz e * vz u) * (vx e * vx u + vy e * vy u + vz e * vz u)
     + (vx e * vx u + vy e * vy u + vz e * vz u) * (vx e * vx u + vy e * vy u + vz e * vz u) * (vx u * vx u + vy u * vy u + vz u * vz u)); [ring|].
    rewrite He, Hu. ring.
  - transitivity ((vx e * vx u + vy e * vy u + vz e * vz u) * (1 - (vx u * vx u + vy u * vy u + vz u * vz u))); [ring|].
    rewrite Hu. ring.
Qed.
Lemma cross_norm a b : dot (cross a b) (cross a b) = dot a a * dot b b - dot a b * dot a b.
Proof. unfold dot, cross; cbn; ring. Qed.
Lemma cross_orth a b : dot (cross a b) a = 0 /\ dot (cross a b) b = 0.
Proof. unfold dot, cross; cbn; split; ring. Qed.
Lemma dot_comm a b : dot a b = dot b a.
Proof. unfold dot; ring. Qed.
Lemma dot_vdivs_l a b k : dot (vdivs a k) b = dot a b / k.
Proof. unfold dot, vdivs, Rdiv; cbn; ring. Qed.

(** Three unit orthogonal axes with c = a x b, in the three cyclic positions. *)
Lemma cyclic_frame a b :
  dot a a = 1 -> dot b b = 1 -> dot a b = 0 ->
  orthonormal (M3 a b (cross a b)) /\ right_handed (M3 a b (cross a b)) /\
  orthonormal (M3 (cross a b) a b) /\ right_handed (M3 (cross a b) a b) /\
  orthonormal (M3 b (cross a b) a) /\ right_handed (M3 b (cross a b) a).
Proof.
  intros Ha Hb Hab.
  pose proof (cross_norm a b) as N. rewrite Ha, Hb, Hab in N.
  destruct (cross_orth a b) as [O1 O2].
  assert (L : leibniz (M3 a b (cross a b)) = dot (cross a b) (cross a b)) by (unfold leibniz, ment, vent, dot, cross; cbn; ring).
  assert (L' : leibniz (M3 (cross a b) a b) = dot (cross a b) (cross a b)) by (unfold leibniz, ment, vent, dot, cross; cbn; ring).
  assert (L'' : leibniz (M3 b (cross a b) a) = dot (cross a b) (cross a b)) by (unfold leibniz, ment, vent, dot, cross; cbn; ring).
  assert (AD : forall x y z i j, (i < 3)%nat -> (j < 3)%nat ->
     axis_dot (M3 x y z) i j = dot (match i with 0%nat => x | 1%nat => y | _ => z end) (match j with 0%nat => x | 1%nat => y | _ => z end)).
  { intros x y z i j Hi Hj. three Hi; three Hj; unfold axis_dot, sum3, ment, vent, dot; cbn; ring. }
  unfold right_handed. rewrite L, L', L''. set (c := cross a b) in *. assert (Hc : dot c c = 1) by lra.
  repeat split; try exact Hc; intros i j Hi Hj; rewrite AD by assumption; three Hi; three Hj; cbn [delta Nat.eqb];
    unfold delta; cbn [Nat.eqb]; try assumption; rewrite ?(dot_comm b a), ?(dot_comm a c), ?(dot_comm b c); assumption.
Qed.
Lemma vdivs_1 v k : k = 1 -> vdivs v k = v.
Proof. intros ->. apply vec_ext; cbn; field. Qed.

Lemma mrow_set m i v : (i < 3)%nat -> mrow (set_mrow m i v) i = v.
Proof. intros H. three H; reflexivity. Qed.

Lemma ref1_core l axis s : (l < 3)%nat -> 0 < norm axis ->
  let u := vdivs axis (norm axis) in
  let e := mrow ident (Nat.modulo (l + 1) 3) in
  let w := vsub e (vscale (dot e u) u) in
  setRefSystem1 s (Z.of_nat l) axis =
  if Req_EM_T (norm w) 0 then Nan else
  let b := vdivs w (norm w) in
  let c := cross u b in
  Changed (with_frame s (match l with 0%nat => M3 u b c | 1%nat => M3 c u b | _ => M3 b c u end)).
Proof.
  intros Hl Ha u e w. unfold setRefSystem1.
  replace ((Z.of_nat l <? 0)%Z || (2 <? Z.of_nat l)%Z)%bool with false by (symmetry; apply orb_false_iff; split; lia).
  destruct (Rlt_dec 0 (norm axis)) as [A|A]; [|contradiction].
  rewrite Nat2Z.id. cbn zeta.
  rewrite (mrow_set _ l _ Hl).
  fold u. fold e. fold w.
  destruct (Req_EM_T (norm w) 0) as [N|N]; [reflexivity|].
  assert (Hu : dot u u = 1) by (apply unit_vdivs; exact Ha).
  assert (Hw : 0 < norm w) by (pose proof (norm_nonneg w); lra).
  assert (Hb : dot (vdivs w (norm w)) (vdivs w (norm w)) = 1) by (apply unit_vdivs; exact Hw).
  assert (He : dot e e = 1) by (subst e; three Hl; unfold dot; cbn; ring).
  assert (Hub : dot u (vdivs w (norm w)) = 0).
  { rewrite dot_comm, dot_vdivs_l. destruct (project_norm0 e u He Hu) as [_ Z]. fold w in Z. rewrite Z. unfold Rdiv; ring. }
  set (b := vdivs w (norm w)) in *.
  assert (M1 : mrow (set_mrow (set_mrow (s_sdr s) l u) ((l + 1) mod 3) b) ((l + 1) mod 3) = b) by (apply mrow_set; three Hl; cbn; lia).
  assert (M2 : mrow (set_mrow (set_mrow (s_sdr s) l u) ((l + 1) mod 3) b) l = u) by (three Hl; reflexivity).
  rewrite M1, M2.
  assert (Nc : norm (cross u b) = 1).
  { unfold norm. rewrite cross_norm, Hu, Hb, Hub. replace (1 * 1 - 0 * 0) with 1 by ring. apply sqrt_1. }
  destruct (Req_EM_T (norm (cross u b)) 0) as [Z|Z]; [lra|].
  rewrite (vdivs_1 _ _ Nc). three Hl; reflexivity.
Qed.

Lemma ref1_changed s label axis s' :
  setRefSystem1 s label axis = Changed s' ->
  (0 <= label < 3)%Z /\ nonnull axis /\ orthonormal (s_sdr s') /\ right_handed (s_sdr s') /\
  direction (mrow (s_sdr s') (Z.to_nat label)) axis /\ s_inv s' = inverse (s_sdr s').
Proof.
  intros H. assert (HL : (0 <= label < 3)%Z /\ 0 < norm axis).
  { unfold setRefSystem1 in H. destruct ((label <? 0)%Z || (2 <? label)%Z)%bool eqn:E; [discriminate|].
    apply orb_false_iff in E. destruct (Rlt_dec 0 (norm axis)); [split; [lia|assumption]|discriminate]. }
  destruct HL as [HL Ha]. split; [exact HL|].
  assert (Hn : nonnull axis) by (apply nonnull_iff, norm_pos_iff; exact Ha). split; [exact Hn|].
  remember (Z.to_nat label) as l eqn:Dl. assert (Hl : (l < 3)%nat) by lia.
  assert (El : label = Z.of_nat l) by lia. clear Dl. rewrite El in H. rewrite (ref1_core l axis s Hl Ha) in H.
  cbn zeta in H. set (u := vdivs axis (norm axis)) in *. set (e := mrow ident ((l + 1) mod 3)) in *.
  set (w := vsub e (vscale (dot e u) u)) in *.
  destruct (Req_EM_T (norm w) 0) as [N|N]; [discriminate|]. injection H as H.
  assert (Hu : dot u u = 1) by (apply unit_vdivs; exact Ha).
  assert (Hw : 0 < norm w) by (pose proof (norm_nonneg w); lra).
  assert (Hb : dot (vdivs w (norm w)) (vdivs w (norm w)) = 1) by (apply unit_vdivs; exact Hw).
  assert (He : dot e e = 1) by (subst e; three Hl; unfold dot; cbn; ring).
  assert (Hub : dot u (vdivs w (norm w)) = 0).
  { rewrite dot_comm, dot_vdivs_l. destruct (project_norm0 e u He Hu) as [_ Z]. fold w in Z. rewrite Z. unfold Rdiv; ring. }
  destruct (cyclic_frame u (vdivs w (norm w)) Hu Hb Hub) as (C1 & C2 & C3 & C4 & C5 & C6).
  pose proof (vdivs_direction axis (proj1 (norm_pos_iff axis) Ha)) as Hd. fold u in Hd.
  clearbody e. subst s'. clear El.
  three Hl; cbn [with_frame s_sdr s_inv mrow]; auto.
Qed.

Lemma ref1_nan s label axis :
  setRefSystem1 s label axis = Nan <->
  (0 <= label < 3)%Z /\ nonnull axis /\ parallel axis (mrow ident (Nat.modulo (Z.to_nat label + 1) 3)).
Proof.
  split.
  - intros H. assert (HL : (0 <= label < 3)%Z /\ 0 < norm axis).
    { unfold setRefSystem1 in H. destruct ((label <? 0)%Z || (2 <? label)%Z)%bool eqn:E; [discriminate|].
      apply orb_false_iff in E. destruct (Rlt_dec 0 (norm axis)); [split; [lia|assumption]|discriminate]. }
    destruct HL as [HL Ha]. split; [exact HL|]. split; [apply nonnull_iff, norm_pos_iff; exact Ha|].
    remember (Z.to_nat label) as l eqn:Dl. assert (Hl : (l < 3)%nat) by lia.
    assert (El : label = Z.of_nat l) by lia. clear Dl. rewrite El in H. rewrite (ref1_core l axis s Hl Ha) in H.
    cbn zeta in H. set (u := vdivs axis (norm axis)) in *. set (e := mrow ident ((l + 1) mod 3)) in *.
    set (w := vsub e (vscale (dot e u) u)) in *.
    destruct (Req_EM_T (norm w) 0) as [N|N]; [|discriminate].
    apply norm_zero_iff in N.
    assert (He : dot e e = 1) by (subst e; three Hl; unfold dot; cbn; ring).
    assert (Hu : dot u u = 1) by (apply unit_vdivs; exact Ha).
    destruct (project_norm0 e u He Hu) as [Z _]. fold w in Z. rewrite N in Z.
    assert (Zk : dot e u * dot e u = 1) by (replace (dot vzero vzero) with 0 in Z by (unfold dot; cbn; ring); lra).
    assert (E : forall i, (i < 3)%nat -> vent e i = dot e u * vent u i).
    { intros i Hi. apply (f_equal (fun v => vent v i)) in N. subst w. three Hi; cbn [vsub vscale vent vx vy vz vzero] in N |- *; lra. }
    exists (norm axis * dot e u). intros i Hi. rewrite (E i Hi).
    transitivity (norm axis * vent u i * (dot e u * dot e u)); [|ring]. rewrite Zk, Rmult_1_r.
    subst u. three Hi; cbn; field; lra.
  - intros (HL & Ha & k & Hk).
    apply nonnull_iff in Ha. apply norm_pos_iff in Ha.
    remember (Z.to_nat label) as l eqn:Dl. assert (Hl : (l < 3)%nat) by lia.
    assert (El : label = Z.of_nat l) by lia. clear Dl. rewrite El. rewrite (ref1_core l axis s Hl Ha).
    cbn zeta. set (u := vdivs axis (norm axis)) in *. set (e := mrow ident ((l + 1) mod 3)) in *.
    destruct (Req_EM_T _ 0) as [N|N]; [reflexivity|]. elim N. apply norm_zero_iff.
    assert (He : dot e e = 1) by (subst e; three Hl; unfold dot; cbn; ring).
    assert (Hu : dot u u = 1) by (apply unit_vdivs; exact Ha).
    assert (Eu : u = vscale (k / norm axis) e).
    { apply vent_ext. intros i Hi. subst u. pose proof (Hk i Hi) as X. three Hi; cbn in X |- *; rewrite X; field; lra. }
    set (q := k / norm axis) in *. rewrite Eu in *.
    assert (Q : q * q = 1).
    { transitivity (dot (vscale q e) (vscale q e)); [|exact Hu].
      replace (dot (vscale q e) (vscale q e)) with (q * q * dot e e) by (unfold dot, vscale; cbn; ring). rewrite He; ring. }
    replace (dot e (vscale q e)) with (q * dot e e) by (unfold dot, vscale; cbn; ring). rewrite He.
    apply vec_ext; cbn; [replace (q * 1 * (q * vx e)) with (q * q * vx e) by ring
                        |replace (q * 1 * (q * vy e)) with (q * q * vy e) by ring
                        |replace (q * 1 * (q * vz e)) with (q * q * vz e) by ring]; rewrite Q; ring.
Qed.

(* ------------------------------------------------------------------ invariant of reachable shapes *)
Definition good_frame (s : shape) : Prop := leibniz (s_sdr s) <> 0 /\ s_inv s = inverse (s_sdr s).
Definition good_sizes (s : shape) : Prop :=
  match s_kind s with
  | CUBE | WEDGE => s_span s = V3 1 1 1 /\ s_inf s = vzero
  | CYLINDER => vx (s_span s) = 1 /\ vz (s_span s) = 1 /\ vy (s_scaling s) = 1 /\ 0 <= vy (s_span s) <= 2 * PI /\
                0 <= vx (s_inf s) /\ 0 <= vy (s_inf s) <= 2 * PI
  | SPHERE => vx (s_span s) = 1 /\ vy (s_scaling s) = 1 /\ vz (s_scaling s) = 1 /\ 0 <= vy (s_span s) <= 2 * PI /\
              0 <= vx (s_inf s) /\ 0 <= vy (s_inf s) <= 2 * PI /\ 0 <= vz (s_inf s) < PI /\
              0 <= vz (s_span s) <= PI - vz (s_inf s)
  end /\ 0 <= vx (s_scaling s) /\ 0 <= vy (s_scaling s) /\ 0 <= vz (s_scaling s).

Lemma atan_1_4 : 8 * atan 1 = 2 * PI.
Proof. rewrite atan_1. field. Qed.
Lemma Rmin_le a b c : 0 <= a -> 0 <= b -> b <= c -> 0 <= Rmin a b <= c.
Proof. intros. unfold Rmin. destruct (Rle_dec a b); lra. Qed.

Lemma setCoordinateType_good s t d : good_frame s /\ good_sizes s -> good_frame (setCoordinateType s t d) /\ good_sizes (setCoordinateType s t d).
Proof. intros [A B]. split; exact A || exact B. Qed.

Definition inf_ok (s : shape) : Prop :=
  match s_kind s with
  | CUBE | WEDGE => s_inf s = vzero
  | CYLINDER => 0 <= vx (s_inf s) /\ 0 <= vy (s_inf s) <= 2 * PI
  | SPHERE => 0 <= vx (s_inf s) /\ 0 <= vy (s_inf s) <= 2 * PI /\ 0 <= vz (s_inf s) < PI
  end.
Lemma good_inf s : good_sizes s -> inf_ok s.
Proof. unfold good_sizes, inf_ok. destruct (s_kind s); intros [H _]; tauto. Qed.
Lemma setSpan_good s sp : good_frame s -> inf_ok s -> good_frame (setSpan s sp) /\ good_sizes (setSpan s sp) /\ s_kind (setSpan s sp) = s_kind s.
Proof.
  intros F I. pose proof PI_RGT_0 as P.
  pose proof (Rabs_pos (vx sp)). pose proof (Rabs_pos (vy sp)). pose proof (Rabs_pos (vz sp)).
  unfold setSpan, checkSpan, setScaling, good_frame, good_sizes in *.
  unfold inf_ok in I.
  destruct s as [k o span inf sdr inv scal c0 c1 c2]; cbn [s_kind s_origin s_span s_inf s_sdr s_inv s_scaling] in *.
  destruct k; cbn.
  - repeat split; try tauto; assumption.
  - rewrite atan_1_4. pose proof (Rmin_le (Rabs (vy sp)) (2 * PI) (2 * PI)).
    destruct (Rlt_dec _ _); cbn; repeat split; try tauto; try assumption; try lra.
  - pose proof (Rmin_le (Rabs (vy sp)) (2 * PI) (2 * PI)).
    assert (Z : 0 <= Rmin (Rabs (vz sp)) (0.5 * (2 * PI) - vz inf) <= PI - vz inf) by (apply Rmin_le; lra).
    destruct (Rlt_dec _ _); cbn; repeat split; try tauto; try assumption; try lra.
  - repeat split; try tauto; assumption.
Qed.

Lemma setInfLimits_good s o d : good_frame s /\ good_sizes s -> good_frame (setInfLimits s o d) /\ good_sizes (setInfLimits s o d).
Proof.
  intros [F G]. unfold setInfLimits. destruct ((d <? 0)%Z || (2 <? d)%Z)%bool eqn:E; [auto|].
  destruct (checkInfLimits (s_kind s) o d) as [v|] eqn:C; [|auto].
  match goal with |- good_frame (setSpan ?x ?y) /\ _ => destruct (setSpan_good x y) as (A & B & _) end.
  - exact F.
  - pose proof (good_inf s G) as I. pose proof PI_RGT_0 as P.
    assert (M : 0 <= Rmax 0 o) by apply Rmax_l.
    unfold inf_ok in *. destruct s as [k og span inf sdr inv scal c0 c1 c2]; cbn [s_kind s_inf vx vy vz] in *.
    unfold checkInfLimits in C. destruct k; try discriminate.
    + destruct (Z.eqb d 0) eqn:D0; [apply Z.eqb_eq in D0; subst d; injection C as <-; cbn; tauto|].
      destruct (Z.eqb d 1) eqn:D1; [|discriminate]. apply Z.eqb_eq in D1; subst d. injection C as <-; cbn.
      split; [tauto|]. pose proof (Rmin_le (2 * PI) (Rmax 0 o) (Rmax 0 o)). pose proof (Rmin_l (2 * PI) (Rmax 0 o)). lra.
    + destruct (Z.eqb d 0) eqn:D0; [apply Z.eqb_eq in D0; subst d; injection C as <-; cbn; tauto|].
      destruct (Z.eqb d 1) eqn:D1.
      * apply Z.eqb_eq in D1; subst d. injection C as <-; cbn.
        split; [tauto|]. pose proof (Rmin_le (2 * PI) (Rmax 0 o) (Rmax 0 o)). pose proof (Rmin_l (2 * PI) (Rmax 0 o)).
        split; [lra|tauto].
      * destruct (Z.eqb d 2) eqn:D2; [|discriminate]. injection C as <-; cbn.
        split; [tauto|]. split; [tauto|].
        set (q := (0.5 - / (10 * (10 * (10 * (10 * (10 * (10 * (10 * (10 * (10 * (10 * (10 * (10 * 1))))))))))))) * (2 * PI)).
        assert (Q : 0 < q < PI) by (subst q; split; nra).
        pose proof (Rmin_le q (Rmax 0 o) (Rmax 0 o)). pose proof (Rmin_l q (Rmax 0 o)). lra.
  - split; assumption.
Qed.

Lemma reach_good k s : reach k s -> good_frame s /\ good_sizes s /\ s_kind s = k.
Proof.
  intros H. induction H as [|s o s' H [F [G K]] C].
  - pose proof PI_RGT_0.
    split; [|split; [|destruct k; reflexivity]].
    + split; [destruct k; unfold leibniz, ment, vent; cbn; lra|].
      destruct k; cbn; unfold inverse, det, ident; cbn; f_equal; apply vec_ext; cbn; field.
    + destruct k; unfold good_sizes; cbn; repeat split; lra.
  - destruct o as [v|v|v d|v|a b c|l a|t d]; cbn [call] in C.
    + injection C as <-. auto.
    + injection C as <-. destruct (setSpan_good s v F (good_inf s G)) as (A & B & E). repeat split; try apply A; try apply B; congruence.
    + injection C as <-. destruct (setInfLimits_good s v d (conj F G)) as (A & B). split; [exact A|]. split; [exact B|].
      unfold setInfLimits. destruct (_ || _)%bool; [exact K|]. destruct (checkInfLimits (s_kind s) v d); [|exact K].
      unfold setSpan, checkSpan, setScaling; cbn. rewrite K. destruct k; cbn; try reflexivity; destruct (Rlt_dec _ _); reflexivity.
    + injection C as <-. unfold setInfLimits3.
      assert (KK : forall s0 o d, s_kind s0 = k -> s_kind (setInfLimits s0 o d) = k).
      { intros s0 o d K0. unfold setInfLimits. destruct (_ || _)%bool; [exact K0|]. destruct (checkInfLimits (s_kind s0) o d); [|exact K0].
        unfold setSpan, checkSpan, setScaling; cbn. rewrite K0. destruct k; cbn; try reflexivity; destruct (Rlt_dec _ _); reflexivity. }
      destruct (setInfLimits_good _ (vz v) 2 (setInfLimits_good _ (vy v) 1 (setInfLimits_good s (vx v) 0 (conj F G)))) as [A B].
      split; [exact A|]. split; [exact B|]. exact (KK _ _ _ (KK _ _ _ (KK _ _ _ K))).
    + destruct (setRefSystem_changed _ _ _ _ _ C) as (_ & _ & _ & E & W). subst s'.
      split; [split; [apply within_invertible; exact W|reflexivity]|]. split; [exact G|exact K].
    + destruct (ref1_changed _ _ _ _ C) as (HL & Ha & O & R & D & I).
      split; [split; [unfold right_handed in R; rewrite R; lra|exact I]|].
      assert (E : exists m, s' = with_frame s m).
      { unfold setRefSystem1 in C. destruct (_ || _)%bool; [discriminate|]. destruct (Rlt_dec 0 (norm a)); [|discriminate].
        cbn zeta in C. destruct (Req_EM_T _ 0); [discriminate|]. destruct (Req_EM_T _ 0); [discriminate|].
        injection C as <-. eexists. reflexivity. }
      destruct E as [m ->]. split; [exact G|exact K].
    + injection C as <-. destruct (setCoordinateType_good s t d (conj F G)). auto.
Qed.

(* ------------------------------------------------------------------ statements about single calls *)
Lemma axes_ok s a0 a1 a2 :
  (forall s', setRefSystem s a0 a1 a2 = Changed s' ->
     orthonormal_within (/ 1000) (s_sdr s') /\ inverses (s_sdr s') (s_inv s') /\
     direction (row0 (s_sdr s')) a0 /\ direction (row1 (s_sdr s')) a1 /\ direction (row2 (s_sdr s')) a2 /\
     s_kind s' = s_kind s /\ s_origin s' = s_origin s /\ getSpan s' = getSpan s /\ s_inf s' = s_inf s) /\
  setRefSystem s a0 a1 a2 <> Nan.
Proof.
  split.
  - intros s' H. destruct (setRefSystem_changed _ _ _ _ _ H) as (A & B & C & E & O).
    split; [exact O|]. split.
    + pose proof (within_invertible _ O) as D. rewrite E in D |- *. cbn [s_sdr s_inv with_frame] in *. apply inverse_ok. exact D.
    + rewrite nonnull_iff in A, B, C. rewrite E. cbn [s_sdr with_frame row0 row1 row2].
      split; [apply vdivs_direction; exact A|]. split; [apply vdivs_direction; exact B|]. split; [apply vdivs_direction; exact C|].
      repeat split.
  - unfold setRefSystem. destruct (Rlt_dec _ _); [|discriminate]. destruct (Rlt_dec _ _); [|discriminate].
    destruct (Rlt_dec _ _); [|discriminate]. cbv zeta. destruct (Rlt_dec _ _); discriminate.
Qed.
Lemma axes_accepted s a0 a1 a2 : nonnull a0 -> nonnull a1 -> nonnull a2 ->
  sum3 (fun k => vent a0 k * vent a1 k) = 0 -> sum3 (fun k => vent a1 k * vent a2 k) = 0 -> sum3 (fun k => vent a0 k * vent a2 k) = 0 ->
  exists s', setRefSystem s a0 a1 a2 = Changed s' /\ orthonormal (s_sdr s').
Proof.
  rewrite !nonnull_iff, <- !norm_pos_iff. intros A B C E0 E1 E2.
  change (dot a0 a1 = 0) in E0. change (dot a1 a2 = 0) in E1. change (dot a0 a2 = 0) in E2.
  assert (Z : forall u v a b, dot u v = 0 -> dot (vdivs u a) (vdivs v b) = 0).
  { intros u v a b H. transitivity (dot u v * (/ a * / b)); [unfold dot, vdivs, Rdiv; cbn; ring|]. rewrite H; ring. }
  exists (with_frame s (M3 (vdivs a0 (norm a0)) (vdivs a1 (norm a1)) (vdivs a2 (norm a2)))).
  split.
  - unfold setRefSystem. destruct (Rlt_dec 0 (norm a0)) as [_|N]; [|contradiction].
    destruct (Rlt_dec 0 (norm a1)) as [_|N]; [|contradiction]. destruct (Rlt_dec 0 (norm a2)) as [_|N]; [|contradiction].
    cbv zeta. rewrite !Z by assumption. rewrite Rabs_R0. destruct (Rlt_dec _ _); [lra|reflexivity].
  - cbn [s_sdr with_frame]. destruct (axis_dot_rows (vdivs a0 (norm a0)) (vdivs a1 (norm a1)) (vdivs a2 (norm a2))) as (F0 & F1 & F2 & F3 & F4 & F5).
    rewrite unit_vdivs in F0 by assumption. rewrite unit_vdivs in F1 by assumption. rewrite unit_vdivs in F2 by assumption.
    rewrite Z in F3 by assumption. rewrite Z in F4 by assumption. rewrite Z in F5 by assumption.
    assert (Sy : forall m i j, axis_dot m i j = axis_dot m j i) by (intros; unfold axis_dot, sum3; ring).
    intros i j Hi Hj. three Hi; three Hj; unfold delta; cbn [Nat.eqb]; first [assumption | rewrite Sy; assumption].
Qed.

Lemma span_ok k s sp : reach k s ->
  let s' := setSpan s sp in
  vent (getSpan s') 0 = Rabs (vx sp) /\
  vent (getSpan s') 1 = (match k with CYLINDER | SPHERE => Rmin (Rabs (vy sp)) (2 * PI) | _ => Rabs (vy sp) end) /\
  vent (getSpan s') 2 = (match k with SPHERE => Rmin (Rabs (vz sp)) (PI - vz (s_inf s)) | _ => Rabs (vz sp) end) /\
  s_origin s' = s_origin s /\ s_inf s' = s_inf s /\ s_sdr s' = s_sdr s /\ s_inv s' = s_inv s /\ s_kind s' = k.
Proof.
  intros H s'. destruct (reach_good k s H) as (_ & _ & K). subst k. unfold s', setSpan, checkSpan. destruct (s_kind s) eqn:K.
  - unfold setScaling. rewrite K. cbn. repeat split; ring.
  - rewrite atan_1_4. destruct (Rlt_dec _ _); unfold setScaling; cbn [s_kind setCoordinateType]; rewrite K; cbn; repeat split; ring.
  - replace (0.5 * (2 * PI) - vz (s_inf s)) with (PI - vz (s_inf s)) by lra.
    destruct (Rlt_dec _ _); unfold setScaling; cbn [s_kind setCoordinateType]; rewrite K; cbn; repeat split; ring.
  - unfold setScaling. rewrite K. cbn. repeat split; ring.
Qed.

Lemma span_idem s sp : (forall k, s_kind s = k -> True) ->
  let s' := setSpan s sp in
  vx (getSpan s') = Rabs (vx sp) /\
  vy (getSpan s') = (match s_kind s with CYLINDER | SPHERE => Rmin (Rabs (vy sp)) (2 * PI) | _ => Rabs (vy sp) end) /\
  vz (getSpan s') = (match s_kind s with SPHERE => Rmin (Rabs (vz sp)) (PI - vz (s_inf s)) | _ => Rabs (vz sp) end) /\
  s_inf s' = s_inf s.
Proof.
  intros _ s'. unfold s', setSpan, checkSpan. destruct (s_kind s) eqn:K.
  - unfold setScaling. rewrite K. cbn. repeat split; ring.
  - rewrite atan_1_4. destruct (Rlt_dec _ _); unfold setScaling; cbn [s_kind setCoordinateType]; rewrite K; cbn; repeat split; ring.
  - replace (0.5 * (2 * PI) - vz (s_inf s)) with (PI - vz (s_inf s)) by lra.
    destruct (Rlt_dec _ _); unfold setScaling; cbn [s_kind setCoordinateType]; rewrite K; cbn; repeat split; ring.
  - unfold setScaling. rewrite K. cbn. repeat split; ring.
Qed.
Lemma good_span s : good_sizes s -> 0 <= vx (getSpan s) /\ 0 <= vy (getSpan s) /\ 0 <= vz (getSpan s) /\
  (s_kind s = CYLINDER \/ s_kind s = SPHERE -> vy (getSpan s) <= 2 * PI) /\
  (s_kind s = SPHERE -> vz (getSpan s) <= PI - vz (s_inf s)).
Proof.
  unfold good_sizes, getSpan, cmul. cbn [vx vy vz]. destruct (s_kind s); intros (G & S0 & S1 & S2).
  - destruct G as [-> ->]. cbn. repeat split; try lra; [intros [H|H]|intros H]; discriminate.
  - destruct G as (-> & -> & -> & G). repeat split; try lra; try (intros; lra). intros; discriminate.
  - destruct G as (-> & -> & -> & G). repeat split; try lra; intros; lra.
  - destruct G as [-> ->]. cbn. repeat split; try lra; [intros [H|H]|intros H]; discriminate.
Qed.

Lemma infimum_ok k s o dir : reach k s ->
  let s' := setInfLimits s o dir in
  (forall i, (i < 3)%nat -> Z.of_nat i <> dir -> vent (s_inf s') i = vent (s_inf s) i) /\
  (forall i, (i < 3)%nat -> (i < 2)%nat \/ k <> SPHERE \/ dir <> 2%Z -> vent (getSpan s') i = vent (getSpan s) i) /\
  (k = SPHERE -> vz (getSpan s') <= vz (getSpan s) /\ vz (s_inf s') + vz (getSpan s') <= PI) /\
  (k = CYLINDER \/ k = SPHERE -> dir = 0%Z -> vx (s_inf s') = Rmax 0 o) /\
  (k = CYLINDER \/ k = SPHERE -> dir = 1%Z -> 0 <= o <= 2 * PI -> vy (s_inf s') = o) /\
  (k = CUBE \/ k = WEDGE -> s' = s).
Proof.
  intros H s'. destruct (reach_good k s H) as (F & G & K). subst k. pose proof (good_span s G) as (S0 & S1 & S2 & S3 & S4).
  assert (G' : good_sizes s') by (apply setInfLimits_good; auto).
  assert (K' : s_kind s' = s_kind s) by (apply (reach_good _ s'); eapply reach_call; [exact H|]; instantiate (1 := OpInf o dir); reflexivity).
  pose proof (good_span s' G') as (_ & _ & _ & _ & T4). rewrite K' in T4.
  assert (Same : s' = s -> (s_kind s = CYLINDER \/ s_kind s = SPHERE -> dir <> 0%Z /\ dir <> 1%Z) ->
     (forall i, (i < 3)%nat -> Z.of_nat i <> dir -> vent (s_inf s') i = vent (s_inf s) i) /\
     (forall i, (i < 3)%nat -> (i < 2)%nat \/ s_kind s <> SPHERE \/ dir <> 2%Z -> vent (getSpan s') i = vent (getSpan s) i) /\
     (s_kind s = SPHERE -> vz (getSpan s') <= vz (getSpan s) /\ vz (s_inf s') + vz (getSpan s') <= PI) /\
     (s_kind s = CYLINDER \/ s_kind s = SPHERE -> dir = 0%Z -> vx (s_inf s') = Rmax 0 o) /\
     (s_kind s = CYLINDER \/ s_kind s = SPHERE -> dir = 1%Z -> 0 <= o <= 2 * PI -> vy (s_inf s') = o) /\
     (s_kind s = CUBE \/ s_kind s = WEDGE -> s' = s)).
  { intros -> D. split; [reflexivity|]. split; [reflexivity|]. split; [|split; [|split; [|reflexivity]]].
    - intros Q. specialize (S4 Q). lra.
    - intros Q E. destruct (D Q); contradiction.
    - intros Q E. destruct (D Q); contradiction. }
  unfold s', setInfLimits in *. destruct ((dir <? 0)%Z || (2 <? dir)%Z)%bool eqn:E.
  { apply orb_true_iff in E. apply Same; [reflexivity|]. intros _. lia. }
  apply orb_false_iff in E. destruct (checkInfLimits (s_kind s) o dir) as [v|] eqn:C.
  - cbn zeta in *.
    set (t := Sh _ _ _ _ _ _ _ _ _ _) in *. pose proof (span_idem t (getSpan s) (fun _ _ => I)) as (A0 & A1 & A2 & A3). cbn zeta in A0, A1, A2, A3.
    change (s_kind t) with (s_kind s) in A1, A2.
    rewrite Rabs_right in A0, A1, A2 by (apply Rle_ge; assumption).
    assert (KK : s_kind s = CYLINDER \/ s_kind s = SPHERE) by (unfold checkInfLimits in C; destruct (s_kind s); try discriminate; auto).
    rewrite A3. split; [|split; [|split; [|split; [|split]]]].
    + intros i Hi N. unfold t; cbn [s_inf]. three Hi; cbn [vent vx vy vz]; [destruct (Z.eqb_spec dir 0)|destruct (Z.eqb_spec dir 1)|destruct (Z.eqb_spec dir 2)]; try reflexivity; subst dir; cbn in N; congruence.
    + intros i Hi N. three Hi; cbn [vent].
      * exact A0.
      * rewrite A1. specialize (S3 KK). destruct KK as [KK|KK]; rewrite KK; apply Rmin_left; exact S3.
      * rewrite A2. destruct KK as [KK|KK]; rewrite KK; [reflexivity|].
        destruct N as [N|[N|N]]; [lia|congruence|]. unfold t; cbn [s_inf vz]. destruct (Z.eqb_spec dir 2); [contradiction|].
        apply Rmin_left. apply S4. exact KK.
    + intros Q. rewrite A2, Q. split; [apply Rmin_l|]. pose proof (Rmin_r (vz (getSpan s)) (PI - vz (s_inf t))). lra.
    + intros _ ->. cbn. unfold checkInfLimits in C. destruct KK as [KK|KK]; rewrite KK in C; cbn in C; injection C as <-; reflexivity.
    + intros _ -> O. cbn. pose proof PI_RGT_0. assert (Q : Rmin (2 * PI) (Rmax 0 o) = o) by (rewrite Rmax_right by lra; apply Rmin_right; lra).
      unfold checkInfLimits in C. destruct KK as [KK|KK]; rewrite KK in C; cbn in C; injection C as <-; exact Q.
    + intros Q. destruct KK as [KK|KK]; destruct Q as [Q|Q]; congruence.
  - apply Same; [reflexivity|]. intros Q. unfold checkInfLimits in C.
    destruct Q as [Q|Q]; rewrite Q in C; destruct (Z.eqb_spec dir 0); try discriminate; destruct (Z.eqb_spec dir 1); try discriminate; auto.
Qed.
