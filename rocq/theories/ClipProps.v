(** C86: clipping a geometry with a plane. *)
From Coq Require Import String List Arith Bool ZArith Reals Lia Lra.
From Verif Require Import Vec SharedPtr Obj ObjSpec ObjProofs PidProps Select SelectSpec SelectProofs SelectProps.
Import ListNotations.
Open Scope list_scope.
Open Scope nat_scope.

Lemma norm_pos n : n <> vzero -> (0 < norm n)%R.
Proof.
  intros N. unfold norm. apply sqrt_lt_R0. destruct n as [a b c]. unfold dot. cbn [vx vy vz].
  destruct (Req_dec a 0) as [Ea|Ea]; [destruct (Req_dec b 0) as [Eb|Eb]; [destruct (Req_dec c 0) as [Ec|Ec]; [exfalso; apply N; subst; reflexivity|]|]|]; nra.
Qed.
Lemma norm_unit n : n <> vzero -> norm (vscale (/ norm n) n) = 1%R.
Proof.
  intros N. pose proof (norm_pos n N) as P. unfold norm at 1. replace (dot (vscale (/ norm n) n) (vscale (/ norm n) n)) with 1%R; [apply sqrt_1|].
  assert (Q : (dot n n = norm n * norm n)%R). { unfold norm. rewrite sqrt_sqrt; [reflexivity|]. unfold dot. nra. }
  unfold dot in *. cbn [vscale vx vy vz]. field_simplify; [|lra]. apply (Rmult_eq_reg_r (norm n * norm n)); [|nra]. field_simplify; [|lra]. lra.
Qed.
Lemma clip_ids fr clean centroid c g : new_ids fr -> pid_history fr g -> usable g -> apart_by (/ 1000000) g -> merges_close clean -> o_type g <> 3 ->
  forall n d, cp_implicit c = true -> cp_plane c = Some (n, d) -> (/ 10 ^ 18 <= norm n)%R ->
  exists r, clip_execute clean centroid c g = Some (c, r) /\ o_tol r = (/ 1000000)%R /\ part g (fun i => kept_side c n d (centroid g i) = true) r.
Proof.
  intros F H U A M N n d Im Pl Ln. unfold clip_execute. rewrite Im.
  assert (Ex : forall i, In i (clipPlane centroid c g) <-> In i (map fst (o_cells g)) /\ kept_side c n d (centroid g i) = true).
  { intros i. unfold clipPlane. rewrite Pl. destruct (Rlt_dec (norm n) (/ 10 ^ 18)) as [L|_]; [lra|]. rewrite (proj2 (Nat.eqb_neq _ _) N). apply filter_In. }
  destruct (copy_part_ok (clipPlane centroid c g) g (o_type g) (/ 1000000) (history_proper fr g F H U) N eq_refl) as [r [E1 [E2 [Pr [E3 [E4 Sub]]]]]]; [intros i Hi; apply Ex in Hi; exact (proj1 Hi)|].
  unfold new_obj. rewrite E1. exists (give_names (o_names g) r). split; [|split; [exact E3|]].
  - do 2 f_equal. apply M. unfold apart. rewrite E3. intros v w x y Hx Hy Ne. exact (A v w x y (Sub _ Hx) (Sub _ Hy) Ne).
  - refine (part_ext g _ _ _ _ Pr). intros i k Hk. rewrite Ex. split; [intros [_ Q]; exact Q|intros Q; split; [|exact Q]]. apply in_map_iff. exists (i, k). split; [reflexivity|exact Hk].
Qed.
Lemma kept_iff c n d x : kept_side c n d x = true <-> (if cp_out c then (dot (vscale (/ norm n) n) x + d < 0)%R else (0 < dot (vscale (/ norm n) n) x + d)%R).
Proof.
  unfold kept_side. set (q := (dot (vscale (/ norm n) n) x + d)%R). destruct (Rlt_dec 0 ((if cp_out c then (-1)%R else 1%R) * q)) as [L|L]; destruct (cp_out c); (split; [intros E|intros E]); try reflexivity; try discriminate; lra.
Qed.
Lemma side_iff o n x : n <> vzero -> let m := vscale (/ norm n) n in
  ((0 < dot (vscale (/ norm m) m) x + (-1 * dot o m))%R <-> beyond o n x) /\ ((dot (vscale (/ norm m) m) x + (-1 * dot o m) < 0)%R <-> behind o n x).
Proof.
  intros N. pose proof (norm_pos n N) as P. cbv zeta. rewrite (norm_unit n N). set (k := norm n) in *. clearbody k.
  set (q := (vx n * (vx x - vx o) + vy n * (vy x - vy o) + vz n * (vz x - vz o))%R).
  replace (dot (vscale (/ 1) (vscale (/ k) n)) x + -1 * dot o (vscale (/ k) n))%R with (/ k * q)%R.
  2: { unfold q, dot. cbn [vscale vx vy vz]. field. lra. }
  unfold beyond, behind. fold q. pose proof (Rinv_0_lt_compat k P) as I. split; split; intros Q; nra.
Qed.

(** The plane through [o] of normal [n], given by one call or by two: the clipped geometry is the
    part made of the cells whose centroid is on the side where the normal points, or on the other
    one if inside out; cells with the centroid on the plane are in neither.  Executing again gives
    the same. *)
Theorem C86_clip : forall fr clean centroid g o n out, new_ids fr -> pid_history fr g -> usable g -> apart_by (/ 1000000) g -> merges_close clean ->
  o_type g <> 3 -> n <> vzero ->
  forall c, c = setInsideOut out (setClipPlane_point o n new_clip) \/ c = setInsideOut out (cp_setNormal n (cp_setOrigin o new_clip)) ->
  exists c' r, clip_execute clean centroid c g = Some (c', r) /\
    part g (fun i => if out then behind o n (centroid g i) else beyond o n (centroid g i)) r /\
    clip_execute clean centroid c' g = Some (c', r).
Proof.
  intros fr clean centroid g o n out F H U A M T N c Hc.
  set (c' := if cp_implicit c then c else setClipPlane_point (cp_origin c) (cp_normal c) c).
  set (m := vscale (/ norm n) n). pose proof (norm_pos n N) as P. pose proof (norm_unit n N) as Nm. fold m in Nm.
  assert (Up : unit_plane o n = Some (m, (-1 * dot o m)%R)) by (unfold unit_plane; destruct (Req_EM_T (norm n) 0) as [Z|_]; [lra|reflexivity]).
  assert (S' : cp_implicit c' = true /\ cp_plane c' = Some (m, (-1 * dot o m)%R) /\ cp_out c' = out).
  { unfold c'. destruct Hc as [-> | ->]; cbn [setInsideOut setClipPlane_point cp_setNormal cp_setOrigin new_clip cp_implicit cp_plane cp_out cp_origin cp_normal]; (split; [reflexivity|split; [exact Up|reflexivity]]). }
  destruct S' as [I1 [I2 I3]].
  destruct (clip_ids fr clean centroid c' g F H U A M T m (-1 * dot o m) I1 I2) as [r [Er [_ Pr]]]; [rewrite Nm; lra|].
  exists c', r. split; [|split; [|exact Er]].
  - rewrite <- Er. unfold clip_execute. fold c'. rewrite I1. reflexivity.
  - refine (part_ext g _ _ _ _ Pr). intros i k _. rewrite kept_iff, I3. destruct (side_iff o n (centroid g i) N) as [X Y]. fold m in X, Y. destruct out; assumption.
Qed.
Print Assumptions C86_clip.
(** Four coefficients a, b, c, d: the half space a x + b y + c z + d > 0, if the normal is of
    length one.  Missing: any other length (see C86_coefficients_refuted). *)
Theorem C86_coefficients_partial : forall fr clean centroid g n d out, new_ids fr -> pid_history fr g -> usable g -> apart_by (/ 1000000) g -> merges_close clean ->
  o_type g <> 3 -> (vx n * vx n + vy n * vy n + vz n * vz n = 1)%R ->
  let side x := (vx n * vx x + vy n * vy x + vz n * vz x + d)%R in
  exists c r, clip_execute clean centroid (setInsideOut out (setClipPlane n d new_clip)) g = Some (c, r) /\
    part g (fun i => if out then (side (centroid g i) < 0)%R else (0 < side (centroid g i))%R) r.
Proof.
  intros fr clean centroid g n d out F H U A M T L side.
  assert (Nn : norm n = 1%R) by (unfold norm, dot; rewrite L; apply sqrt_1).
  destruct (clip_ids fr clean centroid (setInsideOut out (setClipPlane n d new_clip)) g F H U A M T n d eq_refl eq_refl) as [r [Er [_ Pr]]]; [rewrite Nn; lra|].
  eexists. exists r. split; [exact Er|]. refine (part_ext g _ _ _ _ Pr). intros i k _. rewrite kept_iff, Nn. cbn [setInsideOut cp_out].
  replace (dot (vscale (/ 1) n) (centroid g i) + d)%R with (side (centroid g i)); [destruct out; reflexivity|]. unfold side, dot. cbn [vscale vx vy vz]. field.
Qed.
Print Assumptions C86_coefficients_partial.
(** The constant is not divided by the length of the normal: with 2 x - 2 = 0, that is x = 1, a cell
    whose centroid is at x = 3/2 is dropped. *)
Theorem C86_coefficients_refuted : forall fr clean centroid g, new_ids fr -> pid_history fr g -> usable g -> apart_by (/ 1000000) g -> merges_close clean ->
  o_type g <> 3 -> (forall i, centroid g i = V3 (3 / 2) 0 0) ->
  exists c r, clip_execute clean centroid (setClipPlane (V3 2 0 0) (-2) new_clip) g = Some (c, r) /\ o_cells r = [] /\
    forall i, (0 < 2 * vx (centroid g i) - 2)%R.
Proof.
  intros fr clean centroid g F H U A M T C.
  assert (Nn : norm (V3 2 0 0) = 2%R) by (unfold norm, dot; cbn [vx vy vz]; replace (2 * 2 + 0 * 0 + 0 * 0)%R with (2 * 2)%R by ring; apply sqrt_square; lra).
  destruct (clip_ids fr clean centroid (setClipPlane (V3 2 0 0) (-2) new_clip) g F H U A M T (V3 2 0 0) (-2) eq_refl eq_refl) as [r [Er [_ Pr]]]; [rewrite Nn; lra|].
  eexists. exists r. split; [exact Er|]. split; [|intros i; rewrite C; cbn [vx]; lra]. destruct Pr as [_ [_ [Pc _]]].
  destruct (o_cells r) as [|[i c] l] eqn:E; [reflexivity|]. exfalso. destruct (proj1 (Pc i c)) as [_ Q]; [left; reflexivity|].
  apply kept_iff in Q. cbn [setClipPlane cp_out new_clip] in Q. rewrite Nn, C in Q. unfold dot in Q. cbn [vscale vx vy vz] in Q. lra.
Qed.
Print Assumptions C86_coefficients_refuted.
(** A zero normal gives an empty geometry, not an error. *)
Theorem C86_zero : forall clean centroid g o out, merges_close clean -> o_type g <> 3 ->
  (forall c, c = setInsideOut out (setClipPlane_point o vzero new_clip) \/ c = setInsideOut out (cp_setNormal vzero (cp_setOrigin o new_clip)) ->
   exists c', clip_execute clean centroid c g = Some (c', new_obj (o_type g))).
Proof.
  intros clean centroid g o out M T c Hc.
  assert (Z : unit_plane o vzero = None).
  { unfold unit_plane. destruct (Req_EM_T (norm vzero) 0) as [_|Q]; [reflexivity|]. destruct Q. unfold norm, dot, vzero. cbn [vx vy vz]. replace (0 * 0 + 0 * 0 + 0 * 0)%R with 0%R by ring. apply sqrt_0. }
  set (c' := if cp_implicit c then c else setClipPlane_point (cp_origin c) (cp_normal c) c).
  assert (P : cp_plane c' = None) by (unfold c'; destruct Hc as [-> | ->]; exact Z).
  exists c'. unfold clip_execute. fold c'. unfold clipPlane. rewrite P. unfold copy_part, getVertexFromCellList. rewrite (proj2 (Nat.eqb_neq _ _) T). cbn [flat_map nodup copy_verts copy_cells].
  do 2 f_equal. apply M. intros v w x y [].
Qed.
Print Assumptions C86_zero.
(** After the first execution, setOrigin and setNormal have no effect. *)
Theorem C86_later_refuted : forall clean centroid c g c' r o n, clip_execute clean centroid c g = Some (c', r) ->
  exists c2, clip_execute clean centroid (cp_setNormal n (cp_setOrigin o c')) g = Some (c2, r).
Proof.
  intros clean centroid c g c' r o n H. unfold clip_execute in *.
  set (c1 := if cp_implicit c then c else setClipPlane_point (cp_origin c) (cp_normal c) c) in *.
  assert (I : cp_implicit c1 = true) by (unfold c1; destruct (cp_implicit c) eqn:E; [exact E|reflexivity]). clearbody c1.
  destruct (copy_part (clipPlane centroid c1 g) g (new_obj (o_type g))) as [q|] eqn:E; [|discriminate]. injection H as <- <-.
  cbn [cp_setNormal cp_setOrigin cp_implicit]. rewrite I.
  assert (Q : clipPlane centroid (cp_setNormal n (cp_setOrigin o c1)) g = clipPlane centroid c1 g) by reflexivity. rewrite Q, E. eexists. reflexivity.
Qed.
Print Assumptions C86_later_refuted.
(** A cloud of points without cells cannot be clipped: one vertex to keep and the behaviour is
    undefined. *)
Theorem C86_cloud_refuted : forall clean centroid g o n v x, o_type g = 3 -> o_cells g = [] -> n <> vzero -> In (v, x) (o_verts g) -> beyond o n x ->
  clip_execute clean centroid (setClipPlane_point o n new_clip) g = None.
Proof.
  intros clean centroid g o n v x T C N Hx B. unfold clip_execute. cbn [setClipPlane_point cp_implicit].
  set (c := setClipPlane_point o n new_clip). pose proof (norm_pos n N) as P. pose proof (norm_unit n N) as Nm.
  assert (K : In v (clipPlane centroid c g)).
  { unfold clipPlane, c. cbn [setClipPlane_point cp_plane]. unfold unit_plane. destruct (Req_EM_T (norm n) 0) as [Z|_]; [lra|]. cbv zeta. rewrite Nm.
    destruct (Rlt_dec 1 (/ 10 ^ 18)) as [L|_]; [lra|]. rewrite T. cbn [Nat.eqb]. apply in_map_iff. exists (v, x). split; [reflexivity|]. apply filter_In. split; [exact Hx|]. cbn [snd].
    apply kept_iff. cbn [cp_out new_clip]. apply (side_iff o n x N), B. }
  unfold copy_part, getVertexFromCellList. rewrite T. cbn [Nat.eqb copy_verts]. destruct (clipPlane centroid c g) as [|i l]; [destruct K|]. cbn [copy_cells]. rewrite C. reflexivity.
Qed.
Print Assumptions C86_cloud_refuted.
(** The clipped geometry has the default tolerance, whatever the one of the target. *)
Theorem C86_tolerance_refuted : forall fr clean centroid g o n, new_ids fr -> pid_history fr g -> usable g -> apart_by (/ 1000000) g -> merges_close clean ->
  o_type g <> 3 -> n <> vzero -> exists c r, clip_execute clean centroid (setClipPlane_point o n new_clip) g = Some (c, r) /\ o_tol r = (/ 1000000)%R.
Proof.
  intros fr clean centroid g o n F H U A M T N. set (m := vscale (/ norm n) n). pose proof (norm_pos n N) as P. pose proof (norm_unit n N) as Nm. fold m in Nm.
  assert (Up : cp_plane (setClipPlane_point o n new_clip) = Some (m, (-1 * dot o m)%R)) by (cbn [setClipPlane_point cp_plane]; unfold unit_plane; destruct (Req_EM_T (norm n) 0) as [Z|_]; [lra|reflexivity]).
  destruct (clip_ids fr clean centroid (setClipPlane_point o n new_clip) g F H U A M T m (-1 * dot o m) eq_refl Up) as [r [Er [Et _]]]; [rewrite Nm; lra|]. eexists. exists r. split; [exact Er|exact Et].
Qed.
Print Assumptions C86_tolerance_refuted.

(** the centroids of the two triangles of a square *)
Definition sq_centroid (g : obj) (i : nat) : vec := match i with O => V3 (2 / 3) (1 / 3) 0 | _ => V3 (1 / 3) (2 / 3) 0 end.
Example C86_nonvacuous : exists c r, clip_execute same sq_centroid (setInsideOut true (cp_setNormal (V3 3 0 0) (cp_setOrigin (V3 (1 / 2) 0 0) new_clip))) square = Some (c, r) /\
  carries r 1 5 /\ ~ (exists p, carries r 0 p).
Proof.
  destruct square_ok as [A [B [C [D E]]]].
  destruct (C86_clip fresh same sq_centroid square (V3 (1 / 2) 0 0) (V3 3 0 0) true fresh_new A B C same_merges E) with (c := setInsideOut true (cp_setNormal (V3 3 0 0) (cp_setOrigin (V3 (1 / 2) 0 0) new_clip))) as [c [r [H1 [H2 _]]]].
  { intros Q. injection Q as Q. lra. } { right. reflexivity. }
  exists c, r. split; [exact H1|]. destruct H2 as [_ [_ [Pc _]]]. split.
  - exists (Cl ETriangle [0; 2; 3] 5). split; [|reflexivity]. apply Pc. split; [right; left; reflexivity|]. unfold behind, sq_centroid. cbn [vx vy vz]. lra.
  - intros [p [k [Hk _]]]. apply Pc in Hk. destruct Hk as [_ Q]. unfold behind, sq_centroid in Q. cbn [vx vy vz] in Q. lra.
Qed.
