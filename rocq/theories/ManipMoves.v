(** Proofs about the manipulators: what each of them does to the vertices. *)
From Coq Require Import List Arith Bool Reals Lra Lia.
From Verif Require Import Vec SharedPtr SharedPtrProofs Field FieldProofs Manip ManipSpec ManipProofs.
Import ListNotations.
Open Scope R_scope.

Lemma moved_impl : forall (F G : nat -> vec -> vec -> Prop) vs ws, (forall i p q, In (i, p) vs -> F i p q -> G i p q) ->
  moved F vs ws -> moved G vs ws.
Proof.
  intros F G vs ws H M. unfold moved in *. induction M as [|[i p] [j q] r s [E K] _ IH]; [constructor|].
  constructor.
  - cbn [fst snd] in *. split; [exact E|]. apply H; [left; reflexivity|exact K].
  - apply IH. intros i' p' q' Hi. apply H. right. exact Hi.
Qed.
Lemma moved_trans : forall F G vs ws us, moved F vs ws -> moved G ws us ->
  moved (fun i p r => exists q, F i p q /\ G i q r) vs us.
Proof.
  intros F G vs ws us M. revert us. unfold moved. induction M as [|[i p] [j q] r s [E K] _ IH]; intros us N.
  - inversion N. constructor.
  - inversion N as [|? [l t] ? ? [E' K'] N']; subst. cbn [fst snd] in *. subst j. constructor; [|exact (IH _ N')].
    cbn [fst snd]. split; [exact E'|]. exists q. split; assumption.
Qed.
Lemma moved_same : forall vs ws, moved (fun _ p q => q = p) vs ws -> ws = vs.
Proof.
  intros vs ws M. unfold moved in M. induction M as [|[i p] [j q] r s [E K] _ IH]; [reflexivity|].
  cbn [fst snd] in *. subst. reflexivity.
Qed.
Lemma moved_refl : forall vs, moved (fun _ p q => q = p) vs vs.
Proof. intros vs. induction vs as [|e r IH]; constructor; [split; reflexivity|exact IH]. Qed.
Lemma moved_in : forall F vs ws i p q, distinct_ids vs -> moved F vs ws -> In (i, p) vs -> In (i, q) ws -> F i p q.
Proof.
  intros F vs ws i p q N M. unfold moved in M. induction M as [|[j a] [k b] r s [E K] M IH]; [intros []|].
  cbn [fst snd] in *. subst k. inversion N as [|? ? N1 N2]; subst. pose proof (moved_ids F r s M) as Ids.
  intros [P|P] [Q|Q].
  - injection P as <- <-. injection Q as <-. exact K.
  - injection P as <- <-. destruct N1. cbn. rewrite <- Ids. apply in_map_iff. exists (j, q). split; [reflexivity|exact Q].
  - injection Q as <- <-. destruct N1. apply in_map_iff. exists (j, p). split; [reflexivity|exact P].
  - exact (IH N2 P Q).
Qed.

Lemma wf_after : forall h h' g F, wf_store h -> (forall k, k <> g -> h' k = h k) ->
  moved F (so_verts (h g)) (so_verts (h' g)) -> wf_store h'.
Proof.
  intros h h' g F N O M k. destruct (Nat.eq_dec k g) as [->|K].
  - unfold distinct_ids. rewrite (moved_ids _ _ _ M). apply N.
  - rewrite (O k K). apply N.
Qed.

(** The weights do not change from an execution to the next one if no vertex was added. *)
Lemma weight_kept : forall h h' g m m',
  distinct_ids (fd_data (m_filter m)) -> distinct_ids (fd_data (m_filter m')) ->
  fd_loc (m_filter m') = LPoint -> fd_geo (m_filter m') = Some g ->
  incl (map fst (fd_data (m_filter m'))) (vert_ids h g) ->
  (forall i, In i (vert_ids h g) -> exists k, find i (fd_data (m_filter m')) = Some k /\
        weight (so_verts (h g)) g (m_filter m) i k) ->
  map fst (so_verts (h' g)) = map fst (so_verts (h g)) ->
  forall i k, In i (vert_ids h g) -> weight (so_verts (h' g)) g (m_filter m') i k -> weight (so_verts (h g)) g (m_filter m) i k.
Proof.
  intros h h' g m m' N N' L G I W E i k Hi [[U V]|[U _]].
  - destruct (W i Hi) as [k' [F Wk]]. apply (value_or_look _ _ _ _ _ N') in V. unfold look in V. rewrite F in V. subst k. exact Wk.
  - destruct U. split; [exact L|]. split; [exact G|]. rewrite E. exact I.
Qed.

(** ** Rotation *)
Lemma rotation_total : forall x a p k, rotation x a p k <> None.
Proof. discriminate. Qed.

Lemma rotation_ok : forall h m g x alpha, wf_store h -> distinct_ids (fd_data (m_filter m)) -> m_geo m = Some g ->
  unit_vec (x_dir x) ->
  exists h' m', exec (rotation x alpha) h m = Some (h', m') /\ (forall k, k <> g -> h' k = h k) /\
    moved (fun i p r => exists w q, weight (so_verts (h g)) g (m_filter m) i w /\
             turned (x_origin x) (x_dir x) alpha p q /\ part_way w p q r)
      (so_verts (h g)) (so_verts (h' g)).
Proof.
  intros h m g x alpha Nh N G U.
  destruct (exec_ok (rotation x alpha) h m g Nh N G (rotation_total x alpha)) as [h' [m' [E [_ [_ [_ [_ [_ [_ [O M]]]]]]]]]].
  exists h', m'. split; [exact E|]. split; [exact O|]. revert M. apply moved_impl.
  intros i p r _ [k [v [W [V R]]]]. unfold rotation in V. injection V as <-.
  exists k, (vadd (rodrigues (x_dir x) alpha (vsub p (x_origin x))) (x_origin x)). split; [exact W|].
  split; [apply rodrigues_turned; exact U|]. unfold part_way. rewrite R. rewrite vadd_sub. reflexivity.
Qed.

Definition all_ones (h : store) (g : nat) (m : man) : Prop :=
  forall i k, In i (vert_ids h g) -> weight (so_verts (h g)) g (m_filter m) i k -> k = 1.
Lemma unusable_ones : forall h g m, ~ usable (so_verts (h g)) g (m_filter m) -> all_ones h g m.
Proof. intros h g m U i k _ [[K _]|[_ K]]; [destruct (U K)|exact K]. Qed.

Lemma full_way : forall p q r, part_way 1 p q r -> r = q.
Proof. intros p q r H. unfold part_way in H. rewrite H. vring. Qed.

Lemma exec_next : forall value h m g h' m', wf_store h -> distinct_ids (fd_data (m_filter m)) -> m_geo m = Some g ->
  (forall p k, value p k <> None) -> exec value h m = Some (h', m') ->
  wf_store h' /\ distinct_ids (fd_data (m_filter m')) /\ m_geo m' = Some g /\
  map fst (so_verts (h' g)) = map fst (so_verts (h g)) /\
  forall i k, In i (vert_ids h g) -> weight (so_verts (h' g)) g (m_filter m') i k -> weight (so_verts (h g)) g (m_filter m) i k.
Proof.
  intros value h m g h' m' Nh N G V E.
  destruct (exec_ok value h m g Nh N G V) as [h1 [m1 [E1 [G1 [N1 [L1 [Gf [I1 [W1 [O M]]]]]]]]]].
  rewrite E in E1. injection E1 as <- <-. pose proof (moved_ids _ _ _ M) as Ids.
  split; [exact (wf_after _ _ _ _ Nh O M)|]. split; [exact N1|]. split; [exact G1|]. split; [exact Ids|].
  apply weight_kept; assumption.
Qed.

Lemma rotation_plain : forall h m g x alpha, wf_store h -> distinct_ids (fd_data (m_filter m)) -> m_geo m = Some g ->
  unit_vec (x_dir x) -> all_ones h g m ->
  exists h' m', exec (rotation x alpha) h m = Some (h', m') /\ (forall k, k <> g -> h' k = h k) /\
    moved (fun _ p q => turned (x_origin x) (x_dir x) alpha p q) (so_verts (h g)) (so_verts (h' g)).
Proof.
  intros h m g x alpha Nh N G U A. destruct (rotation_ok h m g x alpha Nh N G U) as [h' [m' [E [O M]]]].
  exists h', m'. split; [exact E|]. split; [exact O|]. revert M. apply moved_impl.
  intros i p r Hi [w [q [W [T P]]]].
  assert (w = 1) as -> by (apply (A i w); [apply in_map_iff; exists (i, p); split; [reflexivity|exact Hi]|exact W]).
  apply full_way in P. subst r. exact T.
Qed.

Lemma rotations_ok : forall g x angles h m, wf_store h -> distinct_ids (fd_data (m_filter m)) -> m_geo m = Some g ->
  unit_vec (x_dir x) -> all_ones h g m ->
  exists h' m', exec_all (map (rotation x) angles) h m = Some (h', m') /\ (forall k, k <> g -> h' k = h k) /\
    moved (fun _ p q => turned (x_origin x) (x_dir x) (fold_right Rplus 0 angles) p q) (so_verts (h g)) (so_verts (h' g)).
Proof.
  intros g x angles. induction angles as [|a r IH]; intros h m Nh N G U A; cbn [map exec_all fold_right].
  - exists h, m. split; [reflexivity|]. split; [reflexivity|].
    eapply moved_impl; [|apply moved_refl]. cbn. intros i p q _ ->. apply turned_zero. exact U.
  - destruct (rotation_plain h m g x a Nh N G U A) as [h1 [m1 [E1 [O1 M1]]]]. rewrite E1.
    destruct (exec_next _ _ _ _ _ _ Nh N G (rotation_total x a) E1) as [Nh1 [N1 [G1 [Ids W1]]]].
    destruct (IH h1 m1 Nh1 N1 G1 U) as [h2 [m2 [E2 [O2 M2]]]].
    { intros i k Hi W. unfold vert_ids in Hi. rewrite Ids in Hi. apply (A i k Hi). apply W1; assumption. }
    exists h2, m2. split; [exact E2|]. split; [intros k K; rewrite (O2 k K); exact (O1 k K)|].
    eapply moved_impl; [|exact (moved_trans _ _ _ _ _ M1 M2)]. cbn. intros i p q _ [u [T1 T2]].
    exact (turned_compose _ _ U _ _ _ _ _ T1 T2).
Qed.

Lemma rotation_still : forall h m g x alpha, wf_store h -> distinct_ids (fd_data (m_filter m)) -> m_geo m = Some g ->
  (alpha = 0 \/ forall i k, In i (vert_ids h g) -> weight (so_verts (h g)) g (m_filter m) i k -> k = 0) ->
  exists h' m', exec (rotation x alpha) h m = Some (h', m') /\ so_verts (h' g) = so_verts (h g).
Proof.
  intros h m g x alpha Nh N G H.
  destruct (exec_ok (rotation x alpha) h m g Nh N G (rotation_total x alpha)) as [h' [m' [E [_ [_ [_ [_ [_ [_ [O M]]]]]]]]]].
  exists h', m'. split; [exact E|]. apply moved_same. revert M. apply moved_impl.
  intros i p r Hi [k [v [W [V R]]]]. unfold rotation in V. injection V as <-. subst r. destruct H as [->|H].
  - unfold rodrigues. rewrite cos_0, sin_0. vring.
  - rewrite (H i k); [vring|apply in_map_iff; exists (i, p); split; [reflexivity|exact Hi]|exact W].
Qed.

Lemma setDirection_ok : forall d, d <> vzero -> exists k u, setDirection d = Some u /\ 0 < k /\ u = vscale k d /\ unit_vec u.
Proof.
  intros d Z. assert (P : 0 < dot d d).
  { destruct d as [x y z]. unfold dot. cbn [vx vy vz]. destruct (Req_dec x 0) as [->|X]; [|nra].
    destruct (Req_dec y 0) as [->|Y]; [|nra]. destruct (Req_dec z 0) as [->|W]; [|nra]. destruct (Z eq_refl). }
  assert (Q : 0 < norm d) by (apply sqrt_lt_R0; exact P).
  exists (/ norm d), (vscale (/ norm d) d). unfold setDirection.
  destruct (Req_EM_T (norm d) 0) as [E|_]; [lra|]. split.
  - f_equal. apply vec_eq; cbn [vx vy vz vscale]; unfold Rdiv; ring.
  - split; [apply Rinv_0_lt_compat; exact Q|]. split; [reflexivity|].
    unfold unit_vec. rewrite dot_scale_l, dot_scale_r. assert (S : norm d * norm d = dot d d) by (apply sqrt_sqrt; lra).
    rewrite <- S. field. lra.
Qed.

(** ** Twist *)
Lemma twist_total : forall x a D s, D <> 0 -> forall p k, twist x a D s p k <> None.
Proof. intros x a D s H p k. unfold twist. destruct (Req_EM_T D 0); [contradiction|discriminate]. Qed.

Lemma twist_ok : forall h m g x alpha D sym, wf_store h -> distinct_ids (fd_data (m_filter m)) -> m_geo m = Some g ->
  unit_vec (x_dir x) -> D <> 0 ->
  exists h' m', exec (twist x alpha D sym) h m = Some (h', m') /\ (forall k, k <> g -> h' k = h k) /\
    moved (fun i p r => exists w q, weight (so_verts (h g)) g (m_filter m) i w /\
             turned (x_origin x) (x_dir x) (twist_angle alpha D sym (height (x_origin x) (x_dir x) p)) p q /\ part_way w p q r)
      (so_verts (h g)) (so_verts (h' g)).
Proof.
  intros h m g x alpha D sym Nh N G U HD.
  destruct (exec_ok (twist x alpha D sym) h m g Nh N G (twist_total x alpha D sym HD)) as [h' [m' [E [_ [_ [_ [_ [_ [_ [O M]]]]]]]]]].
  exists h', m'. split; [exact E|]. split; [exact O|]. revert M. apply moved_impl.
  intros i p r _ [k [v [W [V R]]]]. unfold twist in V. destruct (Req_EM_T D 0) as [Z|_]; [contradiction|].
  injection V as <-. set (o := x_origin x) in *. set (d := x_dir x) in *. fold (height o d p) in *.
  set (a := twist_angle alpha D sym (height o d p)) in *. clearbody a.
  set (f := vadd (vscale (height o d p) d) o) in *.
  exists k, (vadd (rodrigues d a (vsub p f)) f). split; [exact W|]. split.
  - replace (vadd (rodrigues d a (vsub p f)) f) with (vadd (rodrigues d a (vsub p o)) o).
    + apply rodrigues_turned. exact U.
    + unfold rodrigues. replace (dot d (vsub p f)) with 0.
      * unfold f. rewrite (dot_sym d). fold (height o d p). vring.
      * unfold f. replace (vsub p (vadd (vscale (height o d p) d) o)) with (vadd (vsub p o) (vscale (- height o d p) d)) by vring.
        rewrite dot_add_r, dot_scale_r, (dot_sym d (vsub p o)). fold (height o d p). rewrite U. ring.
  - unfold part_way. rewrite R. rewrite vadd_sub. reflexivity.
Qed.

Lemma twist_angle_positive : forall alpha D sym t, 0 <= alpha -> 0 < D -> twist_law alpha D sym t (twist_angle alpha D sym t).
Proof.
  intros alpha D sym t A HD. unfold twist_law, twist_angle.
  assert (S : forall u, Rmin alpha (u / D * alpha) = alpha * Rmin 1 (u / D)).
  { intros u. unfold Rmin. destruct (Rle_dec alpha (u / D * alpha)) as [H|H], (Rle_dec 1 (u / D)) as [K|K]; nra. }
  destruct (Rlt_dec t 0) as [T|T].
  - right. rewrite (Rabs_left t T). destruct sym; [left|right]; split; [exact T|split; [reflexivity|] |exact T|split; [reflexivity|]].
    + rewrite S. ring.
    + ring.
  - left. split; [lra|]. rewrite (Rabs_right t) by lra. apply S.
Qed.
Lemma twist_angle_negative : forall alpha D t, alpha <= 0 -> 0 < D -> 0 <= t ->
  twist_angle alpha D true t = alpha * Rmax 1 (t / D) /\ twist_angle alpha D false t = alpha * Rmax 1 (t / D).
Proof.
  intros alpha D t A HD T. unfold twist_angle. destruct (Rlt_dec t 0) as [H|_]; [lra|]. rewrite (Rabs_right t) by lra.
  assert (S : Rmin alpha (t / D * alpha) = alpha * Rmax 1 (t / D)).
  { unfold Rmin, Rmax. destruct (Rle_dec alpha (t / D * alpha)) as [H|H], (Rle_dec 1 (t / D)) as [K|K]; nra. }
  split; exact S.
Qed.

(** ** Scale and translate *)
Lemma scaling_ok : forall h m g s c mean, wf_store h -> distinct_ids (fd_data (m_filter m)) -> m_geo m = Some g ->
  exists h' m', scale_exec s c mean h m = Some (h', m') /\ (forall k, k <> g -> h' k = h k) /\
    moved (fun i p r => exists w, weight (so_verts (h g)) g (m_filter m) i w /\
             part_way w p (vadd (cmpmul s (vsub p (if mean then center_of (so_verts (h g)) else c)))
                                (if mean then center_of (so_verts (h g)) else c)) r)
      (so_verts (h g)) (so_verts (h' g)).
Proof.
  intros h m g s c mean Nh N G. unfold scale_exec. rewrite G.
  set (c0 := if mean then center_of (so_verts (h g)) else c).
  destruct (exec_ok (scaling s c0) h m g Nh N G) as [h' [m' [E [_ [_ [_ [_ [_ [_ [O M]]]]]]]]]]; [discriminate|].
  exists h', m'. split; [exact E|]. split; [exact O|]. revert M. apply moved_impl.
  intros i p r _ [k [v [W [V R]]]]. unfold scaling in V. injection V as <-. exists k. split; [exact W|exact R].
Qed.

Lemma fold_vsum : forall vs c, fold_left (fun c (e : nat * vec) => vadd c (snd e)) vs c = vadd c (vsum vs).
Proof.
  induction vs as [|e r IH]; intros c; cbn [fold_left vsum fold_right]; [vring|]. rewrite IH.
  change (fold_right (fun (e0 : nat * vec) (s : vec) => vadd (snd e0) s) vzero r) with (vsum r). vring.
Qed.
Lemma center_mean : forall vs, vs <> [] -> mean_point vs (center_of vs).
Proof.
  intros vs H. unfold mean_point, center_of. rewrite fold_vsum.
  assert (L : INR (length vs) <> 0) by (destruct vs; [destruct (H eq_refl)|cbn [length]; rewrite S_INR; pose proof (pos_INR (length vs)); lra]).
  set (n := INR (length vs)) in *. clearbody n.
  apply vec_eq; cbn [vscale vadd vzero vx vy vz]; field; exact L.
Qed.

Lemma scale_sum : forall s c vs ws,
  moved (fun _ p q => q = vadd (cmpmul s (vsub p c)) c) vs ws ->
  vsum ws = vadd (cmpmul s (vsub (vsum vs) (vscale (INR (length vs)) c))) (vscale (INR (length vs)) c).
Proof.
  intros s c vs ws M. unfold moved in M. induction M as [|[i p] [j q] r t [_ K] _ IH].
  - cbn [vsum fold_right length INR]. vring.
  - cbn [snd] in K. subst q. change (vsum ((j, vadd (cmpmul s (vsub p c)) c) :: t)) with (vadd (vadd (cmpmul s (vsub p c)) c) (vsum t)).
    change (vsum ((i, p) :: r)) with (vadd p (vsum r)). rewrite IH. cbn [length]. rewrite S_INR. vring.
Qed.

Lemma translation_ok : forall h m g d alpha, wf_store h -> distinct_ids (fd_data (m_filter m)) -> m_geo m = Some g ->
  exists h' m', exec (translation d alpha) h m = Some (h', m') /\ (forall k, k <> g -> h' k = h k) /\
    moved (fun i p r => exists w, weight (so_verts (h g)) g (m_filter m) i w /\ r = vadd p (vscale (w * alpha) d))
      (so_verts (h g)) (so_verts (h' g)).
Proof.
  intros h m g d alpha Nh N G.
  destruct (exec_ok (translation d alpha) h m g Nh N G) as [h' [m' [E [_ [_ [_ [_ [_ [_ [O M]]]]]]]]]]; [discriminate|].
  exists h', m'. split; [exact E|]. split; [exact O|]. revert M. apply moved_impl.
  intros i p r _ [k [v [W [V R]]]]. unfold translation in V. injection V as <-. exists k. split; [exact W|]. rewrite R. vring.
Qed.

(** ** Bend *)
Lemma nth_resize : forall n l k, nth k (resize n l) 0 = if Nat.ltb k n then nth k l 0 else 0.
Proof.
  intros n l k. unfold resize. assert (R0 : forall m j, nth j (repeat 0 m) 0 = 0).
  { induction m as [|m IH]; intros [|j]; cbn; auto. }
  destruct (Nat.ltb k n) eqn:E.
  - apply Nat.ltb_lt in E. destruct (Nat.lt_ge_cases k (length l)) as [H|H].
    + rewrite app_nth1 by (rewrite firstn_length; lia).
      rewrite <- (firstn_skipn n l) at 2. rewrite app_nth1 by (rewrite firstn_length; lia). reflexivity.
    + rewrite app_nth2 by (rewrite firstn_length; lia). rewrite R0. symmetry. apply nth_overflow. exact H.
  - apply Nat.ltb_ge in E. destruct (Nat.lt_ge_cases (length l) n) as [H|H].
    + rewrite app_nth2 by (rewrite firstn_length; lia). apply R0.
    + rewrite app_nth2 by (rewrite firstn_length; lia). apply R0.
Qed.

Lemma fold_poly : forall (F : nat -> R) n acc, fold_left (fun acc i => acc + F i) (seq 0 (n + 1)) acc = acc + sum_f_R0 F n.
Proof.
  intros F n. induction n as [|n IH]; intros acc; [cbn; ring|].
  replace (S n + 1)%nat with (S (n + 1)) by lia. rewrite seq_S, fold_left_app, IH. cbn [fold_left plus sum_f_R0].
  replace (n + 1)%nat with (S n) by lia. ring.
Qed.
Lemma poly_scale : forall a n x k, sum_f_R0 (fun i => x ^ i * nth i (resize (S n) a) 0 * k) n = k * poly a n x.
Proof.
  intros a n x k. unfold poly. rewrite scal_sum. apply sum_eq. intros i Hi. rewrite nth_resize.
  assert (E : Nat.ltb i (S n) = true) by (apply Nat.ltb_lt; lia). rewrite E. ring.
Qed.
Lemma bend_comp_ok : forall b p k j,
  (forall z, b_deg b j z = 0%nat -> nth 0 (b_coef b j z) 0 = 0) ->
  bend_comp (coherent b) p k j = k * bend_law (b_deg b) (b_coef b) j p.
Proof.
  intros b p k j H. unfold bend_comp, coherent. cbn [b_deg b_coef fold_left comp].
  assert (S : forall z x acc,
    (if Nat.ltb 0 (b_deg b j z) then
       fold_left (fun acc i => acc + x ^ i * nth i (resize (S (b_deg b j z)) (b_coef b j z)) 0 * k) (seq 0 (b_deg b j z + 1)) acc
     else acc) = acc + k * poly (b_coef b j z) (b_deg b j z) x).
  { intros z x acc. destruct (Nat.ltb 0 (b_deg b j z)) eqn:E.
    - rewrite fold_poly, poly_scale. reflexivity.
    - apply Nat.ltb_ge in E. assert (Z : b_deg b j z = 0%nat) by lia. rewrite Z. unfold poly. cbn [sum_f_R0].
      rewrite (H z Z). ring. }
  rewrite !S. unfold bend_law. ring.
Qed.

Lemma local_global : forall s v, orthonormal s -> mat_vec s (vec_mat v s) = v.
Proof.
  intros s v [A [B [C [D [E F]]]]]. unfold mat_vec, vec_mat.
  apply vec_eq; cbn [vx vy vz]; rewrite !dot_add_l, !dot_scale_l;
    rewrite ?(dot_sym (row1 s) (row0 s)), ?(dot_sym (row2 s) (row0 s)), ?(dot_sym (row2 s) (row1 s)), ?A, ?B, ?C, ?D, ?E, ?F; ring.
Qed.

Lemma bend_ok : forall b h m g, wf_store h -> distinct_ids (fd_data (m_filter m)) -> m_geo m = Some g ->
  (forall j z, b_deg b j z = 0%nat -> nth 0 (b_coef b j z) 0 = 0) -> (b_local b = true -> orthonormal (b_sys b)) ->
  exists b' h' m', bend_exec b h m = Some (b', h', m') /\ (forall k, k <> g -> h' k = h k) /\
    moved (fun i p r => exists w, weight (so_verts (h g)) g (m_filter m) i w /\
             if b_local b then
               exists l l', local_coords (b_origin b) (b_sys b) p l /\ local_coords (b_origin b) (b_sys b) r l' /\
                 l' = vadd l (vscale w (bend_vec (b_deg b) (b_coef b) l))
             else r = vadd p (vscale w (bend_vec (b_deg b) (b_coef b) p)))
      (so_verts (h g)) (so_verts (h' g)).
Proof.
  intros b h m g Nh N G Z L. unfold bend_exec. rewrite G.
  destruct (exec_ok (bending (coherent b)) h m g Nh N G) as [h' [m' [E [_ [_ [_ [_ [_ [_ [O M]]]]]]]]]]; [discriminate|].
  rewrite E. exists (coherent b), h', m'. split; [reflexivity|]. split; [exact O|]. revert M. apply moved_impl.
  intros i p r _ [k [v [W [V R]]]]. exists k. split; [exact W|]. unfold bending in V.
  change (b_local (coherent b)) with (b_local b) in V. rewrite !bend_comp_ok in V by (intros; apply Z; assumption).
  destruct (b_local b).
  - injection V as <-. specialize (L eq_refl). set (l := toLocal (coherent b) p) in *.
    exists l, (vadd l (vscale k (bend_vec (b_deg b) (b_coef b) l))). split; [reflexivity|]. split; [|reflexivity].
    unfold local_coords. subst r. fold (vscale k (bend_vec (b_deg b) (b_coef b) l)).
    match goal with |- ?x = _ => rewrite <- (local_global (b_sys b) x L) end.
    unfold toGlobal. change (b_sys (coherent b)) with (b_sys b). change (b_origin (coherent b)) with (b_origin b).
    unfold mat_vec.
    assert (Q : forall u, vsub (vadd p (vsub (vadd u (b_origin b)) p)) (b_origin b) = u) by (intros; vring).
    unfold bend_vec. cbn [vscale vx vy vz]. rewrite Q. reflexivity.
  - injection V as <-. subst r. reflexivity.
Qed.

(** ** Corollaries used in the properties *)
Lemma rotation_rigid : forall h m g x alpha, wf_store h -> distinct_ids (fd_data (m_filter m)) -> m_geo m = Some g ->
  unit_vec (x_dir x) -> ~ usable (so_verts (h g)) g (m_filter m) ->
  exists h' m', exec (rotation x alpha) h m = Some (h', m') /\
    (forall i j p q p' q', In (i, p) (so_verts (h g)) -> In (j, q) (so_verts (h g)) ->
       In (i, p') (so_verts (h' g)) -> In (j, q') (so_verts (h' g)) -> dist p' q' = dist p q) /\
    (forall i p p', In (i, p) (so_verts (h g)) -> In (i, p') (so_verts (h' g)) -> on_axis (x_origin x) (x_dir x) p -> p' = p).
Proof.
  intros h m g x alpha Nh N G U A. destruct (rotation_plain h m g x alpha Nh N G U (unusable_ones h g m A)) as [h' [m' [E [_ M]]]].
  exists h', m'. split; [exact E|]. split.
  - intros i j p q p' q' P Q P' Q'.
    exact (turned_isometry _ _ U _ _ _ _ _ (moved_in _ _ _ _ _ _ (Nh g) M P P') (moved_in _ _ _ _ _ _ (Nh g) M Q Q')).
  - intros i p p' P P' X. exact (turned_axis _ _ U _ _ _ X (moved_in _ _ _ _ _ _ (Nh g) M P P')).
Qed.

Lemma turned_radius : forall o d a p q, unit_vec d -> turned o d a p q ->
  foot o d q = foot o d p /\ dist q (foot o d q) = dist p (foot o d p).
Proof.
  intros o d a p q U [F [D _]]. split; [exact F|]. unfold dist. rewrite F, D. reflexivity.
Qed.

Lemma scale_mean : forall h m g s c, wf_store h -> distinct_ids (fd_data (m_filter m)) -> m_geo m = Some g ->
  ~ usable (so_verts (h g)) g (m_filter m) -> so_verts (h g) <> [] ->
  exists h' m' c0, scale_exec s c true h m = Some (h', m') /\
    mean_point (so_verts (h g)) c0 /\ mean_point (so_verts (h' g)) c0.
Proof.
  intros h m g s c Nh N G A Ne. destruct (scaling_ok h m g s c true Nh N G) as [h' [m' [E [_ M]]]].
  exists h', m', (center_of (so_verts (h g))). split; [exact E|]. pose proof (center_mean _ Ne) as C. split; [exact C|].
  set (c0 := center_of (so_verts (h g))) in *.
  assert (M' : moved (fun _ p q => q = vadd (cmpmul s (vsub p c0)) c0) (so_verts (h g)) (so_verts (h' g))).
  { revert M. apply moved_impl. intros i p r Hi [w [W P]].
    assert (w = 1) as -> by (destruct W as [[K _]|[_ K]]; [destruct (A K)|exact K]). apply full_way in P. exact P. }
  pose proof (moved_ids _ _ _ M') as Ids. apply (f_equal (@length nat)) in Ids. rewrite !map_length in Ids.
  unfold mean_point in *. rewrite Ids, (scale_sum _ _ _ _ M'), <- C. vring.
Qed.

Lemma scale_center : forall h m g s c, wf_store h -> distinct_ids (fd_data (m_filter m)) -> m_geo m = Some g ->
  exists h' m', scale_exec s c false h m = Some (h', m') /\ (forall k, k <> g -> h' k = h k) /\
    moved (fun i p r => exists w, weight (so_verts (h g)) g (m_filter m) i w /\
             vx r - vx p = w * ((vx s - 1) * (vx p - vx c)) /\
             vy r - vy p = w * ((vy s - 1) * (vy p - vy c)) /\
             vz r - vz p = w * ((vz s - 1) * (vz p - vz c)))
      (so_verts (h g)) (so_verts (h' g)).
Proof.
  intros h m g s c Nh N G. destruct (scaling_ok h m g s c false Nh N G) as [h' [m' [E [O M]]]].
  exists h', m'. split; [exact E|]. split; [exact O|]. revert M. apply moved_impl. intros i p r _ [w [W P]].
  exists w. split; [exact W|]. unfold part_way in P. subst r. cbn [vx vy vz vadd vscale vsub cmpmul]. repeat split; ring.
Qed.

(** a null filter stops everything *)
Lemma zero_weight_still : forall value h m g, wf_store h -> distinct_ids (fd_data (m_filter m)) -> m_geo m = Some g ->
  (forall p k, value p k <> None) -> (forall p v, value p 0 = Some v -> v = vzero) ->
  (forall i k, In i (vert_ids h g) -> weight (so_verts (h g)) g (m_filter m) i k -> k = 0) ->
  exists h' m', exec value h m = Some (h', m') /\ so_verts (h' g) = so_verts (h g).
Proof.
  intros value h m g Nh N G V Z W. destruct (exec_ok value h m g Nh N G V) as [h' [m' [E [_ [_ [_ [_ [_ [_ [_ M]]]]]]]]]].
  exists h', m'. split; [exact E|]. apply moved_same. revert M. apply moved_impl.
  intros i p r Hi [k [v [Wk [Ev R]]]].
  rewrite (W i k) in Ev; [|apply in_map_iff; exists (i, p); split; [reflexivity|exact Hi]|exact Wk].
  rewrite (Z p v Ev) in R. rewrite R. vring.
Qed.

(** A manipulator without filter used again after vertices were moved or removed. *)
Lemma reuse_ok : forall value value' h g h' m' h2, wf_store h -> wf_store h2 ->
  (forall p k, value p k <> None) -> (forall p k, value' p k <> None) ->
  exec value h (new_man (Some g)) = Some (h', m') ->
  incl (map fst (so_verts (h2 g))) (map fst (so_verts (h g))) ->
  exists h3 m3, exec value' h2 m' = Some (h3, m3) /\
    moved (fun _ p r => exists v, value' p 1 = Some v /\ r = vadd p v) (so_verts (h2 g)) (so_verts (h3 g)).
Proof.
  intros value value' h g h' m' h2 Nh Nh2 V V' E I.
  assert (N0 : distinct_ids (fd_data (m_filter (new_man (Some g))))) by constructor.
  destruct (exec_ok value h (new_man (Some g)) g Nh N0 eq_refl V) as [h1 [m1 [E1 [G1 [N1 [L1 [Gf [I1 [W1 _]]]]]]]]].
  rewrite E in E1. injection E1 as <- <-.
  destruct (exec_ok value' h2 m' g Nh2 N1 G1 V') as [h3 [m3 [E3 [_ [_ [_ [_ [_ [_ [_ M]]]]]]]]]].
  exists h3, m3. split; [exact E3|]. revert M. apply moved_impl. intros i p r Hi [k [v [W [Ev R]]]].
  assert (k = 1) as ->.
  { destruct W as [[_ W]|[_ W]]; [|exact W].
    assert (Hk : In i (map fst (so_verts (h g)))) by (apply I, in_map_iff; exists (i, p); split; [reflexivity|exact Hi]).
    destruct (W1 i Hk) as [k' [F Wk]]. apply (value_or_look _ _ _ _ _ N1) in W. unfold look in W. rewrite F in W. subst k'.
    destruct Wk as [[U _]|[_ K]]; [|exact K]. destruct U as [U _]. discriminate. }
  exists v. split; assumption.
Qed.
