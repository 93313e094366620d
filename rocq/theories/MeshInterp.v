(** Proofs about the location of points in structured meshes and about interpolation. *)
From Coq Require Import Reals List Arith ZArith Bool Lia Lra.
From Verif Require Import Vec Shape ShapeSpec ShapeProofs ShapeCoord Mesh MeshSpec MeshProofs.
Import ListNotations.
Open Scope R_scope.

(* ------------------------------------------------------------------ points and cells *)
Lemma localPoint_ok m s i j k : built_on m s ->
  getLocalPoint m i j k = if (Z.leb 0 i && Z.leb i (dim m 0 - 1) && (Z.leb 0 j && Z.leb j (dim m 1 - 1)) && (Z.leb 0 k && Z.leb k (dim m 2 - 1)))%bool
    then Some (V3 (vx (getLocalOrigin s) + IZR i * a_d (m_x m)) (vy (getLocalOrigin s) + IZR j * a_d (m_y m)) (vz (getLocalOrigin s) + IZR k * a_d (m_z m)))
    else None.
Proof.
  intros B. destruct (built_axes m s B) as (_ & _ & _ & _ & X & Y & Z).
  unfold getLocalPoint. rewrite (ga_edge _ _ _ _ X), (ga_edge _ _ _ _ Y), (ga_edge _ _ _ _ Z).
  destruct (_ && _)%bool; [|reflexivity]. destruct (Z.leb 0 j && _)%bool; [|reflexivity]. destruct (Z.leb 0 k && _)%bool; reflexivity.
Qed.
Lemma localCCell_ok m s i j k : built_on m s ->
  getLocalCCell m i j k = if (Z.leb 0 i && Z.ltb i (dim m 0 - 1) && (Z.leb 0 j && Z.ltb j (dim m 1 - 1)) && (Z.leb 0 k && Z.ltb k (dim m 2 - 1)))%bool
    then Some (V3 (vx (getLocalOrigin s) + (IZR i + 0.5) * a_d (m_x m)) (vy (getLocalOrigin s) + (IZR j + 0.5) * a_d (m_y m))
                  (vz (getLocalOrigin s) + (IZR k + 0.5) * a_d (m_z m)))
    else None.
Proof.
  intros B. destruct (built_axes m s B) as (_ & _ & _ & _ & X & Y & Z).
  unfold getLocalCCell. rewrite (ga_node _ _ _ _ X), (ga_node _ _ _ _ Y), (ga_node _ _ _ _ Z).
  destruct (_ && _)%bool; [|reflexivity]. destruct (Z.leb 0 j && _)%bool; [|reflexivity]. destruct (Z.leb 0 k && _)%bool; reflexivity.
Qed.
Lemma point_idx_bool m i j k : point_index m (i, j, k) <->
  (Z.leb 0 i && Z.leb i (dim m 0 - 1) && (Z.leb 0 j && Z.leb j (dim m 1 - 1)) && (Z.leb 0 k && Z.leb k (dim m 2 - 1)))%bool = true.
Proof.
  rewrite point_index_iff. destruct (dim_eqs m) as (-> & -> & ->). rewrite !andb_true_iff, !Z.leb_le. lia.
Qed.
Lemma cell_idx_bool m i j k : cell_index m (i, j, k) <->
  (Z.leb 0 i && Z.ltb i (dim m 0 - 1) && (Z.leb 0 j && Z.ltb j (dim m 1 - 1)) && (Z.leb 0 k && Z.ltb k (dim m 2 - 1)))%bool = true.
Proof.
  rewrite cell_index_iff. destruct (dim_eqs m) as (-> & -> & ->). rewrite !andb_true_iff, !Z.leb_le, !Z.ltb_lt. lia.
Qed.
Lemma localPoint_in m s i j k : built_on m s -> point_index m (i, j, k) ->
  getLocalPoint m i j k = Some (V3 (vx (getLocalOrigin s) + IZR i * a_d (m_x m)) (vy (getLocalOrigin s) + IZR j * a_d (m_y m)) (vz (getLocalOrigin s) + IZR k * a_d (m_z m))).
Proof. intros B P. rewrite (localPoint_ok m s i j k B). apply point_idx_bool in P. rewrite P. reflexivity. Qed.
Lemma localCCell_in m s i j k : built_on m s -> cell_index m (i, j, k) ->
  getLocalCCell m i j k = Some (V3 (vx (getLocalOrigin s) + (IZR i + 0.5) * a_d (m_x m)) (vy (getLocalOrigin s) + (IZR j + 0.5) * a_d (m_y m))
                  (vz (getLocalOrigin s) + (IZR k + 0.5) * a_d (m_z m))).
Proof. intros B P. rewrite (localCCell_ok m s i j k B). apply cell_idx_bool in P. rewrite P. reflexivity. Qed.

(* ------------------------------------------------------------------ location *)
Lemma locate_ok m s p i j k : built_on m s -> locateCellByPoint m p = Some (i, j, k) ->
  cell_index m (i, j, k) /\
  (in_param s (toLocalCoord s p) ->
   exists lo hi, getLocalPoint m i j k = Some lo /\ getLocalPoint m (i + 1) (j + 1) (k + 1) = Some hi /\
     forall n, (n < 3)%nat -> vent lo n <= vent (toLocalCoord s p) n <= vent hi n).
Proof.
  intros B E. destruct (built_axes m s B) as (_ & Sh & _ & _ & X & Y & Z).
  unfold locateCellByPoint in E. rewrite Sh in E.
  destruct (locate1 (m_x m) _ _) as [a|] eqn:L0; [|discriminate]. destruct (locate1 (m_y m) _ _) as [b|] eqn:L1; [|discriminate].
  destruct (locate1 (m_z m) _ _) as [c|] eqn:L2; [|discriminate]. injection E as <- <- <-.
  destruct (locate1_ok _ _ _ _ _ _ X L0) as [I0 P0]. destruct (locate1_ok _ _ _ _ _ _ Y L1) as [I1 P1]. destruct (locate1_ok _ _ _ _ _ _ Z L2) as [I2 P2].
  destruct (dim_eqs m) as (D0 & D1 & D2).
  assert (C : cell_index m (a, b, c)) by (apply cell_index_iff; lia). split; [exact C|]. intros IN.
  rewrite (localPoint_in m s a b c B) by (apply point_index_iff; lia).
  rewrite (localPoint_in m s (a + 1) (b + 1) (c + 1) B) by (apply point_index_iff; lia).
  eexists. eexists. split; [reflexivity|]. split; [reflexivity|]. intros n Hn.
  pose proof (IN n Hn) as Q. three Hn; cbn [vent vx vy vz] in Q |- *; [apply P0|apply P1|apply P2]; exact Q.
Qed.
Lemma locate_some m s p : built_on m s -> representable m s p -> exists t, locateCellByPoint m p = Some t.
Proof.
  intros B H. destruct (built_axes m s B) as (_ & Sh & _ & _ & X & Y & Z). unfold locateCellByPoint. rewrite Sh.
  destruct (locate1_some _ _ _ _ (vx (toLocalCoord s p)) X (H 0%nat ltac:(lia))) as [a ->].
  destruct (locate1_some _ _ _ _ (vy (toLocalCoord s p)) Y (H 1%nat ltac:(lia))) as [b ->].
  destruct (locate1_some _ _ _ _ (vz (toLocalCoord s p)) Z (H 2%nat ltac:(lia))) as [c ->]. eexists; reflexivity.
Qed.
Lemma inside_1 a n o L p : good_axis a n o L -> (n < 2 ^ 31)%Z -> o <= p <= o + L -> - 2 ^ 31 <= (p - o) / (L / IZR n) < 2 ^ 31.
Proof.
  intros G Hn P. destruct (ga_dpos _ _ _ _ G) as (D & N & N1). rewrite <- (ga_d _ _ _ _ G).
  assert (Q : p = o + (p - o) / a_d a * a_d a) by (field; lra). set (q := (p - o) / a_d a) in *.
  assert (0 <= q) by nra. assert (q <= IZR n) by nra. apply IZR_lt in Hn.
  rewrite (pow_IZR 2 31). change (Z.of_nat 31) with 31%Z. lra.
Qed.
Lemma inside_representable m s p : built_on m s -> int_sizes m -> in_param s (toLocalCoord s p) -> representable m s p.
Proof.
  intros B I P. destruct (built_axes m s B) as (_ & _ & _ & _ & X & Y & Z).
  intros i Hi. pose proof (I i Hi) as Q. pose proof (P i Hi) as R. cbn zeta.
  three Hi; cbn [vent] in *; [eapply inside_1; [exact X| |]|eapply inside_1; [exact Y| |]|eapply inside_1; [exact Z| |]]; try lia; exact R.
Qed.

(* ------------------------------------------------------------------ sums *)
Lemma wsum_tensor (i0 ip j0 jp k0 kp : Z) wx wy wz xs f :
  xs = [f i0 j0 k0; f i0 jp k0; f ip j0 k0; f ip jp k0; f i0 j0 kp; f i0 jp kp; f ip j0 kp; f ip jp kp] ->
  wsum (weights ((i0, ip, wx), (j0, jp, wy), (k0, kp, wz))) xs =
  let bl w (g : Z -> R) a b := (1 - w) * g a + w * g b in
  bl wz (fun k => bl wy (fun j => bl wx (fun i => f i j k) i0 ip) j0 jp) k0 kp.
Proof. intros ->. unfold wsum, weights. cbn. ring. Qed.
(** One-dimensional blend. *)
Definition blend (w : R) (g : Z -> R) (a b : Z) : R := (1 - w) * g a + w * g b.
Lemma blend_ext w g h a b : (forall x, g x = h x) -> blend w g a b = blend w h a b.
Proof. intros H. unfold blend. rewrite !H. reflexivity. Qed.
Definition tri (st : stencil) (f : Z -> Z -> Z -> R) : R :=
  let '((i0, ip, wx), (j0, jp, wy), (k0, kp, wz)) := st in
  blend wz (fun k => blend wy (fun j => blend wx (fun i => f i j k) i0 ip) j0 jp) k0 kp.

Lemma mixture_8 w0 w1 w2 a b c d e f g h :
  0 <= w0 <= 1 -> 0 <= w1 <= 1 -> 0 <= w2 <= 1 ->
  mixture [a; b; c; d; e; f; g; h]
   ((1 - w2) * ((1 - w1) * ((1 - w0) * a + w0 * b) + w1 * ((1 - w0) * d + w0 * c)) +
    w2 * ((1 - w1) * ((1 - w0) * e + w0 * f) + w1 * ((1 - w0) * h + w0 * g))).
Proof.
  intros H0 H1 H2.
  exists [(1-w2)*(1-w1)*(1-w0); (1-w2)*(1-w1)*w0; (1-w2)*w1*w0; (1-w2)*w1*(1-w0); w2*(1-w1)*(1-w0); w2*(1-w1)*w0; w2*w1*w0; w2*w1*(1-w0)].
  split; [reflexivity|]. split; [|split; cbn; ring].
  assert (0 <= 1 - w0 /\ 0 <= 1 - w1 /\ 0 <= 1 - w2) as (A & B & C) by lra.
  repeat (apply Forall_cons; [repeat apply Rmult_le_pos; lra|]). apply Forall_nil.
Qed.
Lemma tri_mixture st f : let '((i0, ip, wx), (j0, jp, wy), (k0, kp, wz)) := st in
  0 <= wx <= 1 -> 0 <= wy <= 1 -> 0 <= wz <= 1 ->
  mixture [f i0 j0 k0; f ip j0 k0; f ip jp k0; f i0 jp k0; f i0 j0 kp; f ip j0 kp; f ip jp kp; f i0 jp kp] (tri st f).
Proof. destruct st as [[[[i0 ip] wx] [[j0 jp] wy]] [[k0 kp] wz]]. intros. unfold tri, blend. apply mixture_8; assumption. Qed.
Lemma tri_affine st (X Y Z : Z -> R) a b : let '((i0, ip, wx), (j0, jp, wy), (k0, kp, wz)) := st in
  tri st (fun i j k => affine a b (V3 (X i) (Y j) (Z k))) = affine a b (V3 (blend wx X i0 ip) (blend wy Y j0 jp) (blend wz Z k0 kp)).
Proof. destruct st as [[[[i0 ip] wx] [[j0 jp] wy]] [[k0 kp] wz]]. unfold tri, blend, affine, dot. cbn. ring. Qed.
Lemma mixture_bounds xs y a b : mixture xs y -> (forall x, In x xs -> a <= x <= b) -> a <= y <= b.
Proof.
  intros (cs & L & P & S & ->). revert xs L S.
  assert (G : forall cs xs, length cs = length xs -> Forall (fun c => 0 <= c) cs -> (forall x, In x xs -> a <= x <= b) ->
              sum cs * a <= sum (map (fun '(c, x) => c * x) (combine cs xs)) <= sum cs * b).
  { clear. induction cs as [|c cs IH]; intros [|x xs] L P B; try discriminate; [cbn; lra|].
    inversion P; subst. cbn. specialize (IH xs ltac:(cbn in L; lia) H2 (fun z Hz => B z (or_intror Hz))).
    pose proof (B x (or_introl eq_refl)). nra. }
  intros xs L S B. specialize (G cs xs L P B). rewrite S in G. lra.
Qed.
Lemma mixture_const xs y c : mixture xs y -> (forall x, In x xs -> x = c) -> y = c.
Proof. intros M H. assert (c <= y <= c); [|lra]. apply (mixture_bounds xs y c c M). intros x Hx. rewrite (H x Hx). lra. Qed.

(* ------------------------------------------------------------------ data on points *)
Lemma all_some_map {A B} (g : B -> option A) (h : B -> A) l : (forall x, In x l -> g x = Some (h x)) -> all_some (map g l) = Some (map h l).
Proof.
  induction l as [|x l IH]; intros H; [reflexivity|]. cbn. rewrite (H x (or_introl eq_refl)), IH; [reflexivity|].
  intros y Hy. apply H. right. exact Hy.
Qed.
Lemma reads_ok {A} access (i0 ip j0 jp k0 kp : Z) wx wy wz (data : list A) f :
  (forall i j k, (i = i0 \/ i = ip) -> (j = j0 \/ j = jp) -> (k = k0 \/ k = kp) -> zget data (access i j k) = Some (f i j k)) ->
  reads access ((i0, ip, wx), (j0, jp, wy), (k0, kp, wz)) data =
  Some [f i0 j0 k0; f i0 jp k0; f ip j0 k0; f ip jp k0; f i0 j0 kp; f i0 jp kp; f ip j0 kp; f ip jp kp].
Proof. intros H. unfold reads. cbn [map all_some]. rewrite !H by tauto. reflexivity. Qed.

Record point_st (m : mesh) (s : shape) (p : vec) (st : stencil) : Prop := {
  ps_x : let '((i0, ip, w), _, _) := st in point_stencil (m_x m) (vx (getLocalOrigin s)) (vx (toLocalCoord s p)) = Some (i0, ip, w);
  ps_y : let '(_, (i0, ip, w), _) := st in point_stencil (m_y m) (vy (getLocalOrigin s)) (vy (toLocalCoord s p)) = Some (i0, ip, w);
  ps_z : let '(_, _, (i0, ip, w)) := st in point_stencil (m_z m) (vz (getLocalOrigin s)) (vz (toLocalCoord s p)) = Some (i0, ip, w) }.
Lemma point_stencils_st m s p st : m_shape m = Some s -> point_stencils m p = Some st -> point_st m s p st.
Proof.
  intros Sh E. unfold point_stencils in E. rewrite Sh in E.
  destruct (point_stencil (m_x m) _ _) as [[[a b] c]|] eqn:P0; [|discriminate]. destruct (point_stencil (m_y m) _ _) as [[[a' b'] c']|] eqn:P1; [|discriminate].
  destruct (point_stencil (m_z m) _ _) as [[[a2 b2] c2]|] eqn:P2; [|discriminate]. injection E as <-. split; assumption.
Qed.
Lemma point_interp m s p st data f : built_on m s -> point_data m data f -> point_stencils m p = Some st ->
  interpolatePointData m p data = Some (tri st f).
Proof.
  intros B [_ D] E. destruct (built_axes m s B) as (_ & Sh & _ & _ & X & Y & Z). destruct (dim_eqs m) as (D0 & D1 & D2).
  pose proof (point_stencils_st m s p st Sh E) as [P0 P1 P2]. unfold interpolatePointData. rewrite E.
  destruct st as [[[[i0 ip] wx] [[j0 jp] wy]] [[k0 kp] wz]].
  destruct (point_stencil_ok _ _ _ _ _ _ _ _ X P0) as (I0 & Ip & _). destruct (point_stencil_ok _ _ _ _ _ _ _ _ Y P1) as (J0 & Jp & _).
  destruct (point_stencil_ok _ _ _ _ _ _ _ _ Z P2) as (K0 & Kp & _).
  rewrite (reads_ok (accessPointIndex m) i0 ip j0 jp k0 kp wx wy wz data f).
  - f_equal. rewrite (wsum_tensor i0 ip j0 jp k0 kp wx wy wz _ f eq_refl). reflexivity.
  - intros i j k Hi Hj Hk. apply D. apply point_index_iff. destruct Hi, Hj, Hk; subst; lia.
Qed.
Lemma point_stencils_some m s p : built_on m s -> representable m s p -> exists st, point_stencils m p = Some st.
Proof.
  intros B H. destruct (built_axes m s B) as (_ & Sh & _ & _ & X & Y & Z). unfold point_stencils. rewrite Sh.
  destruct (point_stencil_some _ _ _ _ (vx (toLocalCoord s p)) X (H 0%nat ltac:(lia))) as [a ->].
  destruct (point_stencil_some _ _ _ _ (vy (toLocalCoord s p)) Y (H 1%nat ltac:(lia))) as [b ->].
  destruct (point_stencil_some _ _ _ _ (vz (toLocalCoord s p)) Z (H 2%nat ltac:(lia))) as [c ->]. eexists; reflexivity.
Qed.
Lemma zget_some {A} (l : list A) i d : (0 <= i < Z.of_nat (length l))%Z -> zget l i = Some (nth (Z.to_nat i) l d).
Proof. intros H. unfold zget. destruct (Z.ltb_spec i 0); [lia|]. apply nth_error_nth'. lia. Qed.
Lemma zget_in {A} (l : list A) i x : zget l i = Some x -> In x l.
Proof. unfold zget. destruct (Z.ltb i 0); [discriminate|]. apply nth_error_In. Qed.
Lemma point_data_exists {A} (d : A) m data : Z.of_nat (length data) = num_points m ->
  point_data m data (fun i j k => nth (Z.to_nat (accessPointIndex m i j k)) data d).
Proof. intros L. split; [exact L|]. intros i j k P. apply zget_some. rewrite L. apply (points_bijection m), P. Qed.
Lemma cell_data_exists {A} (d : A) m data : Z.of_nat (length data) = num_cells m ->
  cell_data m data (fun i j k => nth (Z.to_nat (accessCellIndex m i j k)) data d).
Proof. intros L. split; [exact L|]. intros i j k P. apply zget_some. rewrite L. apply (cells_bijection m), P. Qed.

Lemma points_bounded m s p data : built_on m s -> Z.of_nat (length data) = num_points m -> representable m s p ->
  exists r xs, interpolatePointData m p data = Some r /\ incl xs data /\ mixture xs r.
Proof.
  intros B L R. destruct (point_stencils_some m s p B R) as [st E].
  pose proof (point_data_exists 0 m data L) as D. set (f := fun i j k => nth _ data 0) in D.
  destruct (built_axes m s B) as (_ & Sh & _ & _ & X & Y & Z).
  pose proof (point_stencils_st m s p st Sh E) as [P0 P1 P2].
  pose proof (tri_mixture st f) as M. pose proof (point_interp m s p st data f B D E) as I.
  destruct (dim_eqs m) as (D0 & D1 & D2).
  destruct st as [[[[i0 ip] wx] [[j0 jp] wy]] [[k0 kp] wz]].
  destruct (point_stencil_ok _ _ _ _ _ _ _ _ X P0) as (I0 & Ip & W0 & _). destruct (point_stencil_ok _ _ _ _ _ _ _ _ Y P1) as (J0 & Jp & W1 & _).
  destruct (point_stencil_ok _ _ _ _ _ _ _ _ Z P2) as (K0 & Kp & W2 & _).
  eexists. eexists. split; [exact I|]. split; [|exact (M W0 W1 W2)].
  intros x Hx. cbn [In] in Hx.
  assert (G : forall i j k, (i = i0 \/ i = ip) -> (j = j0 \/ j = jp) -> (k = k0 \/ k = kp) -> In (f i j k) data).
  { intros i j k Hi Hj Hk. eapply zget_in, (proj2 D). apply point_index_iff. destruct Hi, Hj, Hk; subst; lia. }
  destruct Hx as [<-|[<-|[<-|[<-|[<-|[<-|[<-|[<-|[]]]]]]]]]; apply G; tauto.
Qed.
Lemma points_exact m s p data f i j k : built_on m s -> int_sizes m -> point_data m data f ->
  getLocalPoint m i j k = Some (toLocalCoord s p) -> interpolatePointData m p data = Some (f i j k).
Proof.
  intros B N D Q. destruct (built_axes m s B) as (_ & Sh & _ & _ & X & Y & Z).
  rewrite (localPoint_ok m s i j k B) in Q. destruct (_ && _)%bool eqn:PI; [|discriminate]. apply point_idx_bool in PI.
  pose proof PI as PI'. apply point_index_iff in PI'. destruct (dim_eqs m) as (D0 & D1 & D2).
  injection Q as Q. set (q := toLocalCoord s p) in *.
  assert (Q0 : vx q = vx (getLocalOrigin s) + IZR i * a_d (m_x m)) by (rewrite <- Q; reflexivity).
  assert (Q1 : vy q = vy (getLocalOrigin s) + IZR j * a_d (m_y m)) by (rewrite <- Q; reflexivity).
  assert (Q2 : vz q = vz (getLocalOrigin s) + IZR k * a_d (m_z m)) by (rewrite <- Q; reflexivity).
  assert (IN : forall a n o L t, good_axis a n o L -> (0 <= t <= n)%Z -> o <= o + IZR t * a_d a <= o + L).
  { intros a n o L t G Ht. destruct (ga_dpos _ _ _ _ G) as (Dp & En & _). destruct Ht as [Ha Hb]. apply IZR_le in Ha, Hb. rewrite <- En. nra. }
  assert (R : representable m s p).
  { apply inside_representable; try assumption. fold q. intros n Hn. three Hn; cbn [vent]; rewrite ?Q0, ?Q1, ?Q2.
    - apply (IN _ _ _ _ _ X). lia.
    - apply (IN _ _ _ _ _ Y). lia.
    - apply (IN _ _ _ _ _ Z). lia. }
  destruct (point_stencils_some m s p B R) as [st E]. rewrite (point_interp m s p st data f B D E).
  pose proof (point_stencils_st m s p st Sh E) as [P0 P1 P2]. fold q in P0, P1, P2.
  destruct st as [[[[i0 ip] wx] [[j0 jp] wy]] [[k0 kp] wz]].
  destruct (point_stencil_ok _ _ _ _ _ _ _ _ X P0) as (_ & _ & _ & _ & W0). destruct (point_stencil_ok _ _ _ _ _ _ _ _ Y P1) as (_ & _ & _ & _ & W1).
  destruct (point_stencil_ok _ _ _ _ _ _ _ _ Z P2) as (_ & _ & _ & _ & W2).
  destruct (W0 i ltac:(lia) Q0) as [-> ->]. destruct (W1 j ltac:(lia) Q1) as [-> ->]. destruct (W2 k ltac:(lia) Q2) as [-> ->].
  f_equal. unfold tri, blend. ring.
Qed.
Lemma tri_ext st f g : (let '((i0, ip, _), (j0, jp, _), (k0, kp, _)) := st in
    forall i j k, (i = i0 \/ i = ip) -> (j = j0 \/ j = jp) -> (k = k0 \/ k = kp) -> f i j k = g i j k) -> tri st f = tri st g.
Proof.
  destruct st as [[[[i0 ip] wx] [[j0 jp] wy]] [[k0 kp] wz]]. intros H. unfold tri, blend. rewrite !H by tauto. reflexivity.
Qed.
Lemma points_affine m s p data f a b : built_on m s -> int_sizes m -> point_data m data f -> in_param s (toLocalCoord s p) ->
  (forall i j k q, getLocalPoint m i j k = Some q -> f i j k = affine a b q) ->
  interpolatePointData m p data = Some (affine a b (toLocalCoord s p)).
Proof.
  intros B N D IN F. destruct (built_axes m s B) as (_ & Sh & _ & _ & X & Y & Z). destruct (dim_eqs m) as (D0 & D1 & D2).
  destruct (point_stencils_some m s p B (inside_representable m s p B N IN)) as [st E]. rewrite (point_interp m s p st data f B D E).
  pose proof (point_stencils_st m s p st Sh E) as [P0 P1 P2].
  set (o := getLocalOrigin s) in *. set (q := toLocalCoord s p) in *.
  pose proof (tri_affine st (fun i => vx o + IZR i * a_d (m_x m)) (fun i => vy o + IZR i * a_d (m_y m)) (fun i => vz o + IZR i * a_d (m_z m)) a b) as T.
  rewrite (tri_ext st f (fun i j k => affine a b (V3 (vx o + IZR i * a_d (m_x m)) (vy o + IZR j * a_d (m_y m)) (vz o + IZR k * a_d (m_z m))))).
  - destruct st as [[[[i0 ip] wx] [[j0 jp] wy]] [[k0 kp] wz]]. rewrite T. clear T.
    destruct (point_stencil_ok _ _ _ _ _ _ _ _ X P0) as (_ & _ & _ & A0 & _). destruct (point_stencil_ok _ _ _ _ _ _ _ _ Y P1) as (_ & _ & _ & A1 & _).
    destruct (point_stencil_ok _ _ _ _ _ _ _ _ Z P2) as (_ & _ & _ & A2 & _).
    destruct (A0 (IN 0%nat ltac:(lia))) as [E0 _]. destruct (A1 (IN 1%nat ltac:(lia))) as [E1 _]. destruct (A2 (IN 2%nat ltac:(lia))) as [E2 _].
    unfold blend. rewrite E0, E1, E2. destruct q; reflexivity.
  - destruct st as [[[[i0 ip] wx] [[j0 jp] wy]] [[k0 kp] wz]].
    destruct (point_stencil_ok _ _ _ _ _ _ _ _ X P0) as (I0 & Ip & _). destruct (point_stencil_ok _ _ _ _ _ _ _ _ Y P1) as (J0 & Jp & _).
    destruct (point_stencil_ok _ _ _ _ _ _ _ _ Z P2) as (K0 & Kp & _).
    intros i j k Hi Hj Hk. apply F. apply localPoint_in; [exact B|]. apply point_index_iff. destruct Hi, Hj, Hk; subst; lia.
Qed.

(** Inside, only the corners of the cell of the point count. *)
Lemma blend_cell a n o L p i0 ip w : good_axis a n o L -> point_stencil a o p = Some (i0, ip, w) -> o <= p <= o + L ->
  exists c v, (0 <= c < n)%Z /\ 0 <= v <= 1 /\ o + IZR c * a_d a <= p <= o + IZR (c + 1) * a_d a /\
              forall g, blend w g i0 ip = blend v g c (c + 1)%Z.
Proof.
  intros G E P. destruct (point_stencil_ok _ _ _ _ _ _ _ _ G E) as (I0 & Ip & W & A & _). destruct (A P) as (S & C & [->|[-> ->]]).
  - exists i0, w. split; [lia|]. split; [exact W|]. split; [exact C|reflexivity].
  - pose proof (ga_1 _ _ _ _ G). destruct (Z.eq_dec i0 n) as [->|NE].
    + exists (n - 1)%Z, 1. split; [lia|]. split; [lra|]. replace (n - 1 + 1)%Z with n by lia. split.
      * destruct (ga_dpos _ _ _ _ G) as (D & N & _). rewrite minus_IZR. nra.
      * intros g. unfold blend. ring.
    + exists i0, 0. split; [lia|]. split; [lra|]. split; [exact C|]. intros g. unfold blend. ring.
Qed.
Lemma points_local m s p data f : built_on m s -> int_sizes m -> point_data m data f -> in_param s (toLocalCoord s p) ->
  exists i j k lo hi r, cell_index m (i, j, k) /\ getLocalPoint m i j k = Some lo /\ getLocalPoint m (i + 1) (j + 1) (k + 1) = Some hi /\
    (forall n, (n < 3)%nat -> vent lo n <= vent (toLocalCoord s p) n <= vent hi n) /\
    interpolatePointData m p data = Some r /\
    mixture [f i j k; f (i + 1) j k; f (i + 1) (j + 1) k; f i (j + 1) k;
             f i j (k + 1); f (i + 1) j (k + 1); f (i + 1) (j + 1) (k + 1); f i (j + 1) (k + 1)]%Z r.
Proof.
  intros B N D IN. destruct (built_axes m s B) as (_ & Sh & _ & _ & X & Y & Z). destruct (dim_eqs m) as (D0 & D1 & D2).
  destruct (point_stencils_some m s p B (inside_representable m s p B N IN)) as [st E]. rewrite (point_interp m s p st data f B D E).
  pose proof (point_stencils_st m s p st Sh E) as [P0 P1 P2].
  destruct st as [[[[i0 ip] wx] [[j0 jp] wy]] [[k0 kp] wz]].
  destruct (blend_cell _ _ _ _ _ _ _ _ X P0 (IN 0%nat ltac:(lia))) as (i & u & Hi & U & Ci & Gi).
  destruct (blend_cell _ _ _ _ _ _ _ _ Y P1 (IN 1%nat ltac:(lia))) as (j & v & Hj & V & Cj & Gj).
  destruct (blend_cell _ _ _ _ _ _ _ _ Z P2 (IN 2%nat ltac:(lia))) as (k & w & Hk & W & Ck & Gk).
  exists i, j, k. rewrite (localPoint_in m s i j k B) by (apply point_index_iff; lia).
  rewrite (localPoint_in m s (i + 1) (j + 1) (k + 1) B) by (apply point_index_iff; lia).
  eexists. eexists. eexists. split; [apply cell_index_iff; lia|]. split; [reflexivity|]. split; [reflexivity|]. split.
  - intros n Hn. three Hn; cbn [vent vx vy vz]; assumption.
  - split; [reflexivity|].
    assert (T : tri ((i0, ip, wx), (j0, jp, wy), (k0, kp, wz)) f = tri ((i, (i + 1)%Z, u), (j, (j + 1)%Z, v), (k, (k + 1)%Z, w)) f).
    { unfold tri. rewrite Gk. apply blend_ext. intros z. rewrite Gj. apply blend_ext. intros y. apply Gi. }
    rewrite T. apply (tri_mixture ((i, (i + 1)%Z, u), (j, (j + 1)%Z, v), (k, (k + 1)%Z, w)) f); assumption.
Qed.

(* ------------------------------------------------------------------ data on cells *)
Record cell_st (m : mesh) (s : shape) (p : vec) (st : stencil) : Prop := {
  cs_x : let '((i0, ip, w), _, _) := st in locate1 (m_x m) (vx (getLocalOrigin s)) (vx (toLocalCoord s p)) = Some i0 /\ cell_stencil (m_x m) i0 (vx (toLocalCoord s p)) = Some (i0, ip, w);
  cs_y : let '(_, (i0, ip, w), _) := st in locate1 (m_y m) (vy (getLocalOrigin s)) (vy (toLocalCoord s p)) = Some i0 /\ cell_stencil (m_y m) i0 (vy (toLocalCoord s p)) = Some (i0, ip, w);
  cs_z : let '(_, _, (i0, ip, w)) := st in locate1 (m_z m) (vz (getLocalOrigin s)) (vz (toLocalCoord s p)) = Some i0 /\ cell_stencil (m_z m) i0 (vz (toLocalCoord s p)) = Some (i0, ip, w) }.
Lemma cell_stencil_fst a i0 p c b w : cell_stencil a i0 p = Some (c, b, w) -> c = i0.
Proof. unfold cell_stencil. destruct (zget _ _); [|discriminate]. intros E. injection E as <- _ _. reflexivity. Qed.
Lemma cell_stencils_st m s p st : m_shape m = Some s -> cell_stencils m p = Some st -> cell_st m s p st.
Proof.
  intros Sh E. unfold cell_stencils, locateCellByPoint, transfToLocal in E. rewrite Sh in E.
  destruct (locate1 (m_x m) _ _) as [i|] eqn:L0; [|discriminate]. destruct (locate1 (m_y m) _ _) as [j|] eqn:L1; [|discriminate].
  destruct (locate1 (m_z m) _ _) as [k|] eqn:L2; [|discriminate].
  destruct (cell_stencil (m_x m) _ _) as [[[a b] c]|] eqn:P0; [|discriminate]. destruct (cell_stencil (m_y m) _ _) as [[[a' b'] c']|] eqn:P1; [|discriminate].
  destruct (cell_stencil (m_z m) _ _) as [[[a2 b2] c2]|] eqn:P2; [|discriminate]. injection E as <-.
  pose proof (cell_stencil_fst _ _ _ _ _ _ P0). pose proof (cell_stencil_fst _ _ _ _ _ _ P1). pose proof (cell_stencil_fst _ _ _ _ _ _ P2). subst.
  split; split; assumption.
Qed.
Lemma cell_interp m s p st data f : built_on m s -> cell_data m data f -> cell_stencils m p = Some st ->
  interpolateCellData m p data = Some (tri st f).
Proof.
  intros B [_ D] E. destruct (built_axes m s B) as (_ & Sh & _ & _ & X & Y & Z). destruct (dim_eqs m) as (D0 & D1 & D2).
  pose proof (cell_stencils_st m s p st Sh E) as [P0 P1 P2]. unfold interpolateCellData. rewrite E.
  destruct st as [[[[i0 ip] wx] [[j0 jp] wy]] [[k0 kp] wz]]. destruct P0 as [L0 P0], P1 as [L1 P1], P2 as [L2 P2].
  destruct (cell_stencil_ok _ _ _ _ _ _ _ _ _ X L0 P0) as (_ & I0 & Ip & _). destruct (cell_stencil_ok _ _ _ _ _ _ _ _ _ Y L1 P1) as (_ & J0 & Jp & _).
  destruct (cell_stencil_ok _ _ _ _ _ _ _ _ _ Z L2 P2) as (_ & K0 & Kp & _).
  rewrite (reads_ok (accessCellIndex m) i0 ip j0 jp k0 kp wx wy wz data f).
  - f_equal. rewrite (wsum_tensor i0 ip j0 jp k0 kp wx wy wz _ f eq_refl). reflexivity.
  - intros i j k Hi Hj Hk. apply D. apply cell_index_iff. destruct Hi, Hj, Hk; subst; lia.
Qed.
Lemma cell_stencil_some a n o L p i : good_axis a n o L -> locate1 a o p = Some i -> exists t, cell_stencil a i p = Some t.
Proof.
  intros G E. destruct (locate1_ok _ _ _ _ _ _ G E) as [I _]. unfold cell_stencil. rewrite (ga_node _ _ _ _ G).
  destruct (Z.leb_spec 0 i); [|lia]. destruct (Z.ltb_spec i n); [|lia]. eexists; reflexivity.
Qed.
Lemma cell_stencils_some m s p : built_on m s -> representable m s p -> exists st, cell_stencils m p = Some st.
Proof.
  intros B H. destruct (built_axes m s B) as (_ & Sh & _ & _ & X & Y & Z). unfold cell_stencils, locateCellByPoint, transfToLocal. rewrite Sh.
  destruct (locate1_some _ _ _ _ (vx (toLocalCoord s p)) X (H 0%nat ltac:(lia))) as [i L0].
  destruct (locate1_some _ _ _ _ (vy (toLocalCoord s p)) Y (H 1%nat ltac:(lia))) as [j L1].
  destruct (locate1_some _ _ _ _ (vz (toLocalCoord s p)) Z (H 2%nat ltac:(lia))) as [k L2]. rewrite L0, L1, L2.
  destruct (cell_stencil_some _ _ _ _ _ _ X L0) as [a ->]. destruct (cell_stencil_some _ _ _ _ _ _ Y L1) as [b ->].
  destruct (cell_stencil_some _ _ _ _ _ _ Z L2) as [c ->]. eexists; reflexivity.
Qed.
Lemma cells_bounded m s p data : built_on m s -> Z.of_nat (length data) = num_cells m -> representable m s p ->
  exists r xs, interpolateCellData m p data = Some r /\ incl xs data /\ mixture xs r.
Proof.
  intros B L R. destruct (cell_stencils_some m s p B R) as [st E].
  pose proof (cell_data_exists 0 m data L) as D. set (f := fun i j k => nth _ data 0) in D.
  destruct (built_axes m s B) as (_ & Sh & _ & _ & X & Y & Z).
  pose proof (cell_stencils_st m s p st Sh E) as [P0 P1 P2].
  pose proof (tri_mixture st f) as M. pose proof (cell_interp m s p st data f B D E) as I.
  destruct (dim_eqs m) as (D0 & D1 & D2).
  destruct st as [[[[i0 ip] wx] [[j0 jp] wy]] [[k0 kp] wz]]. destruct P0 as [L0 P0], P1 as [L1 P1], P2 as [L2 P2].
  destruct (cell_stencil_ok _ _ _ _ _ _ _ _ _ X L0 P0) as (_ & I0 & Ip & W0 & _). destruct (cell_stencil_ok _ _ _ _ _ _ _ _ _ Y L1 P1) as (_ & J0 & Jp & W1 & _).
  destruct (cell_stencil_ok _ _ _ _ _ _ _ _ _ Z L2 P2) as (_ & K0 & Kp & W2 & _).
  eexists. eexists. split; [exact I|]. split; [|exact (M W0 W1 W2)].
  intros x Hx. cbn [In] in Hx.
  assert (G : forall i j k, (i = i0 \/ i = ip) -> (j = j0 \/ j = jp) -> (k = k0 \/ k = kp) -> In (f i j k) data).
  { intros i j k Hi Hj Hk. eapply zget_in, (proj2 D). apply cell_index_iff. destruct Hi, Hj, Hk; subst; lia. }
  destruct Hx as [<-|[<-|[<-|[<-|[<-|[<-|[<-|[<-|[]]]]]]]]]; apply G; tauto.
Qed.
Lemma centre_in a n o L i : good_axis a n o L -> (0 <= i < n)%Z -> o <= o + (IZR i + 0.5) * a_d a <= o + L.
Proof.
  intros G Hi. destruct (ga_dpos _ _ _ _ G) as (D & N & _). rewrite <- N.
  assert (0 <= IZR i) by (apply IZR_le; lia). assert (IZR i <= IZR n - 1) by (rewrite <- minus_IZR; apply IZR_le; lia). nra.
Qed.
Lemma cells_exact m s p data f i j k : built_on m s -> int_sizes m -> cell_data m data f ->
  getLocalCCell m i j k = Some (toLocalCoord s p) -> interpolateCellData m p data = Some (f i j k).
Proof.
  intros B N D Q. destruct (built_axes m s B) as (_ & Sh & _ & _ & X & Y & Z).
  rewrite (localCCell_ok m s i j k B) in Q. destruct (_ && _)%bool eqn:PI; [|discriminate]. apply cell_idx_bool in PI.
  pose proof PI as PI'. apply cell_index_iff in PI'. destruct (dim_eqs m) as (D0 & D1 & D2).
  injection Q as Q. set (q := toLocalCoord s p) in *.
  assert (Q0 : vx q = vx (getLocalOrigin s) + (IZR i + 0.5) * a_d (m_x m)) by (rewrite <- Q; reflexivity).
  assert (Q1 : vy q = vy (getLocalOrigin s) + (IZR j + 0.5) * a_d (m_y m)) by (rewrite <- Q; reflexivity).
  assert (Q2 : vz q = vz (getLocalOrigin s) + (IZR k + 0.5) * a_d (m_z m)) by (rewrite <- Q; reflexivity).
  assert (R : representable m s p).
  { apply inside_representable; try assumption. fold q. intros n Hn. three Hn; cbn [vent]; rewrite ?Q0, ?Q1, ?Q2.
    - apply (centre_in _ _ _ _ _ X). lia.
    - apply (centre_in _ _ _ _ _ Y). lia.
    - apply (centre_in _ _ _ _ _ Z). lia. }
  destruct (cell_stencils_some m s p B R) as [st E]. rewrite (cell_interp m s p st data f B D E).
  pose proof (cell_stencils_st m s p st Sh E) as [P0 P1 P2]. fold q in P0, P1, P2.
  destruct st as [[[[i0 ip] wx] [[j0 jp] wy]] [[k0 kp] wz]]. destruct P0 as [L0 P0], P1 as [L1 P1], P2 as [L2 P2].
  destruct (cell_stencil_ok _ _ _ _ _ _ _ _ _ X L0 P0) as (_ & _ & _ & _ & _ & W0). destruct (cell_stencil_ok _ _ _ _ _ _ _ _ _ Y L1 P1) as (_ & _ & _ & _ & _ & W1).
  destruct (cell_stencil_ok _ _ _ _ _ _ _ _ _ Z L2 P2) as (_ & _ & _ & _ & _ & W2).
  destruct (W0 i ltac:(lia) Q0) as [-> ->]. destruct (W1 j ltac:(lia) Q1) as [-> ->]. destruct (W2 k ltac:(lia) Q2) as [-> ->].
  f_equal. unfold tri, blend. ring.
Qed.
Lemma between_ok m s p : built_on m s -> between_centres m s p ->
  forall a n o L q, (a, n, o, L, q) = (m_x m, (dim m 0 - 1)%Z, vx (getLocalOrigin s), vx (s_span s), vx (toLocalCoord s p)) \/
                    (a, n, o, L, q) = (m_y m, (dim m 1 - 1)%Z, vy (getLocalOrigin s), vy (s_span s), vy (toLocalCoord s p)) \/
                    (a, n, o, L, q) = (m_z m, (dim m 2 - 1)%Z, vz (getLocalOrigin s), vz (s_span s), vz (toLocalCoord s p)) ->
  o + 0.5 * a_d a <= q <= o + (IZR n - 0.5) * a_d a /\ o <= q <= o + L.
Proof.
  intros B (lo & hi & Lo & Hi & H). destruct (built_axes m s B) as (_ & _ & _ & _ & X & Y & Z).
  destruct (dim_eqs m) as (D0 & D1 & D2).
  pose proof (ga_1 _ _ _ _ X). pose proof (ga_1 _ _ _ _ Y). pose proof (ga_1 _ _ _ _ Z).
  rewrite (localCCell_in m s 0 0 0 B) in Lo by (apply cell_index_iff; lia). injection Lo as <-.
  rewrite (localCCell_in m s _ _ _ B) in Hi by (apply cell_index_iff; lia). injection Hi as <-.
  assert (C : forall a n o L q, good_axis a n o L -> o + (IZR 0 + 0.5) * a_d a <= q <= o + (IZR (n - 1) + 0.5) * a_d a ->
              o + 0.5 * a_d a <= q <= o + (IZR n - 0.5) * a_d a /\ o <= q <= o + L).
  { intros a n o L q G Q. destruct (ga_dpos _ _ _ _ G) as (D & N & N1). rewrite minus_IZR in Q. rewrite <- N. split; [split; nra|nra]. }
  pose proof (H 0%nat ltac:(lia)) as H0'. pose proof (H 1%nat ltac:(lia)) as H1'. pose proof (H 2%nat ltac:(lia)) as H2'. cbn [vent vx vy vz] in H0', H1', H2'.
  intros a n o L q [E|[E|E]]; injection E as -> -> -> -> ->; [apply (C _ _ _ _ _ X)|apply (C _ _ _ _ _ Y)|apply (C _ _ _ _ _ Z)].
  - replace (dim m 0 - 1 - 1)%Z with (dim m 0 - 2)%Z by lia. exact H0'.
  - replace (dim m 1 - 1 - 1)%Z with (dim m 1 - 2)%Z by lia. exact H1'.
  - replace (dim m 2 - 1 - 1)%Z with (dim m 2 - 2)%Z by lia. exact H2'.
Qed.
Lemma cells_affine m s p data f a b : built_on m s -> int_sizes m -> cell_data m data f -> between_centres m s p ->
  (forall i j k q, getLocalCCell m i j k = Some q -> f i j k = affine a b q) ->
  interpolateCellData m p data = Some (affine a b (toLocalCoord s p)).
Proof.
  intros B N D BT F. destruct (built_axes m s B) as (_ & Sh & _ & _ & X & Y & Z). destruct (dim_eqs m) as (D0 & D1 & D2).
  pose proof (between_ok m s p B BT) as BB.
  destruct (BB _ _ _ _ _ (or_introl eq_refl)) as [B0 I0]. destruct (BB _ _ _ _ _ (or_intror (or_introl eq_refl))) as [B1 I1].
  destruct (BB _ _ _ _ _ (or_intror (or_intror eq_refl))) as [B2 I2]. clear BB.
  assert (IN : in_param s (toLocalCoord s p)) by (intros n Hn; three Hn; assumption).
  destruct (cell_stencils_some m s p B (inside_representable m s p B N IN)) as [st E]. rewrite (cell_interp m s p st data f B D E).
  pose proof (cell_stencils_st m s p st Sh E) as [P0 P1 P2].
  set (o := getLocalOrigin s) in *. set (q := toLocalCoord s p) in *.
  pose proof (tri_affine st (fun i => vx o + (IZR i + 0.5) * a_d (m_x m)) (fun i => vy o + (IZR i + 0.5) * a_d (m_y m)) (fun i => vz o + (IZR i + 0.5) * a_d (m_z m)) a b) as T.
  rewrite (tri_ext st f (fun i j k => affine a b (V3 (vx o + (IZR i + 0.5) * a_d (m_x m)) (vy o + (IZR j + 0.5) * a_d (m_y m)) (vz o + (IZR k + 0.5) * a_d (m_z m))))).
  - destruct st as [[[[i0 ip] wx] [[j0 jp] wy]] [[k0 kp] wz]]. rewrite T. clear T. destruct P0 as [L0 P0], P1 as [L1 P1], P2 as [L2 P2].
    destruct (cell_stencil_ok _ _ _ _ _ _ _ _ _ X L0 P0) as (_ & _ & _ & _ & A0 & _). destruct (cell_stencil_ok _ _ _ _ _ _ _ _ _ Y L1 P1) as (_ & _ & _ & _ & A1 & _).
    destruct (cell_stencil_ok _ _ _ _ _ _ _ _ _ Z L2 P2) as (_ & _ & _ & _ & A2 & _).
    unfold blend. rewrite (A0 B0), (A1 B1), (A2 B2). destruct q; reflexivity.
  - destruct st as [[[[i0 ip] wx] [[j0 jp] wy]] [[k0 kp] wz]]. destruct P0 as [L0 P0], P1 as [L1 P1], P2 as [L2 P2].
    destruct (cell_stencil_ok _ _ _ _ _ _ _ _ _ X L0 P0) as (_ & J0 & J0p & _). destruct (cell_stencil_ok _ _ _ _ _ _ _ _ _ Y L1 P1) as (_ & J1 & J1p & _).
    destruct (cell_stencil_ok _ _ _ _ _ _ _ _ _ Z L2 P2) as (_ & J2 & J2p & _).
    intros i j k Hi Hj Hk. apply F. apply localCCell_in; [exact B|]. apply cell_index_iff. destruct Hi, Hj, Hk; subst; lia.
Qed.

(* ------------------------------------------------------------------ data of other types *)
Lemma zget_map {A B} (g : A -> B) l i : zget (map g l) i = option_map g (zget l i).
Proof. unfold zget. destruct (Z.ltb i 0); [reflexivity|]. apply nth_error_map. Qed.
Lemma all_some_option_map {A B} (g : A -> B) l : all_some (map (option_map g) l) = option_map (map g) (all_some l).
Proof. induction l as [|[x|] l IH]; cbn; [reflexivity| |reflexivity]. rewrite IH. destruct (all_some l); reflexivity. Qed.
Lemma reads_map {A B} access st (data : list A) (g : A -> B) : reads access st (map g data) = option_map (map g) (reads access st data).
Proof.
  destruct st as [[[[i0 ip] wx] [[j0 jp] wy]] [[k0 kp] wz]]. unfold reads.
  rewrite <- all_some_option_map, map_map. f_equal. apply map_ext. intros a. apply zget_map.
Qed.
Lemma wsum3_comp i0 ip wx j0 jp wy k0 kp wz a b c d e f g h :
  let v := wsum3 (weights ((i0, ip, wx), (j0, jp, wy), (k0, kp, wz))) [a; b; c; d; e; f; g; h] in
  forall n, (n < 3)%nat -> vent v n = wsum (weights ((i0, ip, wx), (j0, jp, wy), (k0, kp, wz))) (map (fun x => vent x n) [a; b; c; d; e; f; g; h]).
Proof. intros v n Hn. three Hn; unfold v, wsum3, wsum, weights; cbn; reflexivity. Qed.
Lemma reads_8 {A} access st (data : list A) xs : reads access st data = Some xs -> exists a b c d e f g h, xs = [a; b; c; d; e; f; g; h].
Proof.
  destruct st as [[[[i0 ip] wx] [[j0 jp] wy]] [[k0 kp] wz]]. unfold reads. cbn [map all_some].
  repeat (destruct (zget data _); [|discriminate]). intros E. injection E as <-. repeat eexists.
Qed.
Lemma vec_data access (st : option stencil) (data : list vec) n : (n < 3)%nat ->
  (match st with None => None | Some st => match reads access st (map (fun v => vent v n) data) with None => None | Some xs => Some (wsum (weights st) xs) end end) =
  option_map (fun v => vent v n)
  (match st with None => None | Some st => match reads access st data with None => None | Some xs => Some (wsum3 (weights st) xs) end end).
Proof.
  intros Hn. destruct st as [st|]; [|reflexivity]. rewrite reads_map. destruct (reads access st data) as [xs|] eqn:E; [|reflexivity].
  cbn [option_map]. destruct (reads_8 access st data xs E) as (a & b & c & d & e & f & g & h & ->).
  destruct st as [[[[i0 ip] wx] [[j0 jp] wy]] [[k0 kp] wz]]. rewrite (wsum3_comp i0 ip wx j0 jp wy k0 kp wz a b c d e f g h n Hn). reflexivity.
Qed.
Lemma int_data access (st : option stencil) (data : list Z) :
  (match st with None => None | Some st => match reads access st data with None => None | Some xs => to_int (wsum (weights st) (map IZR xs) + 0.5) end end) =
  (match match st with None => None | Some st => match reads access st (map IZR data) with None => None | Some xs => Some (wsum (weights st) xs) end end with
   | None => None | Some x => to_int (x + 0.5) end).
Proof. destruct st as [st|]; [|reflexivity]. rewrite reads_map. destruct (reads access st data); reflexivity. Qed.
Lemma round_ok x r : to_int (x + 0.5) = Some r -> IZR r - / 2 <= x < IZR r + / 2.
Proof. intros H. apply to_int_some in H. lra. Qed.
Lemma round_some x : - 2 ^ 31 <= x <= 2 ^ 31 - 1 -> exists r, to_int (x + 0.5) = Some r.
Proof. intros H. apply to_int_range. lra. Qed.
