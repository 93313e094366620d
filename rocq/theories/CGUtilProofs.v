(** Proofs about the tests of a point against a cell. *)
From Coq Require Import List Arith Bool Reals Lia Lra.
From Verif Require Import Vec CGUtil CGUtilSpec SkdDistProofs.
Import ListNotations.
Open Scope R_scope.

Ltac coords := apply vec_eq; unfold bary, vadd, vsub, vscale, cross, vzero; cbn [vx vy vz].
Lemma norm_zero_eq : forall a, norm a = 0 -> a = vzero.
Proof.
  intros a Z. destruct (coord_le a) as (A & B & C). rewrite Z in A, B, C. assert (P : forall k, Rabs k <= 0 -> k = 0) by (intros k K; destruct (Req_dec k 0) as [Y|Y]; [exact Y|pose proof (Rabs_pos_lt k Y); lra]).
  apply vec_eq; apply P; assumption.
Qed.
Lemma norm_vzero : norm vzero = 0.
Proof. unfold norm, dot, vzero. cbn. replace (0 * 0 + 0 * 0 + 0 * 0) with 0 by ring. apply sqrt_0. Qed.

(** ** Segments *)
Lemma segment_in : forall tiny p v0 v1 tol, 0 <= tiny -> 0 <= tol -> v0 = v1 \/ tiny < norm (vsub v1 v0) -> in_segment v0 v1 p -> isPointInsideSegment tiny p v0 v1 tol = true.
Proof.
  intros tiny p v0 v1 tol T0 T H (t & Ht & Hp). unfold isPointInsideSegment. cbv zeta. set (s := vsub v1 v0) in *. assert (Pv : vsub p v0 = vscale t s) by (rewrite Hp; unfold s; coords; ring). rewrite Pv.
  pose proof (norm_ge s) as N0. destruct H as [E|H].
  - assert (Z : s = vzero) by (unfold s; rewrite E; coords; ring). rewrite Z, norm_vzero. destruct (Rlt_dec tiny 0) as [B|_]; [lra|].
    replace (vsub (vscale t vzero) (vscale (dot (vscale t vzero) vzero) vzero)) with vzero by (coords; ring). rewrite norm_vzero. destruct (Rlt_dec tol 0) as [B|_]; [lra|].
    replace (dot (vscale t vzero) vzero) with 0 by (unfold dot, vscale, vzero; cbn; ring). destruct (Rle_dec (0 - tol) 0); [|lra]. destruct (Rle_dec 0 (0 + tol)); [reflexivity|lra].
  - destruct (Rlt_dec tiny (norm s)) as [_|B]; [|contradiction]. assert (Ls : norm s <> 0) by lra.
    assert (D : dot (vscale t s) (vscale (/ norm s) s) = t * norm s).
    { replace (dot (vscale t s) (vscale (/ norm s) s)) with (t * / norm s * dot s s) by (unfold dot, vscale; cbn; ring). rewrite <- norm_sq. field. exact Ls. }
    rewrite D. replace (vsub (vscale t s) (vscale (t * norm s) (vscale (/ norm s) s))) with vzero by (coords; field; exact Ls). rewrite norm_vzero.
    destruct (Rlt_dec tol 0) as [B|_]; [lra|]. assert (A : 0 <= t * norm s <= norm s) by (split; [apply Rmult_le_pos; lra|nra]).
    destruct (Rle_dec (0 - tol) (t * norm s)); [|lra]. destruct (Rle_dec (t * norm s) (norm s + tol)); [reflexivity|lra].
Qed.
Lemma segment_out : forall tiny p v0 v1 tol, 0 <= tiny -> v0 = v1 \/ tiny < norm (vsub v1 v0) -> isPointInsideSegment tiny p v0 v1 tol = true ->
  exists x, in_segment v0 v1 x /\ norm (vsub p x) <= 2 * tol.
Proof.
  intros tiny p v0 v1 tol T0 H. unfold isPointInsideSegment. cbv zeta. set (s := vsub v1 v0) in *. pose proof (norm_ge s) as N0. destruct H as [E|H].
  - assert (Z : s = vzero) by (unfold s; rewrite E; coords; ring). rewrite Z, norm_vzero. destruct (Rlt_dec tiny 0) as [B|_]; [lra|].
    replace (vsub (vsub p v0) (vscale (dot (vsub p v0) vzero) vzero)) with (vsub p v0) by (coords; ring). destruct (Rlt_dec tol (norm (vsub p v0))) as [B|B]; [discriminate|]. intros _. exists v0.
    split; [exists 0; split; [lra|coords; ring]|]. pose proof (norm_ge (vsub p v0)). lra.
  - destruct (Rlt_dec tiny (norm s)) as [_|B]; [|contradiction]. assert (Ls : norm s <> 0) by lra. set (u := vscale (/ norm s) s). set (V := dot (vsub p v0) u).
    assert (Nu : norm u = 1) by (unfold u; rewrite norm_scale, Rabs_right; [field; exact Ls|apply Rle_ge, Rlt_le, Rinv_0_lt_compat; lra]).
    destruct (Rlt_dec tol (norm (vsub (vsub p v0) (vscale V u)))) as [B|B]; [discriminate|]. destruct (Rle_dec (0 - tol) V) as [A1|A1]; [|discriminate]. destruct (Rle_dec V (norm s + tol)) as [A2|A2]; [|discriminate]. intros _.
    set (W := Rmax 0 (Rmin (norm s) V)). assert (Wr : 0 <= W <= norm s /\ Rabs (W - V) <= tol).
    { pose proof (norm_ge (vsub (vsub p v0) (vscale V u))). unfold W, Rmax, Rmin. destruct (Rle_dec (norm s) V) as [C|C]; [destruct (Rle_dec 0 (norm s)); [|lra]|destruct (Rle_dec 0 V)]; (split; [lra|]); apply Rabs_le; lra. }
    exists (vadd v0 (vscale W u)). split.
    + exists (W / norm s). split; [split; [apply Rmult_le_pos; [lra|apply Rlt_le, Rinv_0_lt_compat; lra]|apply Rmult_le_reg_r with (norm s); [lra|]; field_simplify; lra]|]. unfold u, s. coords; fold s; field; exact Ls.
    + replace (vsub p (vadd v0 (vscale W u))) with (vsub (vsub (vsub p v0) (vscale V u)) (vscale (W - V) u)) by (coords; ring). eapply Rle_trans; [apply norm_step; exact Nu|]. lra.
Qed.

(** ** Triangles *)
Section Triangle.
  Variables v0 v1 v2 : vec.
  Let n := cross (vsub v1 v0) (vsub v2 v0).
  (** twice the area of the point with each side, along n *)
  Definition side (a b p : vec) : R := dot (cross (vsub b a) (vsub p a)) n.
  Lemma side_sum : forall p, side v1 v2 p + side v2 v0 p + side v0 v1 p = dot n n.
  Proof. intros p. unfold side, n, dot, cross, vsub. cbn [vx vy vz]. ring. Qed.
  Lemma side_place : forall p, vscale (dot n n) p = vadd (bary (side v1 v2 p) (side v2 v0 p) (side v0 v1 p) v0 v1 v2) (vscale (dot (vsub p v0) n) n).
  Proof. intros p. apply vec_eq; unfold bary, side, n, dot, cross, vsub, vadd, vscale; cbn [vx vy vz]; ring. Qed.
  Lemma area_eq : forall p a b, areaTriangle p a b = norm (cross (vsub b a) (vsub p a)) / 2.
  Proof. intros p a b. unfold areaTriangle. f_equal. unfold norm. f_equal. unfold dot, cross, vsub. cbn [vx vy vz]. ring. Qed.
  Lemma ratio_bound : forall p a b, norm n <> 0 -> Rabs (side a b p / dot n n) <= areaTriangle p a b / (/ 2 * norm n).
  Proof.
    intros p a b N. rewrite area_eq, <- norm_sq. pose proof (norm_ge n) as N0. unfold Rdiv. rewrite Rabs_mult, (Rabs_right (/ _)) by (apply Rle_ge, Rlt_le, Rinv_0_lt_compat; nra).
    apply Rmult_le_reg_r with (norm n * norm n); [nra|]. rewrite Rmult_assoc, Rinv_l, Rmult_1_r by nra. eapply Rle_trans; [apply schwarz|]. right. field. exact N.
  Qed.

  Lemma triangle_in : forall tiny p tol, 0 <= tiny -> 0 <= tol -> tiny < norm n -> in_triangle v0 v1 v2 p -> isPointInsideTriangle tiny p v0 v1 v2 tol = true.
  Proof.
    intros tiny p tol T0 T H (a & b & c & A & B & C & E & ->). unfold isPointInsideTriangle. cbv zeta. fold n. destruct (Rlt_dec tiny (norm n)) as [_|X]; [|contradiction].
    replace (dot (vsub (bary a b c v0 v1 v2) v0) (vscale (/ norm n) n)) with 0.
    2:{ replace a with (1 - b - c) by lra. unfold n, dot, bary, vsub, vscale, vadd, cross. cbn [vx vy vz]. ring. }
    rewrite Rabs_R0. destruct (Rlt_dec tol 0) as [X|_]; [lra|].
    assert (Q : forall k w, 0 <= k -> w = vscale k n -> norm w / 2 / (/ 2 * norm n) = k).
    { intros k w K ->. rewrite norm_scale, Rabs_right by lra. field. lra. }
    rewrite !area_eq. rewrite (Q c), (Q a), (Q b); [destruct (Rle_dec (c + a + b - 1) tol); [reflexivity|lra]|exact B| |exact A| |exact C|]; unfold n.
    - replace a with (1 - b - c) by lra. coords; ring.
    - replace b with (1 - a - c) by lra. coords; ring.
    - replace a with (1 - b - c) by lra. coords; ring.
  Qed.
  Lemma triangle_out : forall tiny p tol, 0 <= tiny -> isPointInsideTriangle tiny p v0 v1 v2 tol = true ->
    tiny < norm n /\ exists a b c t, - tol / 2 <= a /\ - tol / 2 <= b /\ - tol / 2 <= c /\ a + b + c = 1 /\ Rabs t <= tol /\ p = vadd (bary a b c v0 v1 v2) (vscale t (vscale (/ norm n) n)).
  Proof.
    intros tiny p tol T0. unfold isPointInsideTriangle. cbv zeta. fold n. destruct (Rlt_dec tiny (norm n)) as [H|_]; [|discriminate]. assert (N : norm n <> 0) by lra.
    destruct (Rlt_dec tol (Rabs (dot (vsub p v0) (vscale (/ norm n) n)))) as [B|B]; [discriminate|].
    destruct (Rle_dec _ tol) as [L|L]; [|discriminate]. intros _. split; [exact H|].
    pose proof (ratio_bound p v0 v1 N) as R1. pose proof (ratio_bound p v1 v2 N) as R2. pose proof (ratio_bound p v2 v0 N) as R3.
    assert (D : dot n n <> 0) by (rewrite <- norm_sq; nra).
    exists (side v1 v2 p / dot n n), (side v2 v0 p / dot n n), (side v0 v1 p / dot n n), (dot (vsub p v0) (vscale (/ norm n) n)).
    assert (Sm : side v1 v2 p / dot n n + side v2 v0 p / dot n n + side v0 v1 p / dot n n = 1) by (pose proof (side_sum p) as X; rewrite <- X in *; field; exact D).
    set (a := side v1 v2 p / dot n n) in *. set (b := side v2 v0 p / dot n n) in *. set (c := side v0 v1 p / dot n n) in *.
    assert (Ab : Rabs a + Rabs b + Rabs c <= 1 + tol) by lra.
    pose proof (Rle_abs a). pose proof (Rle_abs b). pose proof (Rle_abs c). pose proof (Rle_abs (- a)). pose proof (Rle_abs (- b)). pose proof (Rle_abs (- c)). rewrite !Rabs_Ropp in *.
    split; [lra|]. split; [lra|]. split; [lra|]. split; [exact Sm|]. split; [lra|].
    pose proof (side_place p) as P. assert (Q : p = vscale (/ dot n n) (vscale (dot n n) p)) by (coords; field; exact D). rewrite P in Q. etransitivity; [exact Q|].
    replace (dot (vsub p v0) (vscale (/ norm n) n)) with (/ norm n * dot (vsub p v0) n) by (unfold dot, vscale; cbn; ring). unfold a, b, c.
    assert (I2 : / dot n n = / norm n * / norm n) by (rewrite <- norm_sq; field; exact N). coords; rewrite I2; unfold Rdiv; rewrite I2; ring.
  Qed.
End Triangle.

(** ** Polygons *)
Definition next (l : list vec) (a b : vec) : Prop := exists l1 l2, l = l1 ++ a :: b :: l2.
Lemma next_cons : forall x l a b, next (x :: l) a b <-> (a = x /\ exists r, l = b :: r) \/ next l a b.
Proof.
  intros x l a b. split.
  - intros (l1 & l2 & E). destruct l1 as [|y l1]; cbn in E; injection E as -> ->; [left; split; [reflexivity|eauto]|right; exists l1, l2; reflexivity].
  - intros [(-> & r & ->) | (l1 & l2 & ->)]; [exists [], r; reflexivity|exists (x :: l1), l2; reflexivity].
Qed.
Lemma fan_iff : forall tiny p v0 l tol, fan tiny p v0 l tol = true <-> exists a b, next l a b /\ isPointInsideTriangle tiny p v0 a b tol = true.
Proof.
  intros tiny p v0 l tol. induction l as [|a l IH]; [split; [discriminate|intros (a & b & ([|] & l2 & E) & _); discriminate]|]. destruct l as [|b r].
  - split; [discriminate|]. intros (x & y & ([|? [|]] & l2 & E) & _); discriminate.
  - cbn [fan] in *. destruct (isPointInsideTriangle tiny p v0 a b tol) eqn:Q.
    + split; [|reflexivity]. intros _. exists a, b. split; [exists [], r; reflexivity|exact Q].
    + rewrite IH. split; intros (x & y & N & H).
      * exists x, y. split; [apply next_cons; right; exact N|exact H].
      * apply next_cons in N. destruct N as [(-> & r' & E) | N]; [injection E as <- <-; congruence|]. eauto.
Qed.
Lemma next_nth : forall l a b, next l a b -> exists i, (S i < length l)%nat /\ nth i l vzero = a /\ nth (S i) l vzero = b.
Proof.
  intros l a b (l1 & l2 & ->). exists (length l1). split; [rewrite app_length; cbn; lia|]. split.
  - rewrite nth_middle. reflexivity.
  - replace (l1 ++ a :: b :: l2) with ((l1 ++ [a]) ++ b :: l2) by (rewrite <- app_assoc; reflexivity). replace (S (length l1)) with (length (l1 ++ [a])) by (rewrite app_length; cbn; lia). apply nth_middle.
Qed.

Lemma orient_cycle : forall n a b c, orient n a b c = orient n b c a.
Proof. intros. unfold orient, dot, cross, vsub. cbn [vx vy vz]. ring. Qed.
Lemma orient_aab : forall n a b, orient n a a b = 0.
Proof. intros. unfold orient, dot, cross, vsub. cbn [vx vy vz]. ring. Qed.
Lemma orient_aba : forall n a b, orient n a b a = 0.
Proof. intros. unfold orient, dot, cross, vsub. cbn [vx vy vz]. ring. Qed.
Lemma orient_swap : forall n a b c, orient n a b c = - orient n b a c.
Proof. intros. unfold orient, dot, cross, vsub. cbn [vx vy vz]. ring. Qed.
Lemma orient_bary : forall n x y a b c v0 v1 v2, a + b + c = 1 -> orient n x y (bary a b c v0 v1 v2) = a * orient n x y v0 + b * orient n x y v1 + c * orient n x y v2.
Proof. intros n x y a b c v0 v1 v2 E. replace a with (1 - b - c) by lra. unfold orient, bary, dot, cross, vsub, vadd, vscale. cbn [vx vy vz]. ring. Qed.

(** a coplanar point by its areas with the sides *)
Lemma planar : forall n a b c p, orient n a b c <> 0 -> dot n (vsub b a) = 0 -> dot n (vsub c a) = 0 -> dot n (vsub p a) = 0 ->
  p = bary (orient n b c p / orient n a b c) (orient n c a p / orient n a b c) (orient n a b p / orient n a b c) a b c.
Proof.
  intros n a b c p D Hb Hc Hp. set (u := vsub b a) in *. set (w := vsub c a) in *. set (q := vsub p a) in *.
  assert (Cr : vscale (orient n a b c) q = vadd (vscale (dot n (cross q w)) u) (vadd (vscale (dot n (cross u q)) w) (vscale (dot u (cross w q)) n))).
  { unfold orient. fold u. fold w. apply vec_eq; unfold dot, cross, vadd, vscale; cbn [vx vy vz]; ring. }
  assert (Z : dot u (cross w q) = 0).
  { assert (N0 : dot n n <> 0).
    { intros Z. apply D. assert (Nz : n = vzero) by (apply norm_zero_eq; unfold norm; rewrite Z; apply sqrt_0). rewrite Nz. unfold orient, dot, vzero. cbn. ring. }
    assert (X : dot n (vscale (orient n a b c) q) = dot n (vadd (vscale (dot n (cross q w)) u) (vadd (vscale (dot n (cross u q)) w) (vscale (dot u (cross w q)) n)))) by (rewrite Cr; reflexivity).
    assert (Y : forall k x, dot n (vscale k x) = k * dot n x) by (intros; unfold dot, vscale; cbn; ring). assert (V : forall x y, dot n (vadd x y) = dot n x + dot n y) by (intros; unfold dot, vadd; cbn; ring).
    rewrite !V, !Y, Hb, Hc, Hp in X. assert (M : dot u (cross w q) * dot n n = 0) by lra. apply Rmult_integral in M. tauto. }
  rewrite Z in Cr. assert (Q : q = vscale (/ orient n a b c) (vscale (orient n a b c) q)) by (coords; field; exact D). rewrite Cr in Q.
  assert (O1 : orient n c a p = dot n (cross q w)) by (unfold orient, q, w, dot, cross, vsub; cbn [vx vy vz]; ring).
  assert (O2 : orient n a b p = dot n (cross u q)) by reflexivity.
  assert (O3 : orient n b c p = orient n a b c - dot n (cross q w) - dot n (cross u q)) by (unfold orient, q, w, u, dot, cross, vsub; cbn [vx vy vz]; ring).
  rewrite O1, O2, O3. set (d := orient n a b c) in *. set (k1 := dot n (cross q w)) in *. set (k2 := dot n (cross u q)) in *. clearbody k1 k2 d.
  assert (P : p = vadd a q) by (unfold q; coords; ring). rewrite P, Q. unfold u, w. coords; field; exact D.
Qed.

(** when f is not negative on the first and not positive on the last, it changes sign between two
    consecutive ones *)
Lemma sign_change : forall (f : vec -> R) l a z, l <> [] -> 0 <= f a -> last l z = z \/ In (last l z) l -> f (last l z) <= 0 -> exists x y, next (a :: l) x y /\ 0 <= f x /\ f y <= 0.
Proof.
  intros f. induction l as [|b r IH]; intros a z N A _ L; [destruct (N eq_refl)|]. destruct (Rle_lt_dec (f b) 0) as [B|B].
  - exists a, b. split; [exists [], r; reflexivity|]. split; assumption.
  - destruct r as [|c r']; [cbn in L; lra|]. destruct (IH b z) as (x & y & M & H); [discriminate|lra| |exact L|].
    + right. clear. generalize z. intros z0. assert (X : forall (l : list vec) x, In (last (x :: l) z0) (x :: l)) by (induction l as [|y l IHl]; intros x; [left; reflexivity|right; apply (IHl y)]). apply X.
    + exists x, y. split; [apply next_cons; right; exact M|exact H].
Qed.
