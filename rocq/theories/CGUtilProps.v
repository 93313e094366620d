(** C99: tests of a point against a cell, and the cell of a surface a point is on. *)
From Coq Require Import List Arith Bool Reals Lia Lra.
From Verif Require Import Vec CGUtil CGUtilSpec SkdDistProofs SkdDistProps CGUtilProofs.
Import ListNotations.
Open Scope R_scope.

(** Segments: points of the segment are accepted, points accepted are within twice the tolerance of it. *)
Theorem C99_segment : forall tiny p v0 v1 tol, 0 <= tiny -> 0 <= tol -> v0 = v1 \/ tiny < norm (vsub v1 v0) ->
  (in_segment v0 v1 p -> isPointInsideSegment tiny p v0 v1 tol = true) /\
  (isPointInsideSegment tiny p v0 v1 tol = true -> exists x, in_segment v0 v1 x /\ norm (vsub p x) <= 2 * tol).
Proof. intros tiny p v0 v1 tol T0 T H. split; [apply segment_in; assumption|apply segment_out; assumption]. Qed.

(** Triangles: points of the triangle are accepted; of a point accepted, the three barycentric coordinates
    are not under minus half the tolerance and the height is within the tolerance; without tolerance, only
    points of the triangle are accepted. *)
Theorem C99_triangle : forall tiny p v0 v1 v2 tol, let n := cross (vsub v1 v0) (vsub v2 v0) in 0 <= tiny -> 0 <= tol -> tiny < norm n ->
  (in_triangle v0 v1 v2 p -> isPointInsideTriangle tiny p v0 v1 v2 tol = true) /\
  (isPointInsideTriangle tiny p v0 v1 v2 tol = true ->
     exists a b c t, - tol / 2 <= a /\ - tol / 2 <= b /\ - tol / 2 <= c /\ a + b + c = 1 /\ Rabs t <= tol /\ p = vadd (bary a b c v0 v1 v2) (vscale t (vscale (/ norm n) n))) /\
  (tol = 0 -> (isPointInsideTriangle tiny p v0 v1 v2 tol = true <-> in_triangle v0 v1 v2 p)).
Proof.
  intros tiny p v0 v1 v2 tol n T0 T H. split; [apply triangle_in; assumption|]. split; [intros E; apply (triangle_out v0 v1 v2 tiny p tol T0) in E; apply E|]. intros ->. split; [|apply triangle_in; assumption].
  intros E. apply (triangle_out v0 v1 v2 tiny p 0 T0) in E. destruct E as (_ & a & b & c & t & A & B & C & S1 & Ht & ->). exists a, b, c. split; [lra|]. split; [lra|]. split; [lra|]. split; [exact S1|].
  assert (t = 0) by (destruct (Req_dec t 0) as [Y|Y]; [exact Y|pose proof (Rabs_pos_lt t Y); lra]). subst t. coords; ring.
Qed.

(** Convex polygons: the points of the polygon are accepted; without tolerance, only they are. *)
Definition fan_large (tiny : R) (vs : list vec) : Prop :=
  forall i, (1 <= i)%nat -> (S i < length vs)%nat -> tiny < norm (cross (vsub (nth i vs vzero) (nth 0 vs vzero)) (vsub (nth (S i) vs vzero) (nth 0 vs vzero))).
Lemma polygon_in : forall tiny n vs p tol, 0 <= tiny -> 0 <= tol -> convex_polygon n vs -> fan_large tiny vs -> in_polygon n vs p -> isPointInsidePolygon tiny p vs tol = true.
Proof.
  intros tiny n vs p tol T0 T (L3 & Fl & Cv) Fa (Hp & Ed & Cl). destruct vs as [|v0 [|v1 [|v2 r]]]; cbn [length] in L3; try lia. cbn [isPointInsidePolygon]. apply fan_iff.
  set (l := v1 :: v2 :: r) in *. set (vs := v0 :: l) in *.
  assert (La : last (v2 :: r) vzero = nth (length vs - 1) vs vzero).
  { unfold vs, l. cbn [length]. replace (S (S (S (length r))) - 1)%nat with (S (S (length r))) by lia. cbn [nth]. clear. revert v2. induction r as [|x r IH]; intros v2; [reflexivity|]. cbn [length nth]. rewrite <- (IH x). reflexivity. }
  destruct (sign_change (fun v => orient n v0 v p) (v2 :: r) v1 vzero) as (a & b & Nx & A & B).
  - discriminate.
  - apply (Ed 0%nat). unfold vs, l. cbn. lia.
  - right. clear. assert (X : forall (l : list vec) x, In (last (x :: l) vzero) (x :: l)) by (induction l as [|y l IHl]; intros x; [left; reflexivity|right; apply (IHl y)]). apply X.
  - rewrite La, orient_swap. cbn [nth] in Cl. unfold vs at 3 in Cl. cbn [nth] in Cl. lra.
  - fold l in Nx. exists a, b. split; [exact Nx|]. destruct (next_nth l a b Nx) as (i & Li & Ea & Eb).
    assert (Pa : nth (S i) vs vzero = a) by exact Ea. assert (Pb : nth (S (S i)) vs vzero = b) by exact Eb. assert (Lv : (S (S i) < length vs)%nat) by (unfold vs; cbn [length]; lia).
    assert (Ia : In a vs) by (rewrite <- Pa; apply nth_In; lia). assert (Ib : In b vs) by (rewrite <- Pb; apply nth_In; lia). assert (I0 : In v0 vs) by (left; reflexivity).
    assert (Po : 0 < orient n v0 a b) by (rewrite <- Pa, <- Pb; apply (Cv 0%nat (S i) (S (S i))); lia).
    apply triangle_in; [exact T0|exact T|rewrite <- Pa, <- Pb; apply (Fa (S i)); lia|].
    assert (Cd : p = bary (orient n a b p / orient n v0 a b) (orient n b v0 p / orient n v0 a b) (orient n v0 a p / orient n v0 a b) v0 a b).
    { apply planar; [lra|apply Fl; assumption|apply Fl; assumption|exact Hp]. }
    assert (Dv : forall k, 0 <= k -> 0 <= k / orient n v0 a b) by (intros k K; apply Rmult_le_pos; [exact K|apply Rlt_le, Rinv_0_lt_compat; exact Po]).
    exists (orient n a b p / orient n v0 a b), (orient n b v0 p / orient n v0 a b), (orient n v0 a p / orient n v0 a b).
    split; [apply Dv; rewrite <- Pa, <- Pb; apply Ed; lia|]. split; [apply Dv; rewrite orient_swap; lra|]. split; [apply Dv; exact A|]. split; [|exact Cd].
    assert (Q : orient n a b p + orient n b v0 p + orient n v0 a p = orient n v0 a b) by (unfold orient, dot, cross, vsub; cbn [vx vy vz]; ring). rewrite <- Q in Po |- *. field. lra.
Qed.
Theorem C99_polygon : forall tiny n vs p tol, 0 <= tiny -> 0 <= tol -> convex_polygon n vs -> fan_large tiny vs ->
  (in_polygon n vs p -> isPointInsidePolygon tiny p vs tol = true) /\ (tol = 0 -> (isPointInsidePolygon tiny p vs tol = true <-> in_polygon n vs p)).
Proof.
  intros tiny n vs p tol T0 T Cp Fa. split; [intros H; apply (polygon_in tiny n vs p tol T0 T Cp Fa H)|]. intros ->. split; [|apply (polygon_in tiny n vs p 0 T0 T Cp Fa)]. destruct Cp as (L3 & Fl & Cv).
  destruct vs as [|v0 l]; [cbn in L3; lia|]. cbn [isPointInsidePolygon]. intros H. apply fan_iff in H. destruct H as (a & b & Nx & H).
  destruct (next_nth l a b Nx) as (i & Li & Ea & Eb). set (vs := v0 :: l) in *.
  assert (Pa : nth (S i) vs vzero = a) by exact Ea. assert (Pb : nth (S (S i)) vs vzero = b) by exact Eb. assert (Lv : (S (S i) < length vs)%nat) by (unfold vs; cbn [length]; lia).
  apply (triangle_out v0 a b tiny p 0 T0) in H. destruct H as (_ & x & y & z & t & X & Y & Z & S1 & Ht & P).
  assert (t = 0) by (destruct (Req_dec t 0) as [W|W]; [exact W|pose proof (Rabs_pos_lt t W); lra]). subst t.
  assert (P' : p = bary x y z v0 a b) by (rewrite P; coords; ring). clear P. subst p.
  (* every vertex is on the left of every edge *)
  assert (Lf : forall j k, (S j < length vs)%nat -> (k < length vs)%nat -> 0 <= orient n (nth j vs vzero) (nth (S j) vs vzero) (nth k vs vzero)).
  { intros j k Hj Hk. destruct (lt_eq_lt_dec k j) as [[C | ->] | C]; [|rewrite orient_aba; lra|].
    - rewrite <- orient_cycle. apply Rlt_le, Cv; lia.
    - destruct (Nat.eq_dec k (S j)) as [-> | N]; [rewrite orient_cycle, orient_aab; lra|]. apply Rlt_le, Cv; lia. }
  assert (Lc : forall k, (k < length vs)%nat -> 0 <= orient n (nth (length vs - 1) vs vzero) (nth 0 vs vzero) (nth k vs vzero)).
  { intros k Hk. destruct (Nat.eq_dec k 0) as [-> | N0]; [rewrite orient_cycle, orient_aab; lra|]. destruct (Nat.eq_dec k (length vs - 1)) as [-> | N1]; [rewrite orient_aba; lra|].
    rewrite orient_cycle. apply Rlt_le, Cv; lia. }
  assert (E0 : nth 0 vs vzero = v0) by reflexivity.
  split; [|split].
  - rewrite E0. replace (vsub (bary x y z v0 a b) v0) with (vadd (vscale y (vsub a v0)) (vscale z (vsub b v0))) by (replace x with (1 - y - z) by lra; coords; ring).
    replace (dot n (vadd (vscale y (vsub a v0)) (vscale z (vsub b v0)))) with (y * dot n (vsub a v0) + z * dot n (vsub b v0)) by (unfold dot, vadd, vscale; cbn; ring).
    rewrite (Fl a v0), (Fl b v0); [lra|rewrite <- Pb; apply nth_In; lia|left; reflexivity|rewrite <- Pa; apply nth_In; lia|left; reflexivity].
  - intros j Hj. rewrite orient_bary by exact S1. pose proof (Lf j 0%nat Hj ltac:(lia)) as A0. pose proof (Lf j (S i) Hj ltac:(lia)) as A1. pose proof (Lf j (S (S i)) Hj Lv) as A2. rewrite E0 in A0. rewrite Pa in A1. rewrite Pb in A2.
    pose proof (Rmult_le_pos x _ ltac:(lra) A0). pose proof (Rmult_le_pos y _ ltac:(lra) A1). pose proof (Rmult_le_pos z _ ltac:(lra) A2). lra.
  - rewrite orient_bary by exact S1. pose proof (Lc 0%nat ltac:(lia)) as A0. pose proof (Lc (S i) ltac:(lia)) as A1. pose proof (Lc (S (S i)) Lv) as A2. rewrite E0 in *. rewrite Pa in A1. rewrite Pb in A2.
    pose proof (Rmult_le_pos x _ ltac:(lra) A0). pose proof (Rmult_le_pos y _ ltac:(lra) A1). pose proof (Rmult_le_pos z _ ltac:(lra) A2). lra.
Qed.

(** A surface of segments, triangles and convex polygons, none too small. *)
Definition on_cell (c : shape * list vec) (p : vec) : Prop :=
  match c with
  | (Line, [a; b]) => in_segment a b p
  | (Triangle, [a; b; c]) => in_triangle a b c p
  | (Polygonal, vs) => exists n, convex_polygon n vs /\ in_polygon n vs p
  | _ => False
  end.
Definition proper (tiny : R) (c : shape * list vec) : Prop :=
  match c with
  | (Line, [a; b]) => tiny < norm (vsub b a)
  | (Triangle, [a; b; c]) => tiny < norm (cross (vsub b a) (vsub c a))
  | (Polygonal, vs) => (exists n, convex_polygon n vs) /\ fan_large tiny vs
  | _ => False
  end.
(** what bitpit is asked for: the closest cell has a point as near as any *)
Definition closest_right (cell : nat -> shape * list vec) (ids : list nat) (closest : vec -> option nat) : Prop :=
  forall p id y, In id ids -> on_cell (cell id) y -> exists id' x, closest p = Some id' /\ In id' ids /\ on_cell (cell id') x /\ norm (vsub p x) <= norm (vsub p y).

Theorem C99_belongs : forall tiny p t vs tol, 0 <= tiny -> 0 <= tol -> proper tiny (t, vs) ->
  exists b, checkPointBelongsToCell tiny p t vs tol = Some b /\ (on_cell (t, vs) p -> b = true) /\ (tol = 0 -> b = true -> on_cell (t, vs) p).
Proof.
  intros tiny p t vs tol T0 T Pr. destruct t; cbn [proper] in Pr; try contradiction.
  - destruct vs as [|a [|b [|]]]; try contradiction. cbn [checkPointBelongsToCell on_cell]. eexists. split; [reflexivity|]. destruct (C99_segment tiny p a b tol T0 T (or_intror Pr)) as (A & B). split; [exact A|].
    intros -> H. destruct (B H) as (x & Hx & D). pose proof (norm_ge (vsub p x)). assert (Z : vsub p x = vzero) by (apply norm_zero_eq; lra). replace p with x; [exact Hx|].
    apply vec_eq; [apply (f_equal vx) in Z|apply (f_equal vy) in Z|apply (f_equal vz) in Z]; unfold vsub, vzero in Z; cbn in Z; lra.
  - destruct vs as [|a [|b [|c [|]]]]; try contradiction. cbn [checkPointBelongsToCell on_cell]. eexists. split; [reflexivity|]. destruct (C99_triangle tiny p a b c tol T0 T Pr) as (A & _ & B). split; [exact A|]. intros Z. apply (B Z).
  - cbn [checkPointBelongsToCell on_cell]. eexists. split; [reflexivity|]. destruct Pr as ((n & Cn) & Fa). split.
    + intros (n' & Cn' & H). apply (proj1 (C99_polygon tiny n' vs p tol T0 T Cn' Fa) H).
    + intros Z H. exists n. split; [exact Cn|]. apply (proj2 (C99_polygon tiny n vs p tol T0 T Cn Fa) Z). exact H.
Qed.

(** A point on the surface is located, on a cell it belongs to; a point located without tolerance is on
    the cell given; a point not located is on no cell. *)
Theorem C99_locate : forall tiny closest cell ids p tol, 0 <= tiny -> 0 <= tol -> (forall id, In id ids -> proper tiny (cell id)) -> closest_right cell ids closest ->
  (forall id, closest p = Some id -> In id ids) ->
  ((exists id, In id ids /\ on_cell (cell id) p) -> exists id, locatePointOnPatch tiny closest cell p tol = Some (Some id) /\ In id ids /\ on_cell (cell id) p) /\
  (forall id, tol = 0 -> locatePointOnPatch tiny closest cell p tol = Some (Some id) -> In id ids /\ on_cell (cell id) p) /\
  (locatePointOnPatch tiny closest cell p tol = Some None -> forall id, In id ids -> ~ on_cell (cell id) p).
Proof.
  intros tiny closest cell ids p tol T0 T Pr Cr Ci.
  assert (First : (exists id, In id ids /\ on_cell (cell id) p) -> exists id, locatePointOnPatch tiny closest cell p tol = Some (Some id) /\ In id ids /\ on_cell (cell id) p).
  { intros (id & I & O). destruct (Cr p id p I O) as (id' & x & E & I' & O' & D).
    assert (Z : norm (vsub p p) = 0) by (rewrite <- norm_vzero; f_equal; coords; ring). rewrite Z in D. pose proof (norm_ge (vsub p x)). assert (Q : vsub p x = vzero) by (apply norm_zero_eq; lra).
    assert (X : p = x) by (apply vec_eq; [apply (f_equal vx) in Q|apply (f_equal vy) in Q|apply (f_equal vz) in Q]; unfold vsub, vzero in Q; cbn in Q; lra). rewrite <- X in O'.
    exists id'. split; [|split; assumption]. unfold locatePointOnPatch. rewrite E. destruct (cell id') as [t vs] eqn:C. cbn [fst snd]. pose proof (Pr id' I') as P. rewrite C in P.
    destruct (C99_belongs tiny p t vs tol T0 T P) as (b & -> & B & _). rewrite (B O'). reflexivity. }
  split; [exact First|]. split.
  - intros id Z H. unfold locatePointOnPatch in H. destruct (closest p) as [id'|] eqn:E; [|discriminate]. pose proof (Ci id' eq_refl) as I. destruct (cell id') as [t vs] eqn:C. cbn [fst snd] in H. pose proof (Pr id' I) as P. rewrite C in P.
    destruct (C99_belongs tiny p t vs tol T0 T P) as (b & Q & _ & B). rewrite Q in H. destruct b; [|discriminate]. injection H as <-. split; [exact I|]. rewrite C. apply (B Z eq_refl).
  - intros H id I O. destruct (First (ex_intro _ id (conj I O))) as (id' & E & _). congruence.
Qed.

(** A PIXEL gives its vertices row by row: a point of the square is refused. *)
Definition square : list vec := [V3 0 0 0; V3 1 0 0; V3 1 1 0; V3 0 1 0].
Definition pixel_order : list vec := [V3 0 0 0; V3 1 0 0; V3 0 1 0; V3 1 1 0].
Lemma square_convex : convex_polygon (V3 0 0 1) square.
Proof.
  split; [cbn; lia|]. split.
  - intros v w [<- | [<- | [<- | [<- | []]]]] [<- | [<- | [<- | [<- | []]]]]; unfold dot, vsub; cbn; ring.
  - intros i j k Hij Hjk Hk. cbn [length square] in Hk. assert (C : (i = 0 /\ j = 1 /\ k = 2 \/ i = 0 /\ j = 1 /\ k = 3 \/ i = 0 /\ j = 2 /\ k = 3 \/ i = 1 /\ j = 2 /\ k = 3)%nat) by lia.
    destruct C as [(-> & -> & ->) | [(-> & -> & ->) | [(-> & -> & ->) | (-> & -> & ->)]]]; unfold orient, dot, cross, vsub; cbn; lra.
Qed.
Lemma square_large : fan_large (/ 100) square.
Proof.
  intros i H1 H2. cbn [length square] in H2. assert (C : (i = 1 \/ i = 2)%nat) by lia. apply Rlt_le_trans with 1; [lra|]. destruct C as [-> | ->].
  - destruct (coord_le (cross (vsub (nth 1 square vzero) (nth 0 square vzero)) (vsub (nth 2 square vzero) (nth 0 square vzero)))) as (_ & _ & Z). eapply Rle_trans; [|exact Z]. unfold cross, vsub. cbn. rewrite Rabs_right; lra.
  - destruct (coord_le (cross (vsub (nth 2 square vzero) (nth 0 square vzero)) (vsub (nth 3 square vzero) (nth 0 square vzero)))) as (_ & _ & Z). eapply Rle_trans; [|exact Z]. unfold cross, vsub. cbn. rewrite Rabs_right; lra.
Qed.
Theorem C99_pixel_refuted : exists p, in_polygon (V3 0 0 1) square p /\ (forall v, In v square <-> In v pixel_order) /\ checkPointBelongsToCell (/ 100) p Polygonal pixel_order 0 = Some false.
Proof.
  exists (V3 1 (/ 2) 0). split; [|split].
  - split; [unfold dot, vsub; cbn; lra|]. split; [|unfold orient, dot, cross, vsub; cbn; lra]. intros i Hi. cbn [length square] in Hi. assert (C : (i = 0 \/ i = 1 \/ i = 2)%nat) by lia.
    destruct C as [-> | [-> | ->]]; unfold orient, dot, cross, vsub; cbn; lra.
  - intros v. cbn. tauto.
  - cbn [checkPointBelongsToCell]. f_equal. destruct (isPointInsidePolygon (/ 100) (V3 1 (/ 2) 0) pixel_order 0) eqn:E; [|reflexivity]. exfalso. cbn [isPointInsidePolygon pixel_order] in E. apply fan_iff in E.
    destruct E as (a & b & ([|x [|y [|z l1]]] & l2 & E) & H); cbn [app] in E; try discriminate; [| |apply (f_equal (@length vec)) in E; cbn [length] in E; rewrite app_length in E; cbn [length] in E; lia]; injection E as; subst.
    + apply triangle_out in H; [|lra]. destruct H as (_ & s & t & u & k & A & B & C & S1 & K & P). assert (k = 0) by (destruct (Req_dec k 0) as [Y|Y]; [exact Y|pose proof (Rabs_pos_lt k Y); lra]). subst k.
      pose proof (f_equal vx P) as Px. pose proof (f_equal vy P) as Py. unfold bary, vadd, vscale in Px, Py. cbn in Px, Py. lra.
    + apply triangle_out in H; [|lra]. destruct H as (_ & s & t & u & k & A & B & C & S1 & K & P). assert (k = 0) by (destruct (Req_dec k 0) as [Y|Y]; [exact Y|pose proof (Rabs_pos_lt k Y); lra]). subst k.
      pose proof (f_equal vx P) as Px. pose proof (f_equal vy P) as Py. unfold bary, vadd, vscale in Px, Py. cbn in Px, Py. lra.
Qed.

(** A polygon that is not convex: a point out of it, in the notch, is accepted.  The polygon is the two
    triangles of its vertex (0,0) with the sides that do not reach it. *)
Definition notched : list vec := [V3 2 0 0; V3 (/ 2) (/ 2) 0; V3 0 2 0; V3 0 0 0].
Theorem C99_concave_refuted : exists p, ~ in_triangle (V3 0 0 0) (V3 2 0 0) (V3 (/ 2) (/ 2) 0) p /\ ~ in_triangle (V3 0 0 0) (V3 (/ 2) (/ 2) 0) (V3 0 2 0) p /\
  checkPointBelongsToCell (/ 100) p Polygonal notched 0 = Some true.
Proof.
  exists (V3 (4 / 5) (4 / 5) 0). split; [|split].
  - intros (a & b & c & A & B & C & S1 & P). pose proof (f_equal vx P) as Px. pose proof (f_equal vy P) as Py. unfold bary, vadd, vscale in Px, Py. cbn in Px, Py. lra.
  - intros (a & b & c & A & B & C & S1 & P). pose proof (f_equal vx P) as Px. pose proof (f_equal vy P) as Py. unfold bary, vadd, vscale in Px, Py. cbn in Px, Py. lra.
  - cbn [checkPointBelongsToCell]. f_equal. cbn [isPointInsidePolygon notched]. apply fan_iff. exists (V3 (/ 2) (/ 2) 0), (V3 0 2 0). split; [exists [], [V3 0 0 0]; reflexivity|].
    apply triangle_in; [lra|lra| |].
    + destruct (coord_le (cross (vsub (V3 (/ 2) (/ 2) 0) (V3 2 0 0)) (vsub (V3 0 2 0) (V3 2 0 0)))) as (_ & _ & Z). eapply Rlt_le_trans; [|exact Z]. unfold cross, vsub. cbn. rewrite Rabs_left; lra.
    + exists (3 / 10), (2 / 5), (3 / 10). split; [lra|]. split; [lra|]. split; [lra|]. split; [lra|]. coords; lra.
Qed.

(** The distance from a polygon leaves out the triangle of its last side: a point of the square is at a
    positive distance from it. *)
Definition triangle_distance (d : vec -> vec -> vec -> vec -> R) : Prop :=
  forall p a b c, exists x, in_triangle a b c x /\ d p a b c = norm (vsub p x) /\ forall y, in_triangle a b c y -> d p a b c <= norm (vsub p y).
Theorem C99_distance_refuted : exists vs n p, convex_polygon n vs /\ in_polygon n vs p /\ forall d big, triangle_distance d -> 0 < big -> 0 < distancePointPolygon d big p vs.
Proof.
  exists square, (V3 0 0 1), (V3 0 (/ 2) 0). split; [exact square_convex|]. split.
  - split; [unfold dot, vsub; cbn; lra|]. split; [|unfold orient, dot, cross, vsub; cbn; lra]. intros i Hi. cbn [length square] in Hi. assert (C : (i = 0 \/ i = 1 \/ i = 2)%nat) by lia.
    destruct C as [-> | [-> | ->]]; unfold orient, dot, cross, vsub; cbn; lra.
  - intros d big Td B. unfold distancePointPolygon. cbn [length square].
    assert (Ctr : vscale (/ INR 4) (vsum square) = V3 (/ 2) (/ 2) 0) by (cbn [vsum square INR]; coords; field). rewrite Ctr. unfold square. cbn [least].
    assert (Pos : forall a b, (forall x, in_triangle (V3 (/ 2) (/ 2) 0) a b x -> x <> V3 0 (/ 2) 0) -> 0 < d (V3 0 (/ 2) 0) (V3 (/ 2) (/ 2) 0) a b).
    { intros a b H. destruct (Td (V3 0 (/ 2) 0) (V3 (/ 2) (/ 2) 0) a b) as (x & Hx & -> & _). pose proof (norm_ge (vsub (V3 0 (/ 2) 0) x)) as G. destruct (Req_dec (norm (vsub (V3 0 (/ 2) 0) x)) 0) as [Z|Z]; [|lra].
      apply norm_zero_eq in Z. destruct (H x Hx). apply vec_eq; [apply (f_equal vx) in Z|apply (f_equal vy) in Z|apply (f_equal vz) in Z]; unfold vsub, vzero in Z; cbn in Z |- *; lra. }
    assert (Mn : forall x y, 0 < x -> 0 < y -> 0 < Rmin x y) by (intros x y X Y; unfold Rmin; destruct (Rle_dec x y); assumption).
    repeat apply Mn; [exact B| | |]; apply Pos; intros x (s & t & u & A1 & A2 & A3 & S1 & ->) E; pose proof (f_equal vx E) as Ex; pose proof (f_equal vy E) as Ey; unfold bary, vadd, vscale in Ex, Ey; cbn in Ex, Ey; lra.
Qed.

(** The square with the point (1/2,1/4,0), and a surface of one segment. *)
Definition one_segment (id : nat) : shape * list vec := (Line, [V3 0 0 0; V3 1 0 0]).
Lemma segment_closest : closest_right one_segment [0%nat] (fun _ => Some 0%nat).
Proof.
  intros p id y _ (t & T & Y). cbn [on_cell one_segment] in *. exists 0%nat, (seg_foot p). split; [reflexivity|]. split; [left; reflexivity|]. destruct (seg_near p) as ((_ & X & _ & _) & N). split.
  - exists (clamp (vx p)). split; [exact X|]. unfold seg_foot. coords; ring.
  - apply (N 0%nat). subst y. unfold on_seg, vadd, vscale, vsub. cbn. split; [reflexivity|lra].
Qed.
Example C99_nonvacuous : proper (/ 100) (Polygonal, square) /\ on_cell (Polygonal, square) (V3 (/ 2) (/ 4) 0) /\
  closest_right one_segment [0%nat] (fun _ => Some 0%nat) /\ proper (/ 100) (one_segment 0) /\ on_cell (one_segment 0) (V3 (/ 2) 0 0).
Proof.
  split; [split; [exists (V3 0 0 1); exact square_convex|exact square_large]|]. split.
  - exists (V3 0 0 1). split; [exact square_convex|]. split; [unfold dot, vsub; cbn; lra|]. split; [|unfold orient, dot, cross, vsub; cbn; lra]. intros i Hi. cbn [length square] in Hi. assert (C : (i = 0 \/ i = 1 \/ i = 2)%nat) by lia.
    destruct C as [-> | [-> | ->]]; unfold orient, dot, cross, vsub; cbn; lra.
  - split; [exact segment_closest|]. split.
    + cbn [proper one_segment]. destruct (coord_le (vsub (V3 1 0 0) (V3 0 0 0))) as (X & _ & _). eapply Rlt_le_trans; [|exact X]. unfold vsub. cbn. rewrite Rabs_right; lra.
    + exists (/ 2). split; [lra|]. coords; lra.
Qed.

Print Assumptions C99_segment.
Print Assumptions C99_triangle.
Print Assumptions C99_polygon.
Print Assumptions C99_belongs.
Print Assumptions C99_locate.
Print Assumptions C99_pixel_refuted.
Print Assumptions C99_concave_refuted.
Print Assumptions C99_distance_refuted.
