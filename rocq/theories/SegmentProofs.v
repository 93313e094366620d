(** Proofs about projected segments and patches, and boxes around supports. *)
From Coq Require Import Reals List Arith ZArith NArith Bool Lia Lra.
From Verif Require Import Vec SkdDistProofs Text TextProofs Segment SegmentSpec.
Import ListNotations.
Open Scope R_scope.

(** ** Boxes *)
Lemma vmin_assoc : forall a b c, vmin a (vmin b c) = vmin (vmin a b) c.
Proof. intros [] [] []. unfold vmin. cbn. f_equal; apply Rmin_assoc. Qed.
Lemma vmax_assoc : forall a b c, vmax a (vmax b c) = vmax (vmax a b) c.
Proof. intros [] [] []. unfold vmax. cbn. f_equal; apply Rmax_assoc. Qed.
Section Folds.
  Variable m : R.
  Definition lo_of (v : vec) := vsub v (all3 m).
  Definition hi_of (v : vec) := vadd v (all3 m).
  Definition grow (b : vec * vec) (l : list vec) := fold_left (fun b v => (vmin (fst b) (lo_of v), vmax (snd b) (hi_of v))) l b.
  Lemma grow_pair : forall l b, grow b l = (fold_left vmin (map lo_of l) (fst b), fold_left vmax (map hi_of l) (snd b)).
  Proof. induction l as [|v l IH]; intros [lo hi]; [reflexivity|]. unfold grow in *. cbn [fold_left map]. rewrite IH. reflexivity. Qed.
End Folds.
Lemma fold_vmin_le : forall l a, (vx (fold_left vmin l a) <= vx a /\ vy (fold_left vmin l a) <= vy a /\ vz (fold_left vmin l a) <= vz a) /\
  forall v, In v l -> vx (fold_left vmin l a) <= vx v /\ vy (fold_left vmin l a) <= vy v /\ vz (fold_left vmin l a) <= vz v.
Proof.
  induction l as [|w l IH]; intro a; cbn [fold_left]; [split; [repeat split; lra|intros v []]|]. destruct (IH (vmin a w)) as ((A & B & C) & D). change (vx (vmin a w)) with (Rmin (vx a) (vx w)) in A. change (vy (vmin a w)) with (Rmin (vy a) (vy w)) in B. change (vz (vmin a w)) with (Rmin (vz a) (vz w)) in C.
  pose proof (Rmin_l (vx a) (vx w)); pose proof (Rmin_r (vx a) (vx w)); pose proof (Rmin_l (vy a) (vy w)); pose proof (Rmin_r (vy a) (vy w)); pose proof (Rmin_l (vz a) (vz w)); pose proof (Rmin_r (vz a) (vz w)).
  split; [repeat split; lra|]. intros v [<- |I]; [repeat split; lra|apply D; exact I].
Qed.
Lemma fold_vmax_ge : forall l a, (vx a <= vx (fold_left vmax l a) /\ vy a <= vy (fold_left vmax l a) /\ vz a <= vz (fold_left vmax l a)) /\
  forall v, In v l -> vx v <= vx (fold_left vmax l a) /\ vy v <= vy (fold_left vmax l a) /\ vz v <= vz (fold_left vmax l a).
Proof.
  induction l as [|w l IH]; intro a; cbn [fold_left]; [split; [repeat split; lra|intros v []]|]. destruct (IH (vmax a w)) as ((A & B & C) & D). change (vx (vmax a w)) with (Rmax (vx a) (vx w)) in A. change (vy (vmax a w)) with (Rmax (vy a) (vy w)) in B. change (vz (vmax a w)) with (Rmax (vz a) (vz w)) in C.
  pose proof (Rmax_l (vx a) (vx w)); pose proof (Rmax_r (vx a) (vx w)); pose proof (Rmax_l (vy a) (vy w)); pose proof (Rmax_r (vy a) (vy w)); pose proof (Rmax_l (vz a) (vz w)); pose proof (Rmax_r (vz a) (vz w)).
  split; [repeat split; lra|]. intros v [<- |I]; [repeat split; lra|apply D; exact I].
Qed.
Lemma fold_vmin_at : forall coord, coord = vx \/ coord = vy \/ coord = vz -> forall l a, coord (fold_left vmin l a) = coord a \/ exists v, In v l /\ coord (fold_left vmin l a) = coord v.
Proof.
  intros coord K. assert (C : forall p q, coord (vmin p q) = coord p \/ coord (vmin p q) = coord q) by (intros p q; destruct K as [-> |[-> | ->]]; unfold vmin; cbn; apply Rmin_case; auto).
  induction l as [|w l IH]; intro a; cbn [fold_left]; [auto|]. destruct (IH (vmin a w)) as [E|(v & I & E)]; [|right; exists v; cbn; auto]. destruct (C a w) as [X|X]; [left; congruence|right; exists w; split; [left; reflexivity|congruence]].
Qed.
Lemma fold_vmax_at : forall coord, coord = vx \/ coord = vy \/ coord = vz -> forall l a, coord (fold_left vmax l a) = coord a \/ exists v, In v l /\ coord (fold_left vmax l a) = coord v.
Proof.
  intros coord K. assert (C : forall p q, coord (vmax p q) = coord p \/ coord (vmax p q) = coord q) by (intros p q; destruct K as [-> |[-> | ->]]; unfold vmax; cbn; apply Rmax_case; auto).
  induction l as [|w l IH]; intro a; cbn [fold_left]; [auto|]. destruct (IH (vmax a w)) as [E|(v & I & E)]; [|right; exists v; cbn; auto]. destruct (C a w) as [X|X]; [left; congruence|right; exists w; split; [left; reflexivity|congruence]].
Qed.
Lemma fold_vmin_from : forall l a b, fold_left vmin l (vmin a b) = vmin a (fold_left vmin l b).
Proof. induction l as [|w l IH]; intros a b; cbn [fold_left]; [reflexivity|]. rewrite <- vmin_assoc. apply IH. Qed.
Lemma fold_vmax_from : forall l a b, fold_left vmax l (vmax a b) = vmax a (fold_left vmax l b).
Proof. induction l as [|w l IH]; intros a b; cbn [fold_left]; [reflexivity|]. rewrite <- vmax_assoc. apply IH. Qed.
Lemma vmin_self : forall a, vmin a a = a. Proof. intros []. unfold vmin. cbn. rewrite !Rmin_left by lra. reflexivity. Qed.
Lemma vmax_self : forall a, vmax a a = a. Proof. intros []. unfold vmax. cbn. rewrite !Rmax_left by lra. reflexivity. Qed.
Lemma fold_idem_min : forall l a, vmin a (fold_left vmin l a) = fold_left vmin l a.
Proof. intros l a. rewrite <- fold_vmin_from, vmin_self. reflexivity. Qed.
Lemma fold_idem_max : forall l a, vmax a (fold_left vmax l a) = fold_left vmax l a.
Proof. intros l a. rewrite <- fold_vmax_from, vmax_self. reflexivity. Qed.
(** the corners on all processes are those of all the vertices together *)
Lemma reduce_concat : forall top r parts, parts <> [] -> reduce (map (corners top r) parts) = Some (corners top r (concat parts)).
Proof.
  intros top r parts N. assert (C : forall l, corners top r l = grow (r * (101 / 100)) (all3 top, all3 (-1 * top)) l) by reflexivity.
  destruct parts as [|p parts]; [contradiction|]. clear N. cbn [map reduce concat]. f_equal. rewrite !C, !grow_pair. cbn [fst snd]. set (m := r * (101 / 100)). rewrite !map_app, !fold_left_app. f_equal.
  - rewrite map_map. generalize (map (lo_of m) p) as q. intro q. 
    assert (K : forall parts x, vmin (all3 top) x = x -> fold_left vmin (map (fun l => fst (corners top r l)) parts) x = fold_left vmin (map (lo_of m) (concat parts)) x).
    { clear parts q. induction parts as [|l parts IH]; intros x X; [reflexivity|]. cbn [map fold_left concat]. rewrite map_app, fold_left_app. rewrite C, grow_pair. cbn [fst]. fold m.
      assert (E : vmin x (fold_left vmin (map (lo_of m) l) (all3 top)) = fold_left vmin (map (lo_of m) l) x). { rewrite <- fold_vmin_from. f_equal. destruct x as [x1 x2 x3]; unfold vmin, all3 in *; cbn in *. injection X as X1 X2 X3. rewrite Rmin_comm, X1, (Rmin_comm x2), X2, (Rmin_comm x3), X3. reflexivity. }
      rewrite E. apply IH. rewrite <- fold_vmin_from, X. reflexivity. }
    apply K. apply fold_idem_min.
  - rewrite map_map. generalize (map (hi_of m) p) as q. intro q.
    assert (K : forall parts x, vmax (all3 (-1 * top)) x = x -> fold_left vmax (map (fun l => snd (corners top r l)) parts) x = fold_left vmax (map (hi_of m) (concat parts)) x).
    { clear parts q. induction parts as [|l parts IH]; intros x X; [reflexivity|]. cbn [map fold_left concat]. rewrite map_app, fold_left_app. rewrite C, grow_pair. cbn [snd]. fold m.
      assert (E : vmax x (fold_left vmax (map (hi_of m) l) (all3 (-1 * top))) = fold_left vmax (map (hi_of m) l) x). { rewrite <- fold_vmax_from. f_equal. destruct x as [x1 x2 x3]; unfold vmax, all3 in *; cbn [vx vy vz] in *. injection X as X1 X2 X3. rewrite Rmax_comm, X1, (Rmax_comm x2), X2, (Rmax_comm x3), X3. reflexivity. }
      rewrite E. apply IH. rewrite <- fold_vmax_from, X. reflexivity. }
    apply K. apply fold_idem_max.
Qed.
Lemma box_AABB : forall b, getAABB (box b) = b.
Proof. intros [[] []]. unfold getAABB, box, vsub, vadd, vscale. cbn. f_equal; f_equal; field. Qed.
Lemma corners_around : forall top r verts, 0 <= r -> verts <> [] -> fits top r verts -> around r verts (fst (corners top r verts)) (snd (corners top r verts)).
Proof.
  intros top r verts P N F. assert (C : corners top r verts = grow (r * (101 / 100)) (all3 top, all3 (-1 * top)) verts) by reflexivity. rewrite C, grow_pair. cbn [fst snd]. set (m := r * (101 / 100)). assert (M : m = r + r / 100) by (unfold m; field). split.
  - intros v p I D. destruct (fold_vmin_le (map (lo_of m) verts) (all3 top)) as (_ & A). destruct (fold_vmax_ge (map (hi_of m) verts) (all3 (-1 * top))) as (_ & B).
    specialize (A (lo_of m v) (in_map _ _ _ I)). specialize (B (hi_of m v) (in_map _ _ _ I)). change (vx (lo_of m v)) with (vx v - m) in A. change (vy (lo_of m v)) with (vy v - m) in A. change (vz (lo_of m v)) with (vz v - m) in A. change (vx (hi_of m v)) with (vx v + m) in B. change (vy (hi_of m v)) with (vy v + m) in B. change (vz (hi_of m v)) with (vz v + m) in B.
    destruct (coord_le (vsub p v)) as (X & Y & Z). cbn [vsub vx vy vz] in X, Y, Z. unfold Rabs in X, Y, Z. unfold within. destruct (Rcase_abs _) in X; destruct (Rcase_abs _) in Y; destruct (Rcase_abs _) in Z; lra.
  - intros coord K. assert (NV : exists v, In v verts) by (destruct verts as [|v ?]; [contradiction|exists v; left; reflexivity]). destruct NV as (v0 & I0).
    assert (CO : forall v, coord (lo_of m v) = coord v - m /\ coord (hi_of m v) = coord v + m) by (intros v; destruct K as [-> |[-> | ->]]; unfold lo_of, hi_of, vsub, vadd, all3; cbn; auto).
    destruct (F v0 I0) as (F1 & F2). fold m in F1, F2. fold (lo_of m v0) in F1. fold (hi_of m v0) in F2.
    assert (CF : coord (lo_of m v0) <= coord (all3 top) /\ coord (all3 (-1 * top)) <= coord (hi_of m v0)) by (unfold within in F1, F2; destruct K as [-> |[-> | ->]]; tauto).
    split.
    + destruct (fold_vmin_at coord K (map (lo_of m) verts) (all3 top)) as [E|(w & I & E)].
      * destruct (fold_vmin_le (map (lo_of m) verts) (all3 top)) as (_ & A). specialize (A (lo_of m v0) (in_map _ _ _ I0)). exists v0. split; [exact I0|]. destruct (CO v0) as (C1 & _).
        assert (coord (fold_left vmin (map (lo_of m) verts) (all3 top)) <= coord (lo_of m v0)) by (destruct K as [-> |[-> | ->]]; tauto). lra.
      * apply in_map_iff in I. destruct I as (v & <- & I). exists v. split; [exact I|]. destruct (CO v). lra.
    + destruct (fold_vmax_at coord K (map (hi_of m) verts) (all3 (-1 * top))) as [E|(w & I & E)].
      * destruct (fold_vmax_ge (map (hi_of m) verts) (all3 (-1 * top))) as (_ & A). specialize (A (hi_of m v0) (in_map _ _ _ I0)). exists v0. split; [exact I0|]. destruct (CO v0) as (_ & C2).
        assert (coord (hi_of m v0) <= coord (fold_left vmax (map (hi_of m) verts) (all3 (-1 * top)))) by (destruct K as [-> |[-> | ->]]; tauto). lra.
      * apply in_map_iff in I. destruct I as (v & <- & I). exists v. split; [exact I|]. destruct (CO v). lra.
Qed.

(** ** Patches *)
Lemma modify_ids : forall x p g, map fst (h_vertices (modifyVertex x p g)) = map fst (h_vertices g).
Proof. intros x p g. cbn. rewrite map_map. apply map_ext. intro e. destruct (Nat.eqb (fst e) x); reflexivity. Qed.
Lemma modify_many : forall f l g, NoDup (map fst l) -> (forall e, In e l -> In e (h_vertices g)) -> NoDup (map fst (h_vertices g)) ->
  h_vertices (fold_left (fun h e => modifyVertex (fst e) (snd e) h) (map (fun e => (fst e, f (snd e))) l) g) =
  map (fun e => if existsb (Nat.eqb (fst e)) (map fst l) then (fst e, f (snd e)) else e) (h_vertices g).
Proof.
  intros f. induction l as [|[x p] l IH]; intros g N I NG; cbn [map fold_left fst snd existsb].
  - rewrite <- (map_id (h_vertices g)) at 1. apply map_ext. intro e. reflexivity.
  - inversion N as [|? ? N1 N2]; subst.
    assert (HV : h_vertices (modifyVertex x (f p) g) = map (fun e => if Nat.eqb (fst e) x then (fst e, f p) else e) (h_vertices g)) by reflexivity.
    rewrite IH; [|exact N2| |rewrite modify_ids; exact NG].
    + rewrite HV, map_map. apply map_ext_in. intros [y q] J. cbn [fst snd]. destruct (Nat.eqb_spec y x) as [-> |NE]; cbn [fst snd orb].
      * assert (E : existsb (Nat.eqb x) (map fst l) = false). { destruct (existsb (Nat.eqb x) (map fst l)) eqn:E; [|reflexivity]. apply existsb_exists in E. destruct E as (z & Z & Q). apply Nat.eqb_eq in Q. subst z. contradiction. }
        rewrite E. f_equal. f_equal. assert (U : In (x, p) (h_vertices g)) by (apply I; left; reflexivity). revert NG J U. clear. induction (h_vertices g) as [|[z u] r IH]; intros NG J U; [destruct J|]. cbn [map fst] in NG. inversion NG as [|? ? N1 N2]; subst. destruct J as [J|J], U as [U|U]; try congruence; try (apply IH; assumption); exfalso; apply N1; apply in_map_iff; [exists (x, p)|exists (x, q)]; (split; [cbn; congruence|assumption]).
      * reflexivity.
    + intros e J. assert (K : In e (h_vertices g)) by (apply I; right; exact J). rewrite HV. apply in_map_iff. exists e. split; [|exact K]. destruct (Nat.eqb_spec (fst e) x) as [E|_]; [|reflexivity]. exfalso. apply N1. rewrite <- E. apply in_map. exact J.
Qed.
Lemma combine_map : forall {A B C} (f : A -> B) (g : A -> C) l, combine (map f l) (map g l) = map (fun x => (f x, g x)) l.
Proof. intros A B C f g l. induction l as [|x l IH]; [reflexivity|]. cbn. rewrite IH. reflexivity. Qed.
Lemma modify_cells : forall l g, h_cells (fold_left (fun h e => modifyVertex (fst e) (snd e) h) l g) = h_cells g.
Proof. induction l as [|e l IH]; intro g; cbn [fold_left]; [reflexivity|]. rewrite IH. reflexivity. Qed.
Lemma project_patch_is : forall project on g, NoDup (map fst (h_vertices g)) -> fst (project_patch project on g) = Patch (map (fun e => (fst e, project (snd e))) (h_vertices g)) (h_cells g).
Proof.
  intros project on g N. unfold project_patch. cbn zeta. cbn [fst]. rewrite map_map, combine_map.
  set (r := fold_left _ _ g). assert (E1 : h_vertices r = map (fun e => (fst e, project (snd e))) (h_vertices g)).
  { unfold r. rewrite (modify_many project (h_vertices g) g N); [|auto|exact N]. apply map_ext_in. intros e I. assert (X : existsb (Nat.eqb (fst e)) (map fst (h_vertices g)) = true) by (apply existsb_exists; exists (fst e); split; [apply in_map; exact I|apply Nat.eqb_refl]). rewrite X. reflexivity. }
  assert (E2 : h_cells r = h_cells g) by apply modify_cells. destruct r. cbn in *. congruence.
Qed.

(** ** Text *)
Lemma show_digits : forall z, (0 <= z)%Z -> (forall c, In c (show_int z) -> is_digit c = true) /\ value_of_digits (show_int z) = z /\ show_int z <> [].
Proof.
  intros z P. unfold show_int. cbn zeta. destruct (Z.ltb_spec z 0); [lia|]. set (a := Z.to_N (Z.abs z)). destruct (show_N_value (S (N.to_nat (N.log2 a))) a) as (V & N0); [lia|]. split; [apply show_N_digits|]. split; [|exact N0]. rewrite V. unfold a. lia.
Qed.
Lemma scan_digits : forall l, l <> [] -> (forall c, In c l -> is_digit c = true) -> get_int (opened l) = (Some (value_of_digits l), St [] true false) /\ attempted (opened l) = true.
Proof.
  intros l N D. destruct l as [|c l]; [contradiction|]. assert (DC : is_digit c = true) by (apply D; left; reflexivity).
  assert (SP : is_space c = false). { unfold is_digit, is_space in *. apply andb_prop in DC. destruct DC as (A & B). apply N.leb_le in A, B. apply Bool.orb_false_iff. split; [apply N.eqb_neq; lia|]. apply Bool.andb_false_iff. right. apply N.leb_gt. lia. }
  split; [|unfold attempted, good, opened; cbn [rest at_end failed negb andb]; rewrite no_skip by exact SP; reflexivity].
  unfold get_int, extract, good, opened. cbn [rest at_end failed negb andb]. rewrite no_skip by exact SP. unfold scan_int. rewrite (digit_not_minus c DC).
  pose proof (take_digits_app (c :: l) [] D) as T. rewrite app_nil_r in T. rewrite T by exact I. reflexivity.
Qed.
(** the six numbers in a row are one *)
Lemma segment_back : forall a b c d e f now, (0 <= a)%Z -> (0 <= b)%Z -> (0 <= c)%Z -> (0 <= d)%Z -> (0 <= e)%Z -> (0 <= f)%Z ->
  absorb_segment (flush_segment ((a, b, c), (d, e, f))) now = ((value_of_digits (flush_segment ((a, b, c), (d, e, f))), 0, 0), (1, 1, 1))%Z.
Proof.
  intros a b c d e f now A B C D E F. set (t := flush_segment _).
  assert (T : t <> [] /\ forall x, In x t -> is_digit x = true).
  { unfold t, flush_segment. destruct (show_digits a A) as (Da & _ & Na), (show_digits b B) as (Db & _ & _), (show_digits c C) as (Dc & _ & _), (show_digits d D) as (Dd & _ & _), (show_digits e E) as (De & _ & _), (show_digits f F) as (Df & _ & _).
    split; [intro H; apply app_eq_nil in H; destruct H; contradiction|]. intros x I. rewrite !in_app_iff in I. destruct I as [I|[I|[I|[I|[I|I]]]]]; auto. }
  clearbody t. destruct T as (N & T). destruct (scan_digits t N T) as (G & AT). unfold absorb_segment. destruct t as [|x t]; [contradiction|]. set (u := x :: t) in *.
  assert (R1 : read_into 0 (opened u) = (value_of_digits u, St [] true false)) by (unfold read_into; rewrite G, AT; reflexivity). rewrite R1. cbn -[value_of_digits]. rewrite Bool.andb_false_r. reflexivity.
Qed.
Lemma segment_lost : forall a b c d e f now, (0 <= a)%Z -> (0 <= b)%Z -> (0 <= c)%Z -> (0 <= d)%Z -> (0 <= e)%Z -> (0 <= f)%Z ->
  absorb_segment (flush_segment ((a, b, c), (d, e, f))) now <> ((a, b, c), (d, e, f)).
Proof.
  intros a b c d e f now A B C D E F H. rewrite segment_back in H by assumption. assert (EV := f_equal (fun s => fst (fst (fst s))) H). injection H as _ Hb Hc Hd He Hf. subst b c d e f. cbn [fst] in EV. unfold flush_segment in EV. rewrite value_app in EV. destruct (show_digits a A) as (_ & V & _). rewrite V in EV. assert (S0 : show_int 0 = [48%N]) by reflexivity. assert (S1 : show_int 1 = [49%N]) by reflexivity. rewrite S0, S1 in EV. cbn [app fold_left] in EV. change (Z.of_N 48) with 48%Z in EV. change (Z.of_N 49) with 49%Z in EV. lia.
Qed.

(** ** Segments *)
Lemma nth_seq : forall n k, (k < n)%nat -> nth_error (seq 0 n) k = Some k.
Proof. intros n k L. rewrite (nth_error_nth' _ 0%nat) by (rewrite seq_length; exact L). rewrite seq_nth by exact L. reflexivity. Qed.
Lemma combine_seq_map : forall {A} (f : nat -> A) n s, combine (seq s n) (map f (seq s n)) = map (fun k => (k, f k)) (seq s n).
Proof. intros A f. induction n as [|n IH]; intro s; [reflexivity|]. cbn. rewrite IH. reflexivity. Qed.

(** the box is determined *)
Lemma around_unique : forall r verts verts' lo hi lo' hi', 0 <= r -> (forall v, In v verts <-> In v verts') -> around r verts lo hi -> around r verts' lo' hi' -> lo = lo' /\ hi = hi'.
Proof.
  intros r verts verts' lo hi lo' hi' P S (A & B) (A' & B').
  assert (side : forall e : vec, norm e = 1 -> forall v x, Rabs x <= r + r / 100 -> norm (vsub (vadd v (vscale x e)) v) <= r + r / 100).
  { intros e U v x X. assert (Q : vsub (vadd v (vscale x e)) v = vscale x e) by (destruct v as [v1 v2 v3], e as [e1 e2 e3]; unfold vsub, vadd, vscale; cbn; f_equal; ring). rewrite Q, norm_scale, U. lra. }
  assert (U1 : norm (V3 1 0 0) = 1) by (unfold norm, dot; cbn; replace (1 * 1 + 0 * 0 + 0 * 0) with 1 by ring; apply sqrt_1).
  assert (U2 : norm (V3 0 1 0) = 1) by (unfold norm, dot; cbn; replace (0 * 0 + 1 * 1 + 0 * 0) with 1 by ring; apply sqrt_1).
  assert (U3 : norm (V3 0 0 1) = 1) by (unfold norm, dot; cbn; replace (0 * 0 + 0 * 0 + 1 * 1) with 1 by ring; apply sqrt_1).
  set (m := r + r / 100) in *. assert (M : 0 <= m) by (unfold m; lra). assert (X1 : Rabs m <= m) by (rewrite Rabs_right; lra). assert (X2 : Rabs (- m) <= m) by (rewrite Rabs_Ropp, Rabs_right; lra).
  assert (one : forall vs lo hi, (forall v p, In v vs -> norm (vsub p v) <= m -> within lo hi p) -> forall v, In v vs -> (vx lo <= vx v - m /\ vy lo <= vy v - m /\ vz lo <= vz v - m) /\ vx v + m <= vx hi /\ vy v + m <= vy hi /\ vz v + m <= vz hi).
  { intros vs l h Q v I.
    pose proof (Q v _ I (side _ U1 v m X1)) as Q1. pose proof (Q v _ I (side _ U1 v (- m) X2)) as Q2. pose proof (Q v _ I (side _ U2 v m X1)) as Q3. pose proof (Q v _ I (side _ U2 v (- m) X2)) as Q4. pose proof (Q v _ I (side _ U3 v m X1)) as Q5. pose proof (Q v _ I (side _ U3 v (- m) X2)) as Q6.
    unfold within, vadd, vscale in *. cbn [vx vy vz] in *. lra. }
  pose proof (one _ _ _ A) as OA. pose proof (one _ _ _ A') as OA'. clear one side A A'.
  assert (G : forall coord, coord = vx \/ coord = vy \/ coord = vz -> coord lo = coord lo' /\ coord hi = coord hi').
  { intros coord K. destruct (B coord K) as ((v1 & I1 & E1) & (v2 & I2 & E2)). destruct (B' coord K) as ((v1' & I1' & E1') & (v2' & I2' & E2')).
    pose proof (OA' v1 (proj1 (S _) I1)) as Z1. pose proof (OA' v2 (proj1 (S _) I2)) as Z2. pose proof (OA v1' (proj2 (S _) I1')) as Z3. pose proof (OA v2' (proj2 (S _) I2')) as Z4.
    clear OA OA' B B'. unfold m in *. destruct K as [-> |[-> | ->]]; lra. }
  destruct (G vx) as (G1 & G2); [auto|]. destruct (G vy) as (G3 & G4); [auto|]. destruct (G vz) as (G5 & G6); [auto|]. destruct lo, hi, lo', hi'. cbn in *. split; congruence.
Qed.
