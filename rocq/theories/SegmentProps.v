(** Properties C124 to C127. *)
From Coq Require Import Reals List Arith ZArith NArith Bool Lia Lra.
From Verif Require Import Vec SkdDistProofs Text TextProofs Segment SegmentSpec SegmentProofs.
Import ListNotations.
Open Scope R_scope.

(** ** C124: a segment is projected as a chain *)
Theorem C124_points : forall project n a b, (1 <= n)%Z ->
  exists V C p, project_segment project n (a, b) = Some (V, C) /\ evenly (Z.to_nat n) a b p /\ p 0%nat = a /\ p (Z.to_nat n) = b /\
    (forall k, nth_error V k = if (k <=? Z.to_nat n)%nat then Some (k, project (p k)) else None) /\
    (forall k, nth_error C k = if (k <? Z.to_nat n)%nat then Some (k, (k, (k + 1)%nat)) else None).
Proof.
  intros project n a b L. unfold project_segment, segment_points. destruct (Z.eqb_spec n 0); [lia|]. destruct (Z.ltb_spec (n + 1) 0); [lia|]. cbn [fst snd].
  set (p := fun k => vadd a (vscale (INR k) (vscale (/ IZR n) (vsub b a)))). assert (N0 : IZR n <> 0) by (apply not_0_IZR; lia). assert (IN : INR (Z.to_nat n) = IZR n) by (rewrite INR_IZR_INZ, Z2Nat.id by lia; reflexivity).
  eexists _, _, p. split; [reflexivity|]. assert (EV : evenly (Z.to_nat n) a b p). { intros k _. rewrite IN. unfold p. destruct a as [a1 a2 a3], b as [b1 b2 b3]; unfold vadd, vscale, vsub; cbn; f_equal; field; exact N0. }
  split; [exact EV|]. split; [unfold p; destruct a as [a1 a2 a3], b as [b1 b2 b3]; unfold vadd, vscale, vsub; cbn; f_equal; ring|]. split; [unfold p; rewrite IN; destruct a as [a1 a2 a3], b as [b1 b2 b3]; unfold vadd, vscale, vsub; cbn; f_equal; field; exact N0|].
  split; intro k.
  - rewrite map_map, map_length, seq_length, combine_seq_map. rewrite nth_error_map. destruct (Nat.leb_spec k (Z.to_nat n)).
    + rewrite nth_seq by lia. reflexivity.
    + rewrite (proj2 (nth_error_None _ _)); [reflexivity|]. rewrite seq_length. lia.
  - rewrite nth_error_map. destruct (Nat.ltb_spec k (Z.to_nat n)); [rewrite nth_seq by lia; reflexivity|]. rewrite (proj2 (nth_error_None _ _)); [reflexivity|]. rewrite seq_length. lia.
Qed.
Print Assumptions C124_points.
(** two points apart are kept as given; two that coincide change nothing *)
Theorem C124_ends : forall a b now, (/ 10 ^ 18 <= norm (vsub b a) -> setSegment a b now = (a, b)) /\ (a = b -> setSegment a b now = now).
Proof.
  intros a b now. unfold setSegment. split; [intro L; destruct (Rlt_dec _ _); [lra|reflexivity]|intros ->]. destruct (Rlt_dec _ _) as [|L]; [reflexivity|]. exfalso. apply L. assert (E : norm (vsub b b) = 0). { unfold norm, dot, vsub. cbn. rewrite !Rminus_diag_eq by reflexivity. replace (0 * 0 + 0 * 0 + 0 * 0) with 0 by ring. apply sqrt_0. }
  rewrite E. apply Rinv_0_lt_compat, pow_lt. lra.
Qed.
Print Assumptions C124_ends.
(** with a direction and a length the length is right only if the direction has length one *)
Theorem C124_length_partial : forall o d l now, norm d = 1 -> / 10 ^ 18 <= l -> exists b, setSegmentFrom o d l now = (o, b) /\ norm (vsub b o) = l /\ vsub b o = vscale l d.
Proof.
  intros o d l now U L. assert (P : 0 < / 10 ^ 18) by (apply Rinv_0_lt_compat, pow_lt; lra). assert (Q : vsub (vadd o (vscale l d)) o = vscale l d) by (destruct o as [o1 o2 o3], d as [d1 d2 d3]; unfold vsub, vadd, vscale; cbn; f_equal; ring).
  assert (NQ : norm (vscale l d) = l) by (rewrite norm_scale, U, Rabs_right; lra). exists (vadd o (vscale l d)). rewrite Q. repeat split; [|exact NQ]. apply (proj1 (C124_ends _ _ _)). rewrite Q, NQ. exact L.
Qed.
Print Assumptions C124_length_partial.
Theorem C124_length_refuted : exists o d l now b, 0 < l /\ setSegmentFrom o d l now = (o, b) /\ norm (vsub b o) <> l.
Proof.
  exists vzero, (V3 2 0 0), 3, (vzero, V3 1 1 1), (V3 6 0 0). assert (NB : norm (vsub (V3 6 0 0) vzero) = 6). { unfold norm, dot, vsub, vzero. cbn. replace ((6 - 0) * (6 - 0) + (0 - 0) * (0 - 0) + (0 - 0) * (0 - 0)) with (6 * 6) by ring. apply sqrt_square. lra. }
  split; [lra|]. rewrite NB. split; [|lra]. unfold setSegmentFrom. assert (Q : vadd vzero (vscale 3 (V3 2 0 0)) = V3 6 0 0) by (unfold vadd, vzero, vscale; cbn; f_equal; ring). rewrite Q. apply (proj1 (C124_ends _ _ _)). rewrite NB. assert (1 <= 10 ^ 18) by (apply pow_R1_Rle; lra). assert (/ 10 ^ 18 <= 1) by (rewrite <- Rinv_1; apply Rinv_le_contravar; lra). lra.
Qed.
Print Assumptions C124_length_refuted.
(** any number of cells is accepted, none of those below one gives a segment *)
Theorem C124_no_cells_refuted : forall project a b n, (n <= 0)%Z -> match project_segment project n (a, b) with None => True | Some (V, C) => V = [] /\ C = [] end.
Proof.
  intros project a b n L. unfold project_segment, segment_points. destruct (Z.eqb_spec n 0); [exact I|]. destruct (Z.ltb_spec (n + 1) 0); [exact I|]. assert (n = -1)%Z as -> by lia. cbn. auto.
Qed.
Print Assumptions C124_no_cells_refuted.
Example C124_nonvacuous : exists V C, project_segment (fun p => V3 (vx p) (vy p) 0) 2 (vzero, V3 2 2 2) = Some (V, C) /\ length V = 3%nat /\ length C = 2%nat /\ nth_error V 1 = Some (1%nat, V3 1 1 0).
Proof. eexists _, _. split; [reflexivity|]. cbn. repeat split. assert (E : forall x y : vec, x = y -> Some (1%nat, x) = Some (1%nat, y)) by (intros x y ->; reflexivity). apply E. unfold vzero. cbn. f_equal; field. Qed.

(** ** C125: a segment in XML *)
(** what is written is read back as another segment, whatever the (non negative, whole) coordinates *)
Theorem C125_segment_refuted : forall a b c d e f now, (0 <= a)%Z -> (0 <= b)%Z -> (0 <= c)%Z -> (0 <= d)%Z -> (0 <= e)%Z -> (0 <= f)%Z ->
  absorb_segment (flush_segment ((a, b, c), (d, e, f))) now <> ((a, b, c), (d, e, f)).
Proof. exact segment_lost. Qed.
Print Assumptions C125_segment_refuted.
(** it is always a segment that ends in (1,1,1) and starts on the first axis *)
Theorem C125_read_back : forall a b c d e f now, (0 <= a)%Z -> (0 <= b)%Z -> (0 <= c)%Z -> (0 <= d)%Z -> (0 <= e)%Z -> (0 <= f)%Z ->
  exists x, absorb_segment (flush_segment ((a, b, c), (d, e, f))) now = ((x, 0, 0), (1, 1, 1))%Z.
Proof. intros. eexists. apply segment_back; assumption. Qed.
Print Assumptions C125_read_back.
(** text with spaces between the numbers is read as written *)
Theorem C125_read : forall a b c d e f now, ((a, b, c) <> (d, e, f)) ->
  absorb_segment (show_int a ++ [32%N] ++ show_int b ++ [32%N] ++ show_int c ++ [32%N] ++ show_int d ++ [32%N] ++ show_int e ++ [32%N] ++ show_int f) now = ((a, b, c), (d, e, f)).
Proof.
  intros a b c d e f now NE.
  assert (R : forall x w z l, w = [] \/ w = [32%N] -> l = [] \/ (exists r, l = 32%N :: r) -> read_into x (opened (w ++ show_int z ++ l)) = (z, St l (ended l) false)).
  { intros x w z l W L. assert (WS : forall k, In k w -> is_space k = true) by (intros k K; destruct W as [-> | ->]; [destruct K|destruct K as [<- |[]]; reflexivity]).
    assert (SL : stops l) by (destruct L as [-> |(r & ->)]; [exact I|reflexivity]). unfold read_into. rewrite (get_int_shown w z l WS SL).
    assert (AT : attempted (opened (w ++ show_int z ++ l)) = true). { unfold attempted, good, opened. cbn [rest at_end failed negb andb]. rewrite (skip_line w _ WS). destruct (show_int_head z l) as (k & r & E & Sp). rewrite E, (no_skip k r Sp). reflexivity. }
    rewrite AT. reflexivity. }
  assert (R' : forall x z l, l = [] \/ (exists r, l = 32%N :: r) -> read_into x (St (32%N :: show_int z ++ l) false false) = (z, St l (ended l) false)) by (intros x z l L; exact (R x [32%N] z l (or_intror eq_refl) L)).
  unfold absorb_segment. set (t := show_int a ++ _). assert (NT : t <> []) by (unfold t; destruct (show_int_head a ([32%N] ++ show_int b ++ [32%N] ++ show_int c ++ [32%N] ++ show_int d ++ [32%N] ++ show_int e ++ [32%N] ++ show_int f)) as (k & r & E & _); rewrite E; discriminate).
  destruct t as [|k t'] eqn:T; [contradiction|]. rewrite <- T. unfold t. clear k t' T NT t. cbn [app].
  assert (R0 : forall x z l, l = [] \/ (exists r, l = 32%N :: r) -> read_into x (opened (show_int z ++ l)) = (z, St l (ended l) false)) by (intros x z l L; exact (R x [] z l (or_introl eq_refl) L)). rewrite R0 by (right; eexists; reflexivity). cbn [ended].
  do 4 (rewrite R' by (right; eexists; reflexivity); cbn [ended]). rewrite <- (app_nil_r (show_int f)), R' by (left; reflexivity).
  destruct (Z.eqb_spec a d) as [-> |], (Z.eqb_spec b e) as [-> |], (Z.eqb_spec c f) as [-> |]; cbn; try reflexivity. exfalso. apply NE. reflexivity.
Qed.
Print Assumptions C125_read.
Example C125_nonvacuous : absorb_segment (flush_segment ((0, 0, 0), (1, 1, 1))%Z) ((0, 0, 0), (1, 1, 1))%Z = ((111, 0, 0), (1, 1, 1))%Z /\ absorb_segment (flush_segment ((3, 0, 2), (7, 10, 4))%Z) ((0, 0, 0), (1, 1, 1))%Z = ((3027104, 0, 0), (1, 1, 1))%Z.
Proof. split; vm_compute; reflexivity. Qed.

(** ** C126: the box around the supports *)
Lemma rbf_box_is : forall top r parts, parts <> [] -> exists os, rbf_box top r parts = Some os /\ getAABB os = corners top r (concat parts).
Proof. intros top r parts N. unfold rbf_box. rewrite reduce_concat by exact N. cbn [option_map]. eexists. split; [reflexivity|apply box_AABB]. Qed.
Theorem C126_box : forall top r parts, concat parts <> [] -> fits top (Rmax 0 r) (concat parts) ->
  exists os, rbf_box top (setSupportRadius r) parts = Some os /\ around (Rmax 0 r) (concat parts) (fst (getAABB os)) (snd (getAABB os)).
Proof.
  intros top r parts N F. assert (NP : parts <> []) by (intros ->; apply N; reflexivity). destruct (rbf_box_is top (setSupportRadius r) parts NP) as (os & E & G). exists os. split; [exact E|]. rewrite G. apply corners_around; [apply Rmax_l|exact N|exact F].
Qed.
Print Assumptions C126_box.
(** the supports themselves are within, and the origin is the middle of the box *)
Theorem C126_contains : forall top r parts v p os, 0 <= r -> fits top r (concat parts) -> rbf_box top (setSupportRadius r) parts = Some os -> In v (concat parts) -> norm (vsub p v) <= r ->
  within (fst (getAABB os)) (snd (getAABB os)) p /\ vscale 2 (fst os) = vadd (fst (getAABB os)) (snd (getAABB os)) /\ snd os = vsub (snd (getAABB os)) (fst (getAABB os)).
Proof.
  intros top r parts v p os P F E I D. assert (MR : Rmax 0 r = r) by (apply Rmax_right; exact P). assert (N : concat parts <> []) by (intro X; rewrite X in I; destruct I).
  destruct (C126_box top r parts N) as (os' & E' & A & _); [rewrite MR; exact F|]. assert (os' = os) as -> by congruence. split; [apply (A v p I); rewrite MR; lra|].
  destruct os as [[o1 o2 o3] [s1 s2 s3]]. unfold getAABB, vsub, vadd, vscale. cbn. split; f_equal; field.
Qed.
Print Assumptions C126_contains.
(** the same box however the nodes are spread *)
Theorem C126_processes : forall top r parts parts', concat parts <> [] -> fits top (Rmax 0 r) (concat parts) -> (forall v, In v (concat parts) <-> In v (concat parts')) ->
  rbf_box top (setSupportRadius r) parts = rbf_box top (setSupportRadius r) parts'.
Proof.
  intros top r parts parts' N F S. assert (N' : concat parts' <> []) by (intro X; destruct (concat parts) as [|v l]; [apply N; reflexivity|]; specialize (proj1 (S v) (or_introl eq_refl)) as Y; rewrite X in Y; destruct Y).
  assert (F' : fits top (Rmax 0 r) (concat parts')) by (intros v I; apply F, S, I).
  assert (NP : parts <> []) by (intros ->; apply N; reflexivity). assert (NP' : parts' <> []) by (intros ->; apply N'; reflexivity). unfold rbf_box. rewrite !reduce_concat by assumption. cbn [option_map]. f_equal. f_equal.
  pose proof (corners_around top (Rmax 0 r) _ (Rmax_l _ _) N F) as A. pose proof (corners_around top (Rmax 0 r) _ (Rmax_l _ _) N' F') as A'. destruct (around_unique _ _ _ _ _ _ _ (Rmax_l 0 r) S A A') as (L & H). unfold setSupportRadius. destruct (corners _ _ (concat parts)), (corners _ _ (concat parts')). cbn in *. congruence.
Qed.
Print Assumptions C126_processes.
(** with no nodes what is given is no box *)
Theorem C126_empty_refuted : forall top r, 0 < top -> exists os, rbf_box top r [[]] = Some os /\ forall p, ~ within (fst (getAABB os)) (snd (getAABB os)) p.
Proof.
  intros top r P. destruct (rbf_box_is top r [[]]) as (os & E & G); [discriminate|]. exists os. split; [exact E|]. rewrite G. intros p W. unfold within, corners in W. cbn in W. lra.
Qed.
Print Assumptions C126_empty_refuted.
Example C126_nonvacuous : exists os, rbf_box 1000 (setSupportRadius 1) [[V3 0 0 0]; []; [V3 2 0 1]] = Some os /\ fst (getAABB os) = V3 (- (101 / 100)) (- (101 / 100)) (- (101 / 100)) /\ snd (getAABB os) = V3 (2 + 101 / 100) (101 / 100) (1 + 101 / 100) /\ fits 1000 (Rmax 0 1) [V3 0 0 0; V3 2 0 1].
Proof.
  destruct (rbf_box_is 1000 (setSupportRadius 1) [[V3 0 0 0]; []; [V3 2 0 1]]) as (os & E & G); [discriminate|]. exists os. split; [exact E|]. rewrite G. assert (M : Rmax 0 1 = 1) by (apply Rmax_right; lra). unfold setSupportRadius. rewrite M. cbn [concat app]. unfold corners, vmin, vmax, vsub, vadd, all3. cbn.
  split; [|split].
  - f_equal; unfold Rmin; repeat destruct (Rle_dec _ _); lra.
  - f_equal; unfold Rmax; repeat destruct (Rle_dec _ _); lra.
  - intros v [<- |[<- |[]]]; unfold within; cbn; lra.
Qed.

(** ** C127: a patch is projected vertex by vertex *)
Theorem C127_patch : forall project on_target g, NoDup (map fst (h_vertices g)) ->
  let (res, given) := project_patch project on_target g in
  map fst (h_vertices res) = map fst (h_vertices g) /\ (forall x p, In (x, p) (h_vertices g) -> In (x, project p) (h_vertices res)) /\ h_cells res = h_cells g /\ given = (if on_target then res else g).
Proof.
  intros project on g N. pose proof (project_patch_is project on g N) as E. unfold project_patch in *. cbn zeta in *. cbn [fst] in E. rewrite E. cbn. rewrite map_map. cbn. split; [reflexivity|]. split; [|split; reflexivity]. intros x p I. apply in_map_iff. exists (x, p). auto.
Qed.
Print Assumptions C127_patch.
(** if a projected point projects on itself, to project again changes nothing *)
Theorem C127_again : forall project on_target on_target' g, NoDup (map fst (h_vertices g)) -> (forall p, project (project p) = project p) ->
  fst (project_patch project on_target' (fst (project_patch project on_target g))) = fst (project_patch project on_target g).
Proof.
  intros project on on' g N I. rewrite project_patch_is; rewrite project_patch_is by exact N; cbn; [|rewrite map_map; cbn; exact N]. f_equal. rewrite map_map. apply map_ext. intros [x p]. cbn. rewrite I. reflexivity.
Qed.
Print Assumptions C127_again.
Example C127_nonvacuous : let g := Patch [(7%nat, V3 1 2 3); (2%nat, V3 0 0 1)] [(0%nat, [7; 2]%nat)] in NoDup (map fst (h_vertices g)) /\ project_patch (fun p => V3 (vx p) (vy p) 0) false g = (Patch [(7%nat, V3 1 2 0); (2%nat, V3 0 0 0)] [(0%nat, [7; 2]%nat)], g).
Proof. split; [repeat constructor; cbn; intuition discriminate|reflexivity]. Qed.
