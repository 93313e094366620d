(** C121-C123: curves and clouds made from points. *)
From Coq Require Import Reals List Arith ZArith Permutation Lia Lra.
From Verif Require Import Vec SkdDistProofs Curve CurveSpec CurveProofs.
Import ListNotations.
Open Scope R_scope.

Lemma executed : forall o r o', proper o -> execute o (Some r) o' -> exists w n conn subs, r = result_of w /\ segments_of o = Some conn /\ n = Z.to_nat (Z.max 0 (target o - (Z.of_nat (length (v_points o)) - 1 + closing o))) /\
  refine n (start o conn) (Some w) /\ good o w (joined (v_closed o) (map fst (v_points o))) subs /\ o' = setNCells (target o) o.
Proof.
  intros o r o' P H. inversion H as [|conn r0 E R0 E1 E2]. destruct r0 as [w|]; [|discriminate]. cbn in E1. injection E1 as <-.
  destruct (refine_good _ _ _ R0 o _ _ (start_good o conn P E) (joined_in _ _) w eq_refl) as (subs & G). exists w, (Z.to_nat (Z.max 0 (target o - (Z.of_nat (length (v_points o)) - 1 + closing o)))), conn, subs. auto 10.
Qed.
(** C121: the curve goes through the points given, in order, straight from each to the next; the fields are in proportion. *)
Theorem C121_curve : forall o r o', proper o -> execute o (Some r) o' ->
  follows o r /\ kept o r /\ distinct (g_points r) /\ distinct (g_cells r) /\ map fst (g_scalar r) = map fst (g_points r) /\ map fst (g_vector r) = map fst (g_points r).
Proof.
  intros o r o' P H. destruct (executed o r o' P H) as (w & n & conn & subs & -> & E & _ & R0 & G & _). destruct (refine_more _ _ _ R0 w eq_refl) as (M1 & M2 & M3). destruct G as [G1 G2 G3 _ G4 _ G5 G6 G7 _ _ _].
  split; [exists subs; auto|]. split; [|unfold distinct; cbn [result_of g_points g_cells g_scalar g_vector]; auto].
  intros x p V. cbn [result_of g_points g_cells g_scalar g_vector]. destruct P as (_ & PS & PV). assert (IX : In x (map fst (v_points o))) by (apply in_map_iff; exists (x, p); auto). split; [apply M1; exact V|].
  assert (K : forall A (zero : A) raw field, distinct raw -> (In (x, if exists_in raw x then get zero raw x else zero) field) -> field_kept zero raw field x).
  { intros A zero raw field D I. split.
    - intros v W. rewrite (proj2 (exists_in_iff raw x)) in I by (apply in_map_iff; exists (x, v); auto). rewrite (get_in zero raw x v D W) in I. exact I.
    - intros N. destruct (exists_in raw x) eqn:X; [|exact I]. apply exists_in_iff in X. exfalso. exact (N _ (in_get zero raw x X)). }
  split; apply K; try assumption; [apply M2|apply M3]; apply in_map_iff; exists x; auto.
Qed.
Print Assumptions C121_curve.
(** C121: as many cells as asked, or as needed to join the points; a vertex more than the cells if it is not closed. *)
Theorem C121_count : forall o r o', proper o -> v_points o <> [] -> execute o (Some r) o' ->
  Z.of_nat (length (g_cells r)) = Z.max (v_cells o) (Z.of_nat (length (v_points o)) - (if v_closed o then 0 else 1)) /\
  length (g_points r) = (length (g_cells r) + if v_closed o then 0 else 1)%nat.
Proof.
  intros o r o' P N H. destruct (executed o r o' P H) as (w & n & conn & subs & -> & E & -> & R0 & G & _). destruct (refine_count _ _ _ R0 w eq_refl) as (C1 & C2).
  destruct (segments_joined o conn E) as (S1 & S2). cbn [result_of g_points g_cells start w_conn w_points] in *. rewrite C1, C2.
  assert (L : Z.of_nat (length conn) = (Z.of_nat (length (v_points o)) - 1 + closing o)%Z).
  { rewrite <- (map_length snd conn), S1. unfold joined, closing. rewrite app_length, combine_length, <- (map_length fst (v_points o)). destruct (map fst (v_points o)) as [|x l] eqn:M; [destruct (v_points o); [contradiction|discriminate]|]. cbn [tl length]. destruct (v_closed o); cbn [length]; lia. }
  unfold target, closing in *. destruct (v_points o) as [|q l] eqn:Q; [contradiction|]. cbn [length] in *. destruct (v_closed o); lia.
Qed.
Print Assumptions C121_count.
(** C121: the pieces of the segments that were divided are at least half as long as any cell. *)
Theorem C121_even : forall o r o', proper o -> execute o (Some r) o' -> forall c d lc ld, has_length r c lc -> has_length r d ld -> ~ whole o r c -> ld <= 2 * lc.
Proof.
  intros o r o' P H c d lc ld (a & b & pa & pb & A1 & A2 & A3 & ->) (a' & b' & pa' & pb' & B1 & B2 & B3 & ->) N. destruct (executed o r o' P H) as (w & n & conn & subs & -> & E & _ & R0 & G & _). unfold value in *. cbn [result_of g_points g_cells] in *.
  assert (K : forall c a b pa pb, In (c, (a, b)) (w_conn w) -> In (a, pa) (w_points w) -> In (b, pb) (w_points w) -> In (norm (vsub pb pa), c) (w_queue w)).
  { intros c0 a0 b0 p q I X Y. assert (Q : In c0 (map snd (w_queue w))) by (apply (Permutation_in _ (Permutation_sym (ok_queue _ _ _ _ G))); apply in_map_iff; exists (c0, (a0, b0)); auto).
    apply in_map_iff in Q. destruct Q as ([d0 c1] & E1 & Q). cbn in E1. subst c1. destruct (ok_length _ _ _ _ G _ _ Q) as (a1 & b1 & J & D). pose proof (get_in (0, 0)%nat _ _ _ (ok_conn _ _ _ _ G) I) as G1. rewrite (get_in (0, 0)%nat _ _ _ (ok_conn _ _ _ _ G) J) in G1. injection G1 as -> ->.
    rewrite (get_in vzero _ _ _ (ok_points _ _ _ _ G) X), (get_in vzero _ _ _ (ok_points _ _ _ _ G) Y) in D. subst d0. exact Q. }
  apply (ok_even _ _ _ _ G _ c (a, b) (K c a b pa pb A1 A2 A3) A1) with (e := (norm (vsub pb' pa'), d)); [|exact (K d a' b' pa' pb' B1 B2 B3)]. intro I. apply N. exists (a, b). auto.
Qed.
Print Assumptions C121_even.
Lemma queue_start : forall o conn, w_queue (start o conn) = [] <-> conn = [].
Proof. intros o conn. cbn. destruct conn; split; intro H; try reflexivity; discriminate. Qed.
(** C121: from two points on, whatever the settings, there is a curve. *)
Theorem C121_defined : forall o, (2 <= length (v_points o))%nat \/ (length (v_points o) = 1%nat /\ (v_closed o = true \/ (v_cells o <= 0)%Z)) ->
  (exists r o', execute o (Some r) o') /\ forall res o', execute o res o' -> res <> None.
Proof.
  intros o L. assert (S0 : exists conn, segments_of o = Some conn /\ (conn <> [] \/ Z.to_nat (Z.max 0 (target o - (Z.of_nat (length (v_points o)) - 1 + closing o))) = 0%nat)).
  { unfold segments_of. cbn zeta. unfold ids. rewrite map_length. unfold target, closing. destruct (v_closed o).
    - destruct (Nat.eqb_spec (length (v_points o)) 0) as [|_]; [lia|]. eexists. split; [reflexivity|]. left. intro K. apply app_eq_nil in K. destruct K. discriminate.
    - eexists. split; [reflexivity|]. destruct L as [L|(L & [?|L2])]; [|discriminate|right; lia]. left. destruct (length (v_points o)) as [|[|m]]; [lia|lia|]. cbn. discriminate. }
  destruct S0 as (conn & E & Q). assert (Q' : w_queue (start o conn) <> [] \/ Z.to_nat (Z.max 0 (target o - (Z.of_nat (length (v_points o)) - 1 + closing o))) = 0%nat) by (rewrite queue_start; exact Q). split.
  - destruct (refine_exists _ _ Q') as (w & R0). exists (result_of w), (setNCells (target o) o). exact (execute_done o conn (Some w) E R0).
  - intros res o' H. inversion H as [E'|conn' r0 E' R0]; subst; [congruence|]. rewrite E in E'. injection E' as <-. apply refine_defined in R0; [|exact Q']. destruct r0; [discriminate|contradiction].
Qed.
Print Assumptions C121_defined.
(** C121 refuted: with no points a warning is written, and then the behaviour is undefined; so with one, if more cells are asked. *)
Theorem C121_few_points_refuted : forall o, (v_points o = [] /\ (v_closed o = true \/ (0 <= v_cells o)%Z)) \/ (length (v_points o) = 1%nat /\ v_closed o = false /\ (0 < v_cells o)%Z) ->
  (exists o', execute o None o') /\ forall res o', execute o res o' -> res = None.
Proof.
  intros o L. assert (S0 : segments_of o = None \/ (segments_of o = Some [] /\ Z.to_nat (Z.max 0 (target o - (Z.of_nat (length (v_points o)) - 1 + closing o))) <> 0%nat)).
  { unfold segments_of. cbn zeta. unfold ids. rewrite map_length. unfold target, closing. destruct L as [(L & K)|(L & C & K)].
    - rewrite L. cbn [length]. destruct (v_closed o); [left; reflexivity|]. destruct K as [?|K]; [discriminate|]. right. split; [reflexivity|lia].
    - rewrite L, C. right. split; [reflexivity|lia]. }
  destruct S0 as [E|(E & N)].
  - split; [eexists; exact (execute_undefined o E)|]. intros res o' H. inversion H; [reflexivity|congruence].
  - split.
    + eexists. apply (execute_done o [] None E). apply refine_undefined; [reflexivity|exact N|reflexivity].
    + intros res o' H. inversion H as [|conn' r0 E' R0]; [reflexivity|]. rewrite E in E'. injection E' as <-. apply refine_undefined in R0; [|reflexivity|exact N]. subst r0. reflexivity.
Qed.
Print Assumptions C121_few_points_refuted.
(** a curve of three points, closed, with five cells *)
Definition some_points : list vec := [V3 0 0 0; V3 4 0 0; V3 4 3 0].
Example C121_nonvacuous : let o := setNCells 5 (Curve true 0 (numbered some_points) (numbered [1; 5]) []) in proper o /\ (exists r o', execute o (Some r) o' /\ length (g_cells r) = 5%nat).
Proof.
  intro o. assert (P : proper o) by (unfold proper, distinct; cbn; repeat split; repeat constructor; cbn; intuition lia). split; [exact P|].
  destruct (C121_defined o) as ((r & o' & H) & _); [left; cbn; lia|]. exists r, o'. split; [exact H|]. destruct (C121_count o r o' P ltac:(discriminate) H) as (C & _). cbn in C. lia.
Qed.

(** C122: executing again without changes gives as many cells and vertices. *)
Theorem C122_again : forall o r1 o1 r2 o2, proper o -> v_points o <> [] -> execute o (Some r1) o1 -> execute o1 (Some r2) o2 ->
  length (g_cells r2) = length (g_cells r1) /\ length (g_points r2) = length (g_points r1) /\ o2 = o1.
Proof.
  intros o r1 o1 r2 o2 P N H1 H2. destruct (executed o r1 o1 P H1) as (_ & _ & _ & _ & _ & _ & _ & _ & _ & E1). subst o1. assert (P1 : proper (setNCells (target o) o)) by exact P.
  destruct (executed _ r2 o2 P1 H2) as (_ & _ & _ & _ & _ & _ & _ & _ & _ & E2). destruct (C121_count _ _ _ P N H1) as (A1 & A2). destruct (C121_count _ _ _ P1 N H2) as (B1 & B2). cbn [setNCells v_cells v_points v_closed] in B1, B2. unfold target, closing in B1.
  split; [|split].
  - destruct (v_closed o); lia.
  - rewrite A2, B2. destruct (v_closed o); lia.
  - subst o2. unfold target, setNCells, closing. cbn [v_closed v_cells v_points v_scalar v_vector]. f_equal. lia.
Qed.
Print Assumptions C122_again.
(** C122: the points of the executions before count: the cells are those needed by the longest list so far. *)
Theorem C122_history_partial : forall o q r1 o1 r2 o2, proper o -> distinct q -> v_points o <> [] -> q <> [] -> execute o (Some r1) o1 -> execute (setRawPoints q o1) (Some r2) o2 ->
  Z.of_nat (length (g_cells r2)) = Z.max (v_cells o) (Z.of_nat (Nat.max (length (v_points o)) (length q)) - (if v_closed o then 0 else 1)).
Proof.
  intros o q r1 o1 r2 o2 P D N NQ H1 H2. destruct (executed o r1 o1 P H1) as (_ & _ & _ & _ & _ & _ & _ & _ & _ & E1). subst o1. assert (P1 : proper (setRawPoints q (setNCells (target o) o))) by (destruct P as (_ & P); split; [exact D|exact P]).
  destruct (C121_count _ _ _ P1 NQ H2) as (B1 & _). rewrite B1. cbn. unfold target, closing. destruct (v_closed o); lia.
Qed.
Print Assumptions C122_history_partial.
(** C122 refuted: with the default settings a curve made after one with more points has more cells than made by itself. *)
Theorem C122_history_refuted : forall p q, distinct p -> distinct q -> (2 <= length q < length p)%nat ->
  (exists r1 o1 r2 o2, execute (setRawPoints p new_curve) (Some r1) o1 /\ execute (setRawPoints q o1) (Some r2) o2) /\
  (forall r1 o1 r2 o2, execute (setRawPoints p new_curve) (Some r1) o1 -> execute (setRawPoints q o1) (Some r2) o2 -> length (g_cells r2) = (length p - 1)%nat) /\
  (forall r o, execute (setRawPoints q new_curve) (Some r) o -> length (g_cells r) = (length q - 1)%nat).
Proof.
  intros p q D1 D2 L. assert (PN : forall l : data vec, distinct l -> proper (setRawPoints l new_curve)) by (intros l D; split; [exact D|split; constructor]).
  assert (NP : p <> []) by (destruct p; cbn in L; [lia|discriminate]). assert (NQ : q <> []) by (destruct q; cbn in L; [lia|discriminate]).
  split; [|split].
  - destruct (C121_defined (setRawPoints p new_curve)) as ((r1 & o1 & H1) & _); [left; cbn; lia|]. destruct (C121_defined (setRawPoints q o1)) as ((r2 & o2 & H2) & _); [left; cbn; lia|]. exists r1, o1, r2, o2. auto.
  - intros r1 o1 r2 o2 H1 H2. pose proof (C122_history_partial _ q r1 o1 r2 o2 (PN p D1) D2 NP NQ H1 H2) as C. cbn in C. lia.
  - intros r o H. destruct (C121_count _ r o (PN q D2) NQ H) as (C & _). cbn in C. lia.
Qed.
Print Assumptions C122_history_refuted.
Example C122_nonvacuous : distinct (numbered some_points) /\ distinct (numbered [V3 0 0 0; V3 1 0 0]) /\ (2 <= length (numbered [V3 0 0 0; V3 1 0 0]) < length (numbered some_points))%nat.
Proof. unfold distinct. cbn. repeat split; try lia; repeat constructor; cbn; intuition lia. Qed.

(** C123: a cloud has the points given, each with its cell, and the values given for them, zero if there are none; others are ignored. *)
Theorem C123_cloud : forall points scalar vector, distinct scalar -> distinct vector ->
  match cloud points scalar vector with
  | (vertices, cells, s, f) => vertices = points /\ (forall c x, value cells c x <-> c = x /\ exists p, value points x p) /\ length cells = length points /\
      map fst s = map fst points /\ map fst f = map fst points /\ forall x p, value points x p -> field_kept 0 scalar s x /\ field_kept vzero vector f x
  end.
Proof.
  intros points scalar vector D1 D2. unfold cloud. split; [reflexivity|]. split; [|split; [unfold ids; rewrite !map_length; reflexivity|]].
  - intros c x. unfold value, ids. rewrite in_map_iff. split.
    + intros (y & E & I). injection E as <- <-. split; [reflexivity|]. apply in_map_iff in I. destruct I as ([z p] & E & I). cbn in E. subst z. eauto.
    + intros (-> & p & I). exists x. split; [reflexivity|]. apply in_map_iff. exists (x, p). auto.
  - rewrite !written_ids, !map_map. cbn [fst]. rewrite !map_id. split; [reflexivity|]. split; [reflexivity|]. intros x p V. assert (I : In x (ids points)) by (apply in_map_iff; exists (x, p); auto). split; apply written_kept; assumption.
Qed.
Print Assumptions C123_cloud.
Example C123_nonvacuous : distinct (numbered [1; 2]) /\ value (numbered some_points) 2%nat (V3 4 3 0).
Proof. unfold distinct, value. cbn. split; [repeat constructor; cbn; intuition lia|auto]. Qed.
