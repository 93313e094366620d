(** The numbering of the points of built lattices. *)
From Coq Require Import Reals List Arith ZArith Bool Lia.
From Verif Require Import Vec Shape ShapeSpec ShapeProofs Mesh MeshSpec MeshProofs MeshBuild Lattice LatticeNumber.
Import ListNotations.
Open Scope Z_scope.

(* ------------------------------------------------------------------ sums *)
Fixpoint sumz (f : nat -> Z) (n : nat) : Z := match n with O => 0 | S n' => sumz f n' + f n' end.
Lemma sumz_ext f g n : (forall i, (i < n)%nat -> f i = g i) -> sumz f n = sumz g n.
Proof. induction n as [|n IH]; intros H; cbn; [reflexivity|]. rewrite IH by (intros; apply H; lia). rewrite (H n) by lia. reflexivity. Qed.
Lemma sumz_const c n : sumz (fun _ => c) n = Z.of_nat n * c.
Proof. induction n as [|n IH]; [reflexivity|]. cbn [sumz]. rewrite IH. lia. Qed.
Lemma sumz_lin a b f g n : sumz (fun i => a * f i + b * g i) n = a * sumz f n + b * sumz g n.
Proof. induction n as [|n IH]; cbn; [lia|]. rewrite IH. lia. Qed.
Lemma sumz_app f n m : sumz f (n + m) = sumz f n + sumz (fun i => f (n + i)%nat) m.
Proof. induction m as [|m IH]; [rewrite Nat.add_0_r; cbn; lia|]. rewrite Nat.add_succ_r. cbn. rewrite IH. lia. Qed.
Lemma sumz_mul f a b : sumz f (a * b) = sumz (fun i => sumz (fun j => f (i * b + j)%nat) b) a.
Proof.
  induction a as [|a IH]; [reflexivity|]. cbn [sumz]. rewrite <- IH. rewrite <- sumz_app. f_equal. lia.
Qed.
Lemma sumz_one x n : (x < n)%nat -> sumz (fun i => if Nat.eqb i x then 1 else 0) n = 1.
Proof.
  induction n as [|n IH]; [lia|]. intros H. cbn [sumz]. destruct (Nat.eqb_spec n x) as [->|NE].
  - rewrite (sumz_ext _ (fun _ => 0)); [rewrite sumz_const; lia|]. intros i Hi. destruct (Nat.eqb_spec i x); [lia|reflexivity].
  - rewrite IH by lia. lia.
Qed.
Lemma count_sum f n : Z.of_nat (count f n) = sumz (fun i => if f i then 1 else 0) n.
Proof. induction n as [|n IH]; [reflexivity|]. rewrite count_S. cbn [sumz]. rewrite <- IH. destruct (f n); lia. Qed.

(* ------------------------------------------------------------------ the points that share a number *)
Definition tri := (Z * Z * Z)%type.
Definition rep3 (m : mesh) (t : tri) : tri :=
  let '(i, j, k) := t in
  match m_shape m with
  | None => t
  | Some s =>
      let f := lat_info s in
      match s_kind s with
      | CUBE => t
      | WEDGE => if i =? a_n (m_x m) then (i, j, 0) else t
      | CYLINDER => if i_per f && (j =? a_n (m_y m)) then (i, 0, k) else t
      | SPHERE => if (i_low f && (k =? 0)) || (i_high f && (k =? a_n (m_z m))) then (i, 0, k)
                  else if i_per f && (j =? a_n (m_y m) - 1) then (i, 0, k) else t
      end
  end.
Definition api (m : mesh) (t : tri) : Z := let '(i, j, k) := t in accessPointIndex m i j k.
Definition sized (m : mesh) : Prop :=
  match m_shape m with None => False | Some s => forall i, (i < 3)%nat -> min_points (s_kind s) i <= dim m i end.
Lemma sized_pos m : sized m -> exists s, m_shape m = Some s /\ 1 <= a_n (m_x m) /\ min_points (s_kind s) 1 - 1 <= a_n (m_y m) /\
  1 <= a_n (m_y m) /\ min_points (s_kind s) 2 - 1 <= a_n (m_z m) /\ 1 <= a_n (m_z m).
Proof.
  unfold sized. destruct (m_shape m) as [s|]; [|tauto]. intros H. exists s. split; [reflexivity|].
  destruct (dim_eqs m) as (D0 & D1 & D2).
  pose proof (H 0%nat ltac:(lia)) as A. pose proof (H 1%nat ltac:(lia)) as B. pose proof (H 2%nat ltac:(lia)) as C.
  pose proof (min_ge (s_kind s) 0). pose proof (min_ge (s_kind s) 1). pose proof (min_ge (s_kind s) 2). lia.
Qed.
Lemma no_core s : i_core (lat_info s) = false.
Proof.
  unfold lat_info, getLocalOrigin. destruct (s_kind s); try reflexivity; cbn [i_core vx vzero]; unfold posR;
    destruct (Rlt_dec 0 0) as [C|]; try reflexivity; exfalso; revert C; apply Rlt_irrefl.
Qed.
Lemma in_range z n : In z (range n) <-> 0 <= z <= n.
Proof.
  unfold range. rewrite in_map_iff. split.
  - intros (x & <- & H). apply in_seq in H. lia.
  - intros H. exists (Z.to_nat z). split; [lia|]. apply in_seq. lia.
Qed.

Ltac bools := repeat match goal with
  | H : context [Z.eqb ?a ?b] |- _ => destruct (Z.eqb_spec a b)
  | |- context [Z.eqb ?a ?b] => destruct (Z.eqb_spec a b)
  end.
Lemma rep3_valid m t : sized m -> point_index m t -> point_index m (rep3 m t).
Proof.
  intros S. destruct (sized_pos m S) as (s & E & NX & _ & NY & _ & NZ). destruct t as [[i j] k]. unfold rep3. rewrite E.
  rewrite point_index_iff. intros (A & B & C).
  destruct (s_kind s); try (apply point_index_iff; lia).
  - destruct (_ && _)%bool; apply point_index_iff; lia.
  - destruct (_ || _)%bool; [apply point_index_iff; lia|]. destruct (_ && _)%bool; apply point_index_iff; lia.
  - destruct (i =? a_n (m_x m)); apply point_index_iff; lia.
Qed.
Lemma rep3_idem m t : sized m -> rep3 m (rep3 m t) = rep3 m t.
Proof.
  intros S. destruct (sized_pos m S) as (s & E & NX & MY & NY & MZ & NZ). destruct t as [[i j] k]. unfold rep3. rewrite E.
  destruct (s_kind s); cbn [min_points] in *; try reflexivity; destruct (lat_info s) as [c p l h]; cbn [i_per i_low i_high];
    destruct p, l, h; cbn [andb orb]; bools; cbn [andb orb]; try reflexivity; try lia; bools; cbn [andb orb]; try reflexivity; try lia.
Qed.
Lemma rep3_below m t : sized m -> point_index m t -> api m (rep3 m t) <= api m t.
Proof.
  intros S. destruct (sized_pos m S) as (s & E & NX & MY & NY & MZ & NZ). destruct t as [[i j] k]. unfold rep3. rewrite E.
  rewrite point_index_iff. intros (A & B & C). 
  assert (Z : 0 <= (a_n (m_z m) + 1) * j) by nia.
  destruct (s_kind s); [lia| | |].
  - destruct (_ && _)%bool; unfold api, accessPointIndex; lia.
  - destruct (_ || _)%bool; [unfold api, accessPointIndex; lia|]. destruct (_ && _)%bool; unfold api, accessPointIndex; lia.
  - destruct (i =? a_n (m_x m)); unfold api, accessPointIndex; lia.
Qed.
Lemma also_in m r z : sized m -> point_index m r -> rep3 m r = r -> In z (also m r) ->
  exists t, z = api m t /\ point_index m t /\ rep3 m t = r.
Proof.
  intros S. destruct (sized_pos m S) as (s & E & NX & MY & NY & MZ & NZ). destruct r as [[i j] k]. rewrite point_index_iff.
  intros (A & B & C) R I. unfold also in I. unfold rep3 in R. unfold rep3. rewrite E in *. pose proof (no_core s) as NC.
  destruct (lat_info s) as [c p l h]. cbn [i_core i_per i_low i_high] in *. subst c. cbn [andb app] in I.
  destruct (s_kind s); cbn [min_points] in *; [destruct I| | |].
  - destruct p; cbn [andb] in *; [|destruct I]. destruct (Z.eqb_spec j 0) as [->|NE]; [|destruct I].
    destruct I as [<-|[]]. exists (i, a_n (m_y m), k). split; [reflexivity|]. split; [apply point_index_iff; lia|].
    cbn. rewrite Z.eqb_refl. reflexivity.
  - apply in_app_or in I. destruct I as [I|I]; [|apply in_app_or in I; destruct I as [I|I]].
    + destruct p; cbn [andb] in *; [|destruct I]. destruct (Z.eqb_spec j 0) as [->|NE]; [|destruct I].
      destruct I as [<-|[]]. exists (i, a_n (m_y m) - 1, k). split; [reflexivity|]. split; [apply point_index_iff; lia|].
      cbn. rewrite Z.eqb_refl. destruct (_ || _)%bool; reflexivity.
    + destruct l; cbn [andb orb] in *; [|destruct I]. destruct (Z.eqb_spec k 0) as [->|NE]; [|destruct I].
      apply in_map_iff in I. destruct I as (j' & <- & J). apply in_range in J. exists (i, j', 0). split; [reflexivity|].
      split; [apply point_index_iff; lia|]. cbn in *. exact R.
    + destruct h; cbn [andb orb] in *; [|destruct I]. destruct (Z.eqb_spec k (a_n (m_z m))) as [->|NE]; [|destruct I].
      apply in_map_iff in I. destruct I as (j' & <- & J). apply in_range in J. exists (i, j', a_n (m_z m)). split; [reflexivity|].
      split; [apply point_index_iff; lia|]. rewrite !Z.eqb_refl, orb_true_r in *. exact R.
  - destruct (Z.eqb_spec i (a_n (m_x m))) as [->|NE]; [|destruct I].
    apply in_map_iff in I. destruct I as (k' & <- & K). apply in_range in K. exists (a_n (m_x m), j, k'). split; [reflexivity|].
    split; [apply point_index_iff; lia|]. rewrite Z.eqb_refl. exact R.
Qed.
Lemma also_all m r t : sized m -> point_index m r -> rep3 m r = r -> point_index m t -> rep3 m t = r -> t = r \/ In (api m t) (also m r).
Proof.
  intros S. destruct (sized_pos m S) as (s & E & NX & MY & NY & MZ & NZ). destruct r as [[i j] k], t as [[i' j'] k']. rewrite !point_index_iff.
  intros (A & B & C) R (A' & B' & C') T. unfold also. unfold rep3 in R, T. rewrite E in *. pose proof (no_core s) as NC.
  destruct (lat_info s) as [c p l h]. cbn [i_core i_per i_low i_high] in *. subst c. cbn [andb app].
  destruct (s_kind s); cbn [min_points] in *; [left; congruence| | |].
  - destruct p; cbn [andb] in *; [|left; congruence]. destruct (Z.eqb_spec j' (a_n (m_y m))) as [->|NE]; [|left; congruence].
    injection T as <- <- <-. right. left. reflexivity.
  - destruct ((l && (k' =? 0)) || (h && (k' =? a_n (m_z m))))%bool eqn:Q.
    + injection T as <- <- <-. right. apply in_or_app; right. apply in_or_app.
      apply orb_true_iff in Q. destruct Q as [Q|Q]; rewrite Q; [left|right]; apply in_map_iff; exists j'; (split; [reflexivity|apply in_range; lia]).
    + destruct p; cbn [andb] in *; [|left; congruence]. destruct (Z.eqb_spec j' (a_n (m_y m) - 1)) as [->|NE]; [|left; congruence].
      injection T as <- <- <-. right. left. reflexivity.
  - destruct (Z.eqb_spec i' (a_n (m_x m))) as [->|NE]; [|left; congruence]. injection T as <- <- <-. right.
    rewrite Z.eqb_refl. apply in_map_iff. exists k'. split; [reflexivity|apply in_range; lia].
Qed.

(* ------------------------------------------------------------------ in terms of numbers of points *)
Definition size (m : mesh) : nat := Z.to_nat (num_points m).
Definition repn (m : mesh) (n : nat) : nat := Z.to_nat (api m (rep3 m (pointCoords m (Z.of_nat n)))).
Lemma dims_pos m : sized m -> forall i, (i < 3)%nat -> 0 < dim m i.
Proof.
  intros S. destruct (sized_pos m S) as (s & E & NX & _ & NY & _ & NZ). destruct (dim_eqs m) as (D0 & D1 & D2).
  intros i Hi. three Hi; lia.
Qed.
Lemma api_range m t : point_index m t -> 0 <= api m t < num_points m /\ pointCoords m (api m t) = t.
Proof. destruct t as [[i j] k]. intros H. apply (proj1 (points_bijection m)), H. Qed.
Lemma coords_of m n : sized m -> (n < size m)%nat -> point_index m (pointCoords m (Z.of_nat n)) /\ api m (pointCoords m (Z.of_nat n)) = Z.of_nat n.
Proof.
  intros S H. unfold size in H. destruct (proj2 (points_bijection m) (dims_pos m S) (Z.of_nat n) ltac:(lia)) as [A B].
  split; [exact A|]. unfold api. destruct (pointCoords m (Z.of_nat n)) as [[i j] k]. exact B.
Qed.
Lemma api_inj m t t' : point_index m t -> point_index m t' -> api m t = api m t' -> t = t'.
Proof. intros A B E. rewrite <- (proj2 (api_range m t A)), <- (proj2 (api_range m t' B)), E. reflexivity. Qed.
Lemma repn_api m t : sized m -> point_index m t -> repn m (Z.to_nat (api m t)) = Z.to_nat (api m (rep3 m t)).
Proof.
  intros S P. destruct (api_range m t P) as [A B]. unfold repn. rewrite Z2Nat.id by lia. rewrite B. reflexivity.
Qed.
Section nums.
Variable m : mesh.
Hypothesis S : sized m.
Let next n := also m (pointCoords m n).
Lemma repn_below n : (n < size m)%nat -> (repn m n <= n)%nat.
Proof.
  intros H. destruct (coords_of m n S H) as [P E]. pose proof (rep3_below m _ S P). unfold repn.
  pose proof (api_range m _ (rep3_valid m _ S P)). lia.
Qed.
Lemma repn_idem n : (n < size m)%nat -> repn m (repn m n) = repn m n.
Proof.
  intros H. destruct (coords_of m n S H) as [P E]. unfold repn at 2 3.
  rewrite repn_api by (try exact S; apply rep3_valid; assumption). rewrite rep3_idem by exact S. reflexivity.
Qed.
Lemma repn_fix r : (r < size m)%nat -> repn m r = r -> rep3 m (pointCoords m (Z.of_nat r)) = pointCoords m (Z.of_nat r).
Proof.
  intros H F. destruct (coords_of m r S H) as [P E]. pose proof (rep3_valid m _ S P) as V. apply (api_inj m); [exact V|exact P|].
  unfold repn in F. pose proof (api_range m _ V). lia.
Qed.
Lemma next_in_m r z : (r < size m)%nat -> repn m r = r -> In z (next (Z.of_nat r)) -> exists n, z = Z.of_nat n /\ (n < size m)%nat /\ repn m n = r.
Proof.
  intros H F I. destruct (coords_of m r S H) as [P E]. destruct (also_in m _ z S P (repn_fix r H F) I) as (t & -> & V & Q).
  destruct (api_range m t V) as [A B]. exists (Z.to_nat (api m t)). split; [lia|]. split; [unfold size; lia|].
  rewrite repn_api by assumption. rewrite Q, E. lia.
Qed.
Lemma next_all_m r n : (r < size m)%nat -> repn m r = r -> (n < size m)%nat -> repn m n = r -> n = r \/ In (Z.of_nat n) (next (Z.of_nat r)).
Proof.
  intros H F Hn Q. destruct (coords_of m r S H) as [P E]. destruct (coords_of m n S Hn) as [P' E'].
  destruct (also_all m _ _ S P (repn_fix r H F) P') as [C|C].
  - pose proof (rep3_valid m _ S P') as V. apply (api_inj m); [exact V|exact P|]. unfold repn in Q. pose proof (api_range m _ V). lia.
  - left. rewrite C in E'. lia.
  - right. rewrite E' in C. exact C.
Qed.
End nums.
Lemma resize_sized m : sized m ->
  resizeMapDof m = Some (reduceDimToDOF (m_shape m) (dim m 0) (dim m 1) (dim m 2), labels (size m) (repn m)).
Proof.
  intros S. unfold resizeMapDof. destruct (dim_eqs m) as (D0 & D1 & D2). rewrite <- D0, <- D1, <- D2.
  fold (num_points m). fold (size m). rewrite repeat_length.
  rewrite (number_ok (size m) (repn m)); [reflexivity| | | | |lia].
  - apply repn_below, S.
  - apply repn_idem, S.
  - intros r z. apply next_in_m, S.
  - intros r n. apply next_all_m, S.
Qed.
Lemma resize_bare m : m_shape m = None -> exists r, resizeMapDof m = Some r.
Proof.
  intros E. unfold resizeMapDof. rewrite repeat_length. rewrite (number_ok _ (fun n => n)); [eexists; reflexivity| | | | |lia].
  - lia.
  - reflexivity.
  - intros r z _ _. unfold also. rewrite E. destruct (pointCoords m (Z.of_nat r)) as [[? ?] ?]. intros [].
  - auto.
Qed.

(* ------------------------------------------------------------------ how many numbers *)
Definition tri_eqb (a b : tri) : bool := let '(i, j, k) := a in let '(i', j', k') := b in (i =? i') && (j =? j') && (k =? k').
Lemma tri_eqb_spec a b : tri_eqb a b = true <-> a = b.
Proof.
  destruct a as [[i j] k], b as [[i' j'] k']. unfold tri_eqb. rewrite !andb_true_iff, !Z.eqb_eq. split; [intros [[-> ->] ->]; reflexivity|].
  intros E. injection E as -> -> ->. auto.
Qed.
Definition b2z (b : bool) : Z := if b then 1 else 0.
Lemma count_triples m : sized m -> Z.of_nat (count (fun n => Nat.eqb (repn m n) n) (size m)) =
  sumz (fun i => sumz (fun j => sumz (fun k => b2z (tri_eqb (rep3 m (Z.of_nat i, Z.of_nat j, Z.of_nat k)) (Z.of_nat i, Z.of_nat j, Z.of_nat k)))
    (Z.to_nat (dim m 2))) (Z.to_nat (dim m 1))) (Z.to_nat (dim m 0)).
Proof.
  intros S. pose proof (dims_pos m S 0%nat ltac:(lia)) as P0. pose proof (dims_pos m S 1%nat ltac:(lia)) as P1. pose proof (dims_pos m S 2%nat ltac:(lia)) as P2.
  rewrite count_sum. replace (size m) with (Z.to_nat (dim m 0) * (Z.to_nat (dim m 1) * Z.to_nat (dim m 2)))%nat
    by (unfold size, num_points; rewrite !Z2Nat.inj_mul by nia; lia).
  rewrite sumz_mul. apply sumz_ext. intros i Hi. rewrite sumz_mul. apply sumz_ext. intros j Hj. apply sumz_ext. intros k Hk.
  set (t := (Z.of_nat i, Z.of_nat j, Z.of_nat k)).
  destruct (dim_eqs m) as (D0 & D1 & D2).
  assert (P : point_index m t) by (apply point_index_iff; lia).
  assert (E : (i * (Z.to_nat (dim m 1) * Z.to_nat (dim m 2)) + (j * Z.to_nat (dim m 2) + k))%nat = Z.to_nat (api m t)).
  { unfold api, t, accessPointIndex. rewrite <- D1, <- D2. apply Nat2Z.inj. rewrite Z2Nat.id by nia. nia. }
  rewrite E, repn_api by assumption. unfold b2z. pose proof (rep3_valid m t S P) as V.
  pose proof (api_range m t P) as [A1 _]. pose proof (api_range m _ V) as [A2 _].
  destruct (Nat.eqb_spec (Z.to_nat (api m (rep3 m t))) (Z.to_nat (api m t))) as [Q|Q], (tri_eqb (rep3 m t) t) eqn:T; try reflexivity.
  - assert (rep3 m t = t) as HH by (apply (api_inj m); try assumption; lia). apply tri_eqb_spec in HH. congruence.
  - apply tri_eqb_spec in T. rewrite T in Q. tauto.
Qed.
Lemma count_total m : sized m -> Z.of_nat (count (fun n => Nat.eqb (repn m n) n) (size m)) =
  reduceDimToDOF (m_shape m) (dim m 0) (dim m 1) (dim m 2).
Proof.
  intros S. rewrite count_triples by exact S. destruct (sized_pos m S) as (s & E & NX & MY & NY & MZ & NZ).
  destruct (dim_eqs m) as (D0 & D1 & D2). unfold reduceDimToDOF, rep3. rewrite E. rewrite no_core.
  assert (Q0 : a_n (m_x m) = dim m 0 - 1) by lia. assert (Q1 : a_n (m_y m) = dim m 1 - 1) by lia. assert (Q2 : a_n (m_z m) = dim m 2 - 1) by lia.
  rewrite Q0, Q1, Q2 in *. clear D0 D1 D2 Q0 Q1 Q2. set (X := dim m 0) in *. set (Y := dim m 1) in *. set (Z := dim m 2) in *.
  destruct (lat_info s) as [c p l h]. cbn [i_core i_per i_low i_high]. clear S E c. clearbody X Y Z.
  assert (refl : forall a b c, tri_eqb (a, b, c) (a, b, c) = true) by (intros; apply tri_eqb_spec; reflexivity).
  destruct (s_kind s); cbn [min_points] in *.
  - rewrite (sumz_ext _ (fun _ => Y * Z)); [rewrite sumz_const; nia|]. intros i Hi.
    rewrite (sumz_ext _ (fun _ => Z)); [rewrite sumz_const; nia|]. intros j Hj.
    rewrite (sumz_ext _ (fun _ => 1)); [rewrite sumz_const; lia|]. intros k Hk. rewrite refl. reflexivity.
  - rewrite (sumz_ext _ (fun _ => (if p then Y - 1 else Y) * Z)); [rewrite sumz_const; nia|]. intros i Hi.
    rewrite (sumz_ext _ (fun j => Z * 1 + (- (if p then Z else 0)) * (if Nat.eqb j (Z.to_nat (Y - 1)) then 1 else 0))).
    { rewrite sumz_lin, sumz_const, sumz_one by lia. destruct p; nia. }
    intros j Hj. rewrite (sumz_ext _ (fun k => if (p && (Nat.eqb j (Z.to_nat (Y - 1))))%bool then 0 else 1)).
    { rewrite sumz_const. destruct p; destruct (Nat.eqb j (Z.to_nat (Y - 1))); cbn [andb]; nia. }
    intros k Hk. destruct (Nat.eqb_spec j (Z.to_nat (Y - 1))) as [Q|Q], (Z.eqb_spec (Z.of_nat j) (Y - 1)) as [Q'|Q']; try lia; destruct p; cbn [andb]; rewrite ?refl; try reflexivity.
    unfold tri_eqb. rewrite !Z.eqb_refl. cbn [andb]. destruct (Z.eqb_spec 0 (Z.of_nat j)); [lia|reflexivity].
  - rewrite (sumz_ext _ (fun _ => (if p then Y - 1 else Y) * (Z - b2z l - b2z h) + b2z l + b2z h)).
    { rewrite sumz_const. destruct l, h, p; cbn [b2z]; nia. }
    intros i Hi.
    set (J0 := fun j : nat => if Nat.eqb j 0 then 1 else 0). set (J1 := fun j : nat => if Nat.eqb j (Z.to_nat (Y - 1 - 1)) then 1 else 0).
    rewrite (sumz_ext _ (fun j => 1 * ((b2z l + b2z h) * J0 j + (- (Z - b2z l - b2z h) * b2z p) * J1 j) + 1 * (Z - b2z l - b2z h))).
    { rewrite (sumz_lin 1 1 (fun j => (b2z l + b2z h) * J0 j + (- (Z - b2z l - b2z h) * b2z p) * J1 j) (fun _ => Z - b2z l - b2z h)).
      rewrite sumz_lin, sumz_const. unfold J0, J1. rewrite !sumz_one by lia. destruct p; cbn [b2z]; nia. }
    intros j Hj. set (K0 := fun k : nat => if Nat.eqb k 0 then 1 else 0). set (K1 := fun k : nat => if Nat.eqb k (Z.to_nat (Z - 1)) then 1 else 0).
    set (pj := 1 - b2z p * J1 j).
    rewrite (sumz_ext _ (fun k => 1 * (b2z l * (J0 j - pj) * K0 k + b2z h * (J0 j - pj) * K1 k) + 1 * pj)).
    { rewrite (sumz_lin 1 1 (fun k => b2z l * (J0 j - pj) * K0 k + b2z h * (J0 j - pj) * K1 k) (fun _ => pj)).
      rewrite sumz_lin, sumz_const. unfold K0, K1. rewrite !sumz_one by lia. unfold pj. nia. }
    intros k Hk. unfold pj, J0, J1, K0, K1.
    destruct (Nat.eqb_spec j (Z.to_nat (Y - 1 - 1))) as [A|A], (Z.eqb_spec (Z.of_nat j) (Y - 1 - 1)) as [A'|A']; try lia;
    destruct (Nat.eqb_spec k (Z.to_nat (Z - 1))) as [B|B], (Z.eqb_spec (Z.of_nat k) (Z - 1)) as [B'|B']; try lia;
    destruct (Nat.eqb_spec k 0) as [C|C], (Z.eqb_spec (Z.of_nat k) 0) as [C'|C']; try lia;
    destruct (Nat.eqb_spec j 0) as [D|D]; try lia;
    destruct p, l, h; cbn [andb orb b2z tri_eqb]; rewrite ?refl, ?Z.eqb_refl; cbn [andb b2z];
    try (destruct (Z.eqb_spec 0 (Z.of_nat j)); try lia); try reflexivity.
  - rewrite (sumz_ext _ (fun i => (Y * Z) * 1 + Y * (1 - Z) * (if Nat.eqb i (Z.to_nat (X - 1)) then 1 else 0))).
    { rewrite sumz_lin, sumz_const, sumz_one by lia. nia. }
    intros i Hi. rewrite (sumz_ext _ (fun j => if Nat.eqb i (Z.to_nat (X - 1)) then 1 else Z)).
    { rewrite sumz_const. destruct (Nat.eqb i (Z.to_nat (X - 1))); nia. }
    intros j Hj. destruct (Nat.eqb_spec i (Z.to_nat (X - 1))) as [Q|Q], (Z.eqb_spec (Z.of_nat i) (X - 1)) as [Q'|Q']; try lia.
    + rewrite (sumz_ext _ (fun k => if Nat.eqb k 0 then 1 else 0)); [apply sumz_one; lia|]. intros k Hk.
      unfold tri_eqb. rewrite !Z.eqb_refl. cbn [andb]. destruct (Nat.eqb_spec k 0), (Z.eqb_spec 0 (Z.of_nat k)); try reflexivity; lia.
    + rewrite (sumz_ext _ (fun _ => 1)); [rewrite sumz_const; lia|]. intros k Hk. rewrite refl. reflexivity.
Qed.
