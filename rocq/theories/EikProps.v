(** C165, C166: the distances on a surface from which CreateSeedsOnSurface (LevelSet engine) takes its
    points. *)
From Coq Require Import Reals List Arith Bool ZArith Lia Lra.
From Verif Require Import Vec SkdDistProofs SeedsProofs Eik EikSpec EikProofs.
Import ListNotations.
Open Scope R_scope.

Lemma edge_sq : forall u w, apart u w * apart u w = dot (vsub w u) (vsub w u).
Proof. intros u w. rewrite apart_norm, norm_sym. apply norm_sq. Qed.
Lemma update_le : forall g ts x f fl v u w t r0, In t ts -> proper t -> corner t v u w -> cand g x f fl v (u, w) = Some r0 ->
  exists r, updateEikonal g ts x f fl v = Some r /\ r <= r0.
Proof.
  intros g ts x f fl v u w t r0 T P C E. destruct (cells_le g x f fl v (ring ts v) (oabs (f v))) as [_ B]. specialize (B (u, w) (corner_ring _ _ _ _ _ T P C)). rewrite E in B.
  apply olt_some in B. exact B.
Qed.

(** C165: the new value of a vertex is never above the length of a way through a side, when both ends
    of the side are settled, the triangle has an area, the values differ less than the side is long and
    the side is not too short. *)
Theorem C165_best : forall ts x f fl v u w t pu pw, In t ts -> proper t -> corner t v u w -> fl u = O -> fl w = O ->
  f u = Some pu -> f w = Some pw -> 0 <= pu -> 0 <= pw -> 0 < area4 (x u) (x w) (x v) ->
  let e := apart (x u) (x w) in
  (pw - pu) * (pw - pu) < e * e -> / 1000000000000 < e * e * (e * e - (pw - pu) * (pw - pu)) ->
  exists r, updateEikonal 1 ts x f fl v = Some r /\ forall s, 0 <= s <= 1 -> r <= way (x u) (x w) (x v) pu pw s.
Proof.
  intros ts x f fl v u w t pu pw T P C Fu Fw Eu Ew Pu Pw HA. cbv zeta. rewrite edge_sq. intros HK HT. destruct (two_best _ _ _ _ _ HA HK HT) as (r0 & A & B).
  destruct (update_le 1 ts x f fl v u w t r0 T P C) as (r & U & L); [unfold cand; cbn [fst snd]; rewrite Fu, Fw; unfold from_two; rewrite Eu, Ew; cbn [oabs option_map]; rewrite !Rabs_right by lra; exact A|].
  exists r. split; [assumption|]. intros s S. specialize (B s S). lra.
Qed.
Print Assumptions C165_best.

(** The same when the values differ more than the side is long (clearly so). *)
Theorem C165_steep : forall ts x f fl v u w t pu pw, In t ts -> proper t -> corner t v u w -> fl u = O -> fl w = O ->
  f u = Some pu -> f w = Some pw -> 0 <= pu -> 0 <= pw -> 0 < area4 (x u) (x w) (x v) ->
  let e := apart (x u) (x w) in let k := pw - pu in
  e * e < k * k -> / 1000000000000 < e * e * (k * k - e * e) -> / 1000000000000 < k * k * (k * k - e * e) * area4 (x u) (x w) (x v) ->
  exists r, updateEikonal 1 ts x f fl v = Some r /\ forall s, 0 <= s <= 1 -> r <= way (x u) (x w) (x v) pu pw s.
Proof.
  intros ts x f fl v u w t pu pw T P C Fu Fw Eu Ew Pu Pw HA. cbv zeta. rewrite edge_sq. intros HK HT HD. destruct (two_steep _ _ _ _ _ HA HK HT HD) as (r0 & A & B).
  destruct (update_le 1 ts x f fl v u w t r0 T P C) as (r & U & L); [unfold cand; cbn [fst snd]; rewrite Fu, Fw; unfold from_two; rewrite Eu, Ew; cbn [oabs option_map]; rewrite !Rabs_right by lra; exact A|].
  exists r. split; [assumption|]. intros s S. specialize (B s S). lra.
Qed.
Print Assumptions C165_steep.

(** With one settled corner, the way along the side to it. *)
Theorem C165_side : forall ts x f fl v u w t pu, In t ts -> proper t -> corner t v u w \/ corner t v w u -> fl u = O -> fl w <> O ->
  f u = Some pu -> 0 <= pu -> exists r, updateEikonal 1 ts x f fl v = Some r /\ r <= pu + apart (x v) (x u).
Proof.
  intros ts x f fl v u w t pu T P C Fu Fw Eu Pu. rewrite apart_norm, <- (Rmult_1_l (norm _)). destruct C as [C|C]; apply (update_le 1 ts x f fl v _ _ t _ T P C); unfold cand; cbn [fst snd]; rewrite Fu, Eu; destruct (fl w); try contradiction; cbn; rewrite Rabs_right by lra; reflexivity.
Qed.
Print Assumptions C165_side.

(** The new value is the old one or the length of a way from settled corners. *)
Theorem C165_within : forall ts x f fl v r, (forall t a b c, In t ts -> corner t a b c -> x a <> x b) -> (forall z y, f z = Some y -> 0 <= y) ->
  updateEikonal 1 ts x f fl v = Some r ->
  f v = Some r \/
  exists t u w, In t ts /\ corner t v u w /\
    ((exists z p, (z = u \/ z = w) /\ fl z = O /\ f z = Some p /\ r = p + apart (x v) (x z)) \/
     (exists pu pw s, fl u = O /\ fl w = O /\ f u = Some pu /\ f w = Some pw /\ 0 <= s <= 1 /\ r = way (x u) (x w) (x v) pu pw s)).
Proof.
  intros ts x f fl v r HX HF E. unfold updateEikonal in E. destruct (cells_in 1 x f fl v (ring ts v) (oabs (f v))) as [X|([u w] & A & B)].
  - left. rewrite X in E. destruct (f v) as [y|] eqn:F; [|discriminate]. cbn in E. rewrite Rabs_right in E by (apply Rle_ge, (HF v y F)). exact E.
  - right. rewrite B in E. destruct (ring_corner _ _ _ _ A) as (t & T & C). exists t, u, w. split; [assumption|]. split; [assumption|]. clear B. unfold cand in E. cbn [fst snd] in E.
    assert (one : forall z r, oplus (oabs (f z)) (1 * norm (vsub (x v) (x z))) = Some r -> exists p, f z = Some p /\ r = p + apart (x v) (x z)).
    { intros z r0. destruct (f z) as [y|] eqn:F; [|discriminate]. cbn. rewrite Rabs_right, Rmult_1_l by (apply Rle_ge, (HF z y F)). intros [= <-]. exists y. split; reflexivity. }
    destruct (fl u) eqn:Fu, (fl w) eqn:Fw; try discriminate.
    + unfold from_two in E. destruct (f u) as [pu|] eqn:EU; [|discriminate]. cbn in E. rewrite (Rabs_right pu) in E by (apply Rle_ge, (HF u pu EU)).
      destruct (f w) as [pw|] eqn:EW; cbn in E.
      * rewrite (Rabs_right pw) in E by (apply Rle_ge, (HF w pw EW)). destruct (corner_turn _ _ _ _ C) as [C1 C2].
        apply two_within in E as (s & S1 & ->); [right; exists pu, pw, s; repeat split; try assumption; lra|apply (HX _ _ _ _ T C1)|apply not_eq_sym, (HX _ _ _ _ T C)].
      * left. exists u, pu. rewrite Rmult_1_l in E. injection E as <-. auto.
    + left. apply one in E as (p & P1 & P2). exists u, p. auto.
    + left. apply one in E as (p & P1 & P2). exists w, p. auto.
Qed.
Print Assumptions C165_within.

(** Not for short sides: below a thousandth of the unit only the ends of the side are tried. *)
Definition short (e : R) (z : Z) : vec := if Z.eqb z 0 then V3 (e / 2) e 0 else if Z.eqb z 1 then V3 0 0 0 else V3 e 0 0.
Theorem C165_small_refuted : forall e, 0 < e < / 1000 ->
  exists r, updateEikonal 1 [(0, 1, 2)%Z] (short e) (fun z => if Z.eqb z 0 then None else Some 0) (fun z => if Z.eqb z 0 then 1%nat else O) 0%Z = Some r /\
    way (short e 1) (short e 2) (short e 0) 0 0 (1 / 2) < r.
Proof.
  intros e He. unfold updateEikonal. cbn [ring flat_map others Z.eqb app fold_left one_cell fst snd Pos.eqb]. unfold from_two. cbn [oabs option_map]. rewrite Rabs_R0.
  rewrite two_core; [|intros X; injection X; lra|intros X; injection X; lra].
  unfold core. rewrite discr_eq. replace (0 - 0) with 0 by ring. rewrite !Rmult_0_l.
  set (a := dot _ (vsub (short e 2) (short e 1))). assert (A : a = e * e) by (unfold a, dot, vsub; cbn; ring). rewrite A. replace (e * e * (0 - e * e)) with (- (e * e * (e * e))) by ring.
  assert (E1 : e * e < / 1000000). { apply (Rlt_le_trans _ (/ 1000 * / 1000)); [apply Rmult_le_0_lt_compat; lra|]. right. rewrite <- Rinv_mult. f_equal. lra. }
  assert (E2 : 0 < e * e) by nra.
  assert (E3 : e * e * (e * e) < tolA). { apply (Rlt_le_trans _ (/ 1000000 * / 1000000)); [apply Rmult_le_0_lt_compat; lra|]. right. unfold tolA. rewrite <- Rinv_mult. f_equal. lra. }
  pose proof tol_pos as TP. rewrite Rabs_Ropp, Rabs_right by nra.
  destruct (Rlt_dec 0 (- tolA)); [lra|]. destruct (Rgt_dec (e * e * (e * e)) tolA); [lra|]. destruct (Rlt_dec (e * e * (e * e)) tolA); [|lra]. cbn [Nat.add].
  eexists. split; [reflexivity|].
  assert (M : way (short e 1) (short e 2) (short e 0) 0 0 (1 / 2) = e).
  { unfold way. rewrite apart_norm. unfold norm. match goal with |- context [sqrt ?q] => replace q with (e * e) by (unfold along, short, dot, vsub; cbn; field) end. rewrite sqrt_square by lra. lra. }
  assert (big : forall p, dot p p = e * e * (5 / 4) -> e < norm p).
  { intros p Hp. pose proof (norm_ge p). pose proof (norm_sq p) as N2. rewrite Hp in N2. apply Rnot_le_lt. intros X. nra. }
  rewrite M, way_0, way_1. unfold Rmin. destruct (Rle_dec _ _).
  - pose proof (big (vsub (short e 0) (short e 1))) as X. cut (e < norm (vsub (short e 0) (short e 1))); [lra|]. apply X. unfold dot, vsub, short. cbn. field.
  - pose proof (big (vsub (short e 0) (short e 2))) as X. cut (e < norm (vsub (short e 0) (short e 2))); [lra|]. apply X. unfold dot, vsub, short. cbn. field.
Qed.
Print Assumptions C165_small_refuted.

(** A triangle with sides of usual length. *)
Definition tri_x (z : Z) : vec := if Z.eqb z 0 then V3 1 1 0 else if Z.eqb z 1 then V3 0 0 0 else V3 2 0 0.
Lemma tri_area : area4 (tri_x 1) (tri_x 2) (tri_x 0) = 4.
Proof. unfold area4, vsub, tri_x. cbn. ring. Qed.
Lemma tri_edge : apart (tri_x 1) (tri_x 2) * apart (tri_x 1) (tri_x 2) = 4.
Proof. rewrite edge_sq. unfold dot, vsub, tri_x. cbn. ring. Qed.
Lemma tri_way : way (tri_x 1) (tri_x 2) (tri_x 0) 0 0 (1 / 2) = 1.
Proof. unfold way. rewrite apart_norm. unfold norm. match goal with |- context [sqrt ?q] => replace q with 1 by (unfold along, tri_x, dot, vsub; cbn; field) end. rewrite sqrt_1. lra. Qed.
Lemma small_lt_1 : / 1000000000000 < 1.
Proof. rewrite <- Rinv_1. apply Rinv_lt_contravar; lra. Qed.
Lemma tri_proper : forall t, In t [(0, 1, 2)%Z] -> proper t.
Proof. intros t [<- | []]. cbn. lia. Qed.
Lemma tri_differ : forall t a b c, In t [(0, 1, 2)%Z] -> corner t a b c -> tri_x a <> tri_x b.
Proof. intros t a b c [<- | []] [C|[C|C]]; injection C as <- <- <-; unfold tri_x; cbn; intros X; injection X; lra. Qed.
Lemma tri_verts : forall t v u w, In t [(0, 1, 2)%Z] -> corner t v u w -> In v [0; 1; 2]%Z.
Proof. intros t v u w [<- | []] [C|[C|C]]; injection C as <- <- <-; cbn; auto. Qed.

Lemma tri_update : exists r, updateEikonal 1 [(0, 1, 2)%Z] tri_x (given [1; 2]%Z) (flags 1 [(0, 1, 2)%Z] [1; 2]%Z) 0 = Some r /\ r <= 1.
Proof.
  destruct (C165_best [(0, 1, 2)%Z] tri_x (given [1; 2]%Z) (flags 1 [(0, 1, 2)%Z] [1; 2]%Z) 0%Z 1%Z 2%Z (0, 1, 2)%Z 0 0) as (r & A & B); try reflexivity; try lra.
  - left; reflexivity.
  - cbn. lia.
  - left; reflexivity.
  - rewrite tri_area. lra.
  - rewrite tri_edge. lra.
  - rewrite tri_edge. pose proof small_lt_1. lra.
  - exists r. split; [assumption|]. rewrite <- tri_way. apply B. lra.
Qed.
(** The hypotheses of the theorems above on this triangle, with values that differ little, much, and
    with one settled corner. *)
Example C165_nonvacuous :
  (exists r, updateEikonal 1 [(0, 1, 2)%Z] tri_x (given [1; 2]%Z) (flags 1 [(0, 1, 2)%Z] [1; 2]%Z) 0 = Some r /\ r <= 1) /\
  (let e := apart (tri_x 1) (tri_x 2) in let k := 3 - 0 in
   e * e < k * k /\ / 1000000000000 < e * e * (k * k - e * e) /\ / 1000000000000 < k * k * (k * k - e * e) * area4 (tri_x 1) (tri_x 2) (tri_x 0)) /\
  flags 1 [(0, 1, 2)%Z] [1]%Z 1 = O /\ flags 1 [(0, 1, 2)%Z] [1]%Z 2 <> O.
Proof.
  split; [apply tri_update|]. split; [cbv zeta; rewrite tri_edge, tri_area; pose proof small_lt_1; lra|]. split; [reflexivity|].
  unfold flags. cbn. destruct (Rle_dec 0 (1 * 0)); cbn; lia.
Qed.

(** C166: the marching of the distances over the surface. *)
Section Marching.
  Variables (g : R) (ts : list tri) (x : Z -> vec) (verts seeds : list Z).
  Hypothesis HP : forall t, In t ts -> proper t.
  Hypothesis HN : NoDup verts.
  Hypothesis HV : forall t v u w, In t ts -> corner t v u w -> In v verts.
  Notation run := (turns g 1 ts x (begin g 1 ts x verts seeds)).

  (** It ends: each turn settles a vertex of its own, and it can go on until no vertex is left. *)
  Theorem C166_ends : (forall n st, run n st -> (n <= length verts)%nat) /\ exists n st, run n st /\ heap st = [].
  Proof.
    assert (L : forall n st, run n st -> (n <= length verts)%nat).
    { intros n st T. pose proof (turns_count g ts x verts seeds HP HN HV n st T). pose proof (ndead_le ts verts HN HV st). lia. }
    split; [exact L|].
    assert (H : forall m n st, (length verts - n < m)%nat -> run n st -> exists n' st', run n' st' /\ heap st' = []).
    { induction m as [|m IH]; intros n st Hm T; [lia|]. destruct (heap st) as [|q h] eqn:E; [exists n, st; auto|].
      destruct (smallest (heap st)) as (l & k & v & r & E' & M); [rewrite E; discriminate|].
      assert (T' : run (S n) (settle g 1 ts x st k v (l ++ r))) by (eapply TS; [exact T|constructor; assumption]).
      pose proof (L _ _ T'). apply (IH (S n) _ ltac:(lia) T'). }
    apply (H (S (length verts)) 0%nat _ ltac:(lia) (T0 g 1 ts x _)).
  Qed.
  (** A vertex is settled at the end exactly when sides join it to a seed. *)
  Theorem C166_reached : forall n st, run n st -> heap st = [] -> forall v, act st v = O <-> exists s, In s seeds /\ joined ts s v.
  Proof.
    intros n st T E v. destruct (turns_inv g ts x verts seeds HP HN HV n st T) as ((A & B & C) & F & D & I & O1 & O2). split.
    - intros H. apply O1. lia.
    - intros (s & S1 & J). induction J as [z|u z w y t J IH T1 C1]; [apply D, S1|]. specialize (IH S1). pose proof (F z w IH (corner_neighs ts z w t y T1 (HP t T1) C1)) as N2. pose proof (C w).
      assert (act st w <> 1%nat). { intros X. apply B in X. rewrite E in X. destruct X. } lia.
  Qed.
  (** No other vertex has a value, at any moment. *)
  Theorem C166_others : forall n st, run n st -> forall v, (forall s, In s seeds -> ~ joined ts s v) -> fld st v = None.
  Proof.
    intros n st T v H. destruct (turns_inv g ts x verts seeds HP HN HV n st T) as (M & F & D & I & O1 & O2). destruct (fld st v) as [y|] eqn:E; [|reflexivity].
    destruct (O1 v ltac:(rewrite (O2 v y E); lia)) as (s & S1 & J). destruct (H s S1 J).
  Qed.
  (** The value of a settled vertex is final; the seeds are at zero. *)
  Theorem C166_final : forall n st, run n st -> (forall s, In s seeds -> fld st s = Some 0) /\
    forall m st', turns g 1 ts x st m st' -> forall v, act st v = O -> act st' v = O /\ fld st' v = fld st v.
  Proof.
    assert (K : forall st, inv ts verts seeds st -> forall m st', turns g 1 ts x st m st' -> inv ts verts seeds st' /\ forall v, act st v = O -> act st' v = O /\ fld st' v = fld st v).
    { intros st I m st' T. induction T as [|m st1 st2 T [I1 IH] H]; [auto|]. destruct (turn_inv g ts x verts seeds HV st1 st2 I1 H) as [I2 Q]. split; [assumption|].
      intros v V. destruct (IH v V) as [V1 E1]. destruct (Q v V1) as [V2 E2]. split; [assumption|]. congruence. }
    intros n st T. pose proof (start_inv g ts x verts seeds HP HN HV) as I0. destruct (K _ I0 _ _ T) as [I1 Q]. split.
    - intros s S1. destruct I0 as (_ & _ & D & _). destruct (Q s (D s S1)) as [_ E]. rewrite E. cbn. unfold given. replace (isDeadFront seeds s) with true; [reflexivity|]. symmetry. apply existsb_in, S1.
    - intros m st' T'. apply (K st I1 m st' T').
  Qed.
End Marching.
Print Assumptions C166_ends.
Print Assumptions C166_reached.
Print Assumptions C166_others.
Print Assumptions C166_final.

(** With one seed no value is below the straight distance to it. *)
Theorem C166_one : forall g ts x verts s, (forall t a b c, In t ts -> corner t a b c -> x a <> x b) ->
  forall n st, turns g 1 ts x (begin g 1 ts x verts [s]) n st -> forall v y, fld st v = Some y -> apart (x v) (x s) <= y.
Proof. intros g ts x verts s HX n st T v y E. rewrite apart_norm. apply (proj1 (turns_low g ts x (x s) HX verts s n st eq_refl T) v y E). Qed.
Print Assumptions C166_one.

(** With one seed the vertex settled first is a nearest one of those that share a side with it, at its
    straight distance. *)
Theorem C166_first : forall g ts x verts s, (forall t, In t ts -> proper t) -> (forall t a b c, In t ts -> corner t a b c -> x a <> x b) ->
  (forall t v u w, In t ts -> corner t v u w -> In v verts) ->
  forall st, turns g 1 ts x (begin g 1 ts x verts [s]) 1 st -> exists v t z, In t ts /\ (corner t s v z \/ corner t s z v) /\
    fld st v = Some (apart (x v) (x s)) /\ forall t' w y, In t' ts -> corner t' s w y \/ corner t' s y w -> apart (x v) (x s) <= apart (x w) (x s).
Proof.
  intros g ts x verts s HP HX HV st T. inversion T as [|m st1 st2 T1 T2]; subst. inversion T1; subst. clear T T1.
  assert (L : low x (x s) (given [s])). { intros w y. unfold given. cbn. destruct (Z.eqb_spec w s) as [->|]; cbn; [|discriminate]. intros [= <-]. rewrite norm_self. lra. }
  assert (FS : forall z, flags 1 ts [s] z = O <-> z = s). { intros z. pose proof (flags_0 ts x [s] z) as Q. cbn in Q. split; intros H; [apply Q in H; destruct H as [H|[]]; congruence|apply Q; auto]. }
  assert (U : forall v t z, In t ts -> corner t s v z \/ corner t s z v -> updateEikonal 1 ts x (given [s]) (flags 1 ts [s]) v = Some (apart (x v) (x s))).
  { intros v t z Ht C. assert (C' : corner t v s z \/ corner t v z s) by (destruct C as [C|C]; destruct (corner_turn _ _ _ _ C); auto).
    destruct (C165_side ts x (given [s]) (flags 1 ts [s]) v s z t 0 Ht (HP t Ht) C') as (r & A & B).
    - apply FS. reflexivity.
    - intros X. apply FS in X. subst. specialize (HP t Ht). destruct C as [[-> | [-> | ->]]|[-> | [-> | ->]]]; cbn in HP; lia.
    - unfold given. cbn. rewrite Z.eqb_refl. reflexivity.
    - lra.
    - rewrite A. f_equal. pose proof (update_low ts x (x s) HX _ _ _ _ L A) as D. rewrite <- apart_norm in D. lra. }
  assert (HB : forall k v, In (k, v) (heap (begin g 1 ts x verts [s])) -> exists t z, In t ts /\ (corner t s v z \/ corner t s z v) /\ k = Some (apart (x v) (x s))).
  { intros k v H. cbn [heap begin] in H. apply in_map_iff in H as (w & E & H). injection E as E <-. apply filter_In in H as [_ H]. apply Nat.eqb_eq in H. destruct (flags_1 ts x [s] w H) as (s' & S1 & S2). destruct S1 as [<- | []].
    apply (neighs_sym ts _ _ HP) in S2. apply neighs_corner in S2 as (_ & t & z & Ht & C). exists t, z. split; [assumption|]. split; [assumption|]. rewrite <- E. apply (U w t z Ht C). }
  assert (HB2 : forall t v z, In t ts -> corner t s v z \/ corner t s z v -> In (Some (apart (x v) (x s)), v) (heap (begin g 1 ts x verts [s]))).
  { intros t v z Ht C. cbn [heap begin]. apply in_map_iff. exists v. split; [rewrite (U v t z Ht C); reflexivity|]. apply filter_In. split.
    - destruct C as [C|C]; destruct (corner_turn _ _ _ _ C); eapply HV; eassumption.
    - apply Nat.eqb_eq. pose proof (flags_le ts [s] v) as F2. assert (F0 : flags 1 ts [s] v <> O). { intros X. apply FS in X. subst. specialize (HP t Ht). destruct C as [[-> | [-> | ->]]|[-> | [-> | ->]]]; cbn in HP; lia. }
      assert (F3 : flags 1 ts [s] v <> 2%nat). { intros X. apply (flags_2 ts x [s] v s X); [|left; reflexivity]. apply neighs_sym; [assumption|]. apply (corner_neighs ts s v t z Ht (HP t Ht) C). } lia. }
  destruct T2 as [l k v r E M]. destruct (HB k v) as (t & z & Ht & C & ->); [rewrite E; apply in_or_app; right; left; reflexivity|].
  exists v, t, z. split; [assumption|]. split; [assumption|]. split; [unfold settle; rewrite fold_fld; cbn; apply set_eq|].
  intros t' w y Ht' C'. pose proof (HB2 t' w y Ht' C') as H. rewrite E in H. apply in_app_or in H. assert (H' : In (Some (apart (x w) (x s)), w) (l ++ r) \/ w = v).
  { destruct H as [H|[H|H]]; [left; apply in_or_app; auto|right; congruence|left; apply in_or_app; auto]. }
  destruct H' as [H' | ->]; [|lra]. apply M in H'. cbn in H'. destruct (Rlt_dec (apart (x w) (x s)) (apart (x v) (x s))); [discriminate|lra].
Qed.
Print Assumptions C166_first.

(** With two it can be: the value between two neighbouring seeds is taken to be zero on the whole side. *)
Theorem C166_several_refuted : exists n st r, turns 1 1 [(0, 1, 2)%Z] tri_x (begin 1 1 [(0, 1, 2)%Z] tri_x [0; 1; 2]%Z [1; 2]%Z) n st /\ heap st = [] /\
  fld st 0%Z = Some r /\ r < apart (tri_x 0) (tri_x 1) /\ r < apart (tri_x 0) (tri_x 2).
Proof.
  destruct tri_update as (r & E & R1).
  assert (H : heap (begin 1 1 [(0, 1, 2)%Z] tri_x [0; 1; 2]%Z [1; 2]%Z) = [] ++ (Some r, 0%Z) :: []).
  { rewrite <- E. unfold begin. cbn [heap]. replace (filter _ [0; 1; 2]%Z) with [0%Z]; [reflexivity|]. unfold flags. cbn. destruct (Rle_dec 0 (1 * 0)); [reflexivity|lra]. }
  exists 1%nat, (settle 1 1 [(0, 1, 2)%Z] tri_x (begin 1 1 [(0, 1, 2)%Z] tri_x [0; 1; 2]%Z [1; 2]%Z) (Some r) 0 ([] ++ [])), r.
  split; [eapply TS; [constructor|]; constructor; [exact H|intros k' v' []]|].
  assert (far : forall p, dot p p = 2 -> 1 < norm p). { intros p Hp. pose proof (norm_ge p). pose proof (norm_sq p) as N2. rewrite Hp in N2. apply Rnot_le_lt. intros X. nra. }
  split; [|split; [|split]].
  - unfold settle. cbn. reflexivity.
  - unfold settle. rewrite fold_fld. reflexivity.
  - rewrite apart_norm. eapply Rle_lt_trans; [exact R1|]. apply far. unfold dot, vsub, tri_x. cbn. ring.
  - rewrite apart_norm. eapply Rle_lt_trans; [exact R1|]. apply far. unfold dot, vsub, tri_x. cbn. ring.
Qed.
Print Assumptions C166_several_refuted.

(** The triangle meets the hypotheses, with one seed and with an end of the run where a vertex other
    than the seed is settled. *)
Example C166_nonvacuous : exists n st, turns 1 1 [(0, 1, 2)%Z] tri_x (begin 1 1 [(0, 1, 2)%Z] tri_x [0; 1; 2]%Z [1]%Z) n st /\ heap st = [] /\ act st 0%Z = O /\ act st 2%Z = O.
Proof.
  assert (ND : NoDup [0; 1; 2]%Z) by (repeat constructor; cbn; intuition discriminate).
  destruct (C166_ends 1 [(0, 1, 2)%Z] tri_x [0; 1; 2]%Z [1]%Z tri_proper ND tri_verts) as (_ & n & st & T & E). exists n, st. split; [assumption|]. split; [assumption|].
  pose proof (C166_reached 1 [(0, 1, 2)%Z] tri_x [0; 1; 2]%Z [1]%Z tri_proper ND tri_verts n st T E) as R.
  split; apply R; exists 1%Z; (split; [left; reflexivity|]).
  - eapply (J_side _ 1 1 0 2 (0, 1, 2))%Z; [constructor|left; reflexivity|]. right. right. left. reflexivity.
  - eapply (J_side _ 1 1 2 0 (0, 1, 2))%Z; [constructor|left; reflexivity|]. left. right. left. reflexivity.
Qed.
