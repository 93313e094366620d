(** Proofs about partitions. *)
From Coq Require Import Reals List Arith ZArith Bool Lia Lra.
From Verif Require Import Partition PartitionSpec.
Import ListNotations.

(** ** Maps *)
Lemma find_put : forall x r m y, find y (put x r m) = if Z.eqb x y then Some r else find y m.
Proof.
  intros x r m y. induction m as [|[z q] m IH]; cbn; [reflexivity|]. destruct (Z.eqb_spec z x) as [-> |N]; cbn; destruct (Z.eqb_spec x y) as [E|NE]; try reflexivity.
  - rewrite IH. destruct (Z.eqb_spec z y); [congruence|reflexivity].
  - rewrite IH. destruct (Z.eqb_spec z y); reflexivity.
Qed.
Lemma find_pairs : forall l acc x, NoDup (map fst l) -> find x (fold_left (fun a e => put (fst e) (snd e) a) l acc) = match find x l with Some r => Some r | None => find x acc end.
Proof.
  induction l as [|[y r] l IH]; intros acc x N; [reflexivity|]. cbn [map fst] in N. inversion N as [|? ? N1 N2]; subst. cbn [fold_left fst snd find]. rewrite IH by exact N2. rewrite find_put. destruct (Z.eqb_spec y x) as [-> |NE]; [|reflexivity].
  assert (E : find x l = None); [|rewrite E; reflexivity]. revert N1. clear. induction l as [|[z q] l IH]; intro N1; [reflexivity|]. cbn. destruct (Z.eqb_spec z x) as [-> |]; [exfalso; apply N1; left; reflexivity|]. apply IH. intro I. apply N1. right. exact I.
Qed.
Lemma find_zero : forall ids acc x, find x (fold_left (fun a y => put y 0%Z a) ids acc) = if existsb (Z.eqb x) ids then Some 0%Z else find x acc.
Proof.
  induction ids as [|y ids IH]; intros acc x; [reflexivity|]. cbn [fold_left existsb]. rewrite IH, find_put. rewrite (Z.eqb_sym y x). destruct (existsb (Z.eqb x) ids); [rewrite Bool.orb_true_r; reflexivity|]. rewrite Bool.orb_false_r. reflexivity.
Qed.
Lemma exists_in : forall x ids, existsb (Z.eqb x) ids = true <-> In x ids.
Proof. intros x ids. rewrite existsb_exists. split; [intros (y & I & E); apply Z.eqb_eq in E; subst; exact I|intro I; exists x; split; [exact I|apply Z.eqb_refl]]. Qed.
Lemma find_combine : forall ids rs x, length rs = length ids -> (In x ids -> exists r, find x (combine ids rs) = Some r /\ In r rs) /\ (~ In x ids -> find x (combine ids rs) = None).
Proof.
  induction ids as [|y ids IH]; intros [|r rs] x L; try discriminate; [split; [intros []|reflexivity]|]. cbn in L. destruct (IH rs x) as (A & B); [lia|]. cbn. split.
  - intro I. destruct (Z.eqb_spec y x) as [-> |N]; [exists r; auto|]. destruct I as [-> |I]; [contradiction|]. destruct (A I) as (q & E & J). exists q. auto.
  - intro I. destruct (Z.eqb_spec y x) as [-> |N]; [exfalso; apply I; auto|]. apply B. auto.
Qed.
Lemma combine_keys : forall {A B} (l : list A) (r : list B), length r = length l -> map fst (combine l r) = l.
Proof. induction l as [|x l IH]; intros [|y r] L; try discriminate; [reflexivity|]. cbn in *. f_equal. apply IH. lia. Qed.
Lemma geom_shares : forall metis nprocs g m, metis_right metis -> (0 < nprocs)%Z -> NoDup (map c_id (m_cells g)) -> m_distributed g = false ->
  shares (map c_id (m_cells g)) nprocs (parmetisPartGeom 0 nprocs metis g m).
Proof.
  intros metis nprocs g m MR P N D. unfold parmetisPartGeom. rewrite D. cbn [negb Z.eqb]. destruct (MR (length (m_cells g)) (graph (m_cells g)) nprocs P) as (L & R). set (rs := metis _ _ _) in *. set (ids := map c_id (m_cells g)) in *.
  assert (L' : length rs = length ids) by (unfold ids; rewrite map_length; exact L). intro x. rewrite find_pairs by (rewrite combine_keys by exact L'; exact N). destruct (find_combine ids rs x L') as (A & B). split.
  - intro I. destruct (A I) as (r & E & J). exists r. unfold goes. rewrite find_pairs by (rewrite combine_keys by exact L'; exact N). rewrite E. auto.
  - intro I. rewrite (B I). reflexivity.
Qed.

(** ** The graph *)
Lemma fold_graph : forall ids l xs adj,
  fold_left (fun acc c => (fst acc ++ [length (snd acc)], snd acc ++ row ids c)) l (xs, adj) =
  (xs ++ map (fun i => length adj + length (concat (map (row ids) (firstn i l)))) (seq 0 (length l)), adj ++ concat (map (row ids) l)).
Proof.
  intros ids. induction l as [|c l IH]; intros xs adj; [cbn; rewrite !app_nil_r; reflexivity|]. cbn [fold_left fst snd length seq map concat]. rewrite IH. rewrite <- !app_assoc. f_equal. f_equal. cbn [firstn map concat length app]. f_equal; [lia|]. rewrite <- seq_shift, map_map. apply map_ext. intro i. cbn [firstn map concat]. rewrite !app_length. lia.
Qed.
Lemma starts : forall cells i, (i <= length cells)%nat -> nth_error (fst (graph cells)) i = Some (length (concat (map (row (map c_id cells)) (firstn i cells)))).
Proof.
  intros cells i L. unfold graph. rewrite fold_graph. cbn [fst snd app length]. destruct (Nat.eq_dec i (length cells)) as [-> |N].
  - rewrite nth_error_app2 by (rewrite map_length, seq_length; lia). rewrite map_length, seq_length, Nat.sub_diag, firstn_all. reflexivity.
  - rewrite nth_error_app1 by (rewrite map_length, seq_length; lia). rewrite nth_error_map. rewrite (nth_error_nth' _ 0%nat) by (rewrite seq_length; lia). rewrite seq_nth by lia. reflexivity.
Qed.
Lemma starts_end : forall cells i, (length cells < i)%nat -> nth_error (fst (graph cells)) i = None.
Proof. intros cells i L. apply nth_error_None. unfold graph. rewrite fold_graph. cbn [fst snd app]. rewrite app_length, map_length, seq_length. cbn. lia. Qed.
Lemma firstn_snoc : forall {A} (l : list A) i x, nth_error l i = Some x -> firstn (S i) l = firstn i l ++ [x].
Proof. induction l as [|y l IH]; intros [|i] x E; try discriminate; [cbn in *; congruence|]. change (firstn (S (S i)) (y :: l)) with (y :: firstn (S i) l). cbn in E. rewrite (IH i x E). reflexivity. Qed.
Lemma next_row : forall cells i j, next_to (graph cells) i j <-> exists c, nth_error cells i = Some c /\ In j (row (map c_id cells) c).
Proof.
  intros cells i j. set (ids := map c_id cells).
  assert (slots : forall i c, nth_error cells i = Some c -> forall k j, (k < length (row ids c))%nat -> nth_error (snd (graph cells)) (length (concat (map (row ids) (firstn i cells))) + k) = Some j <-> nth_error (row ids c) k = Some j).
  { clear i j. intros i c E k j L. unfold graph. rewrite fold_graph. cbn [fst snd app]. fold ids. pose proof (firstn_skipn (S i) cells) as S. rewrite <- S at 1. rewrite (firstn_snoc _ _ _ E). rewrite !map_app, !concat_app. cbn [map concat]. rewrite app_nil_r, <- !app_assoc. rewrite nth_error_app2 by lia. replace (_ + k - _)%nat with k by lia. rewrite nth_error_app1 by exact L. reflexivity. }
  split.
  - intros (s & e & k & A & B & L & E). destruct (le_lt_dec (length cells) i) as [G|G]; [rewrite starts_end in B by lia; discriminate|]. destruct (nth_error cells i) as [c|] eqn:C; [|apply nth_error_None in C; lia]. exists c. split; [reflexivity|].
    rewrite starts in A, B by lia. fold ids in A, B. assert (SA := f_equal (fun o => match o with Some z => z | None => s end) A). assert (SB := f_equal (fun o => match o with Some z => z | None => e end) B). cbv beta iota in SA, SB. rewrite <- SA, <- SB in L. clear A B SA SB. rewrite (firstn_snoc _ _ _ C), map_app, concat_app in L. cbn [map concat] in L. rewrite app_nil_r, app_length in L. set (s0 := length (concat (map (row ids) (firstn i cells)))) in L.
    replace k with (s0 + (k - s0))%nat in E by lia. apply slots with (c := c) in E; [|exact C|lia]. apply nth_error_In in E. exact E.
  - intros (c & C & I). assert (G : (i < length cells)%nat) by (apply nth_error_Some; rewrite C; discriminate). apply In_nth_error in I. destruct I as (k & K). assert (LK : (k < length (row ids c))%nat) by (apply nth_error_Some; rewrite K; discriminate).
    eexists _, _, _. split; [apply starts; lia|]. split; [apply starts; lia|]. fold ids. split; [|apply (slots i c C k j LK); exact K]. rewrite (firstn_snoc _ _ _ C), map_app, concat_app, app_length. cbn [map concat]. rewrite app_nil_r. lia.
Qed.
Lemma index_at : forall ids j x, NoDup ids -> nth_error ids j = Some x -> index ids x = j.
Proof.
  induction ids as [|y ids IH]; intros [|j] x N E; try discriminate; cbn in *.
  - injection E as ->. rewrite Z.eqb_refl. reflexivity.
  - inversion N as [|? ? N1 N2]; subst. assert (I : In x ids) by (apply nth_error_In in E; exact E). destruct (Z.eqb_spec y x) as [-> |NE]; [contradiction|]. rewrite (proj2 (exists_in x ids) I). f_equal. apply IH; assumption.
Qed.
Lemma graph_exact : forall cells i j c d, well_made cells -> nth_error cells i = Some c -> nth_error cells j = Some d -> (next_to (graph cells) i j <-> In (c_id d) (c_neighs c) /\ (0 < c_id d)%Z).
Proof.
  intros cells i j c d (N & _ & K) C D. rewrite next_row. assert (DI : nth_error (map c_id cells) j = Some (c_id d)) by (rewrite nth_error_map, D; reflexivity). split.
  - intros (c' & C' & I). assert (c' = c) as -> by congruence. unfold row in I. apply in_map_iff in I. destruct I as (x & X & I). apply filter_In in I. destruct I as (I & P). apply Z.ltb_lt in P. destruct (K c x (nth_error_In _ _ C) I) as (d' & I' & E & _).
    apply In_nth_error in I'. destruct I' as (q & Q). assert (QI : nth_error (map c_id cells) q = Some x) by (rewrite nth_error_map, Q; cbn; congruence). rewrite (index_at _ _ _ N QI) in X. subst q. assert (HX : c_id d = x) by congruence. rewrite HX. auto.
  - intros (I & P). exists c. split; [exact C|]. unfold row. apply in_map_iff. exists (c_id d). split; [apply index_at; assumption|]. apply filter_In. split; [exact I|apply Z.ltb_lt; exact P].
Qed.

(** ** The boundary *)
Lemma nth_set : forall {A} (l : list A) p x q, (p < length l)%nat -> nth_error (set_nth p x l) q = if Nat.eqb p q then Some x else nth_error l q.
Proof.
  intros A l p x q L. unfold set_nth. assert (FL : length (firstn p l) = p) by (rewrite firstn_length; lia). destruct (Nat.eqb_spec p q) as [<- |N].
  - rewrite nth_error_app2 by lia. rewrite FL, Nat.sub_diag. reflexivity.
  - destruct (lt_dec q p).
    + rewrite nth_error_app1 by lia. revert p q L FL N l0. induction l as [|y l IH]; intros p q L FL N l0; [cbn in L; lia|]. destruct p as [|p]; [lia|]. destruct q as [|q]; [reflexivity|]. cbn in *. apply IH; lia.
    + rewrite nth_error_app2 by lia. rewrite FL. destruct (q - p)%nat as [|k] eqn:K; [lia|]. cbn [nth_error]. rewrite <- (firstn_skipn (S p) l) at 2. rewrite nth_error_app2 by (rewrite firstn_length; lia). f_equal. rewrite firstn_length. lia.
Qed.
Lemma set_length : forall {A} (l : list A) p x, (p < length l)%nat -> length (set_nth p x l) = length l.
Proof. intros A l p x L. unfold set_nth. rewrite app_length, firstn_length. cbn [length]. rewrite skipn_length. lia. Qed.
Section Boundary.
Variables (top : R) (m : rmap) (b : border).
Hypothesis P : places b.
Hypothesis T : forall c x d p, In (c, Some (x, d, p)) (b_faces b) -> (d < top)%R.
Hypothesis V : forall c f, In (c, f) (b_faces b) -> exists r, goes m c r.
Definition so_far (F : list (Z * option (Z * R * nat))) (bm : rmap) (ds : list R) : Prop :=
  length ds = length (b_ids b) /\
  (forall c x d p, In (c, Some (x, d, p)) (b_faces b) ->
    match find x bm with
    | None => nth_error ds p = Some top /\ (forall c' d' p', ~ In (c', Some (x, d', p')) F)
    | Some r => exists c0 d0, In (c0, Some (x, d0, p)) F /\ nth_error ds p = Some d0 /\ goes m c0 r /\ forall c' d' p', In (c', Some (x, d', p')) F -> (d0 <= d')%R
    end) /\
  (forall x r, find x bm = Some r -> exists c d p, In (c, Some (x, d, p)) F).
Lemma face_step : forall F f bm ds, (forall e, In e (F ++ [f]) -> In e (b_faces b)) -> so_far F bm ds -> exists bm' ds', try_face m (Some (bm, ds)) f = Some (bm', ds') /\ so_far (F ++ [f]) bm' ds'.
Proof.
  intros F [c0 [[[x0 d0] p0]|]] bm ds I (L & A & B); unfold try_face; cbn [fst snd].
  2:{ exists bm, ds. split; [reflexivity|]. split; [exact L|]. split.
      - intros c x d p J. specialize (A c x d p J). destruct (find x bm) as [r|].
        + destruct A as (c1 & d1 & I1 & E1 & G1 & M1). exists c1, d1. split; [apply in_or_app; auto|]. split; [exact E1|]. split; [exact G1|]. intros c' d' p' K. apply in_app_or in K. destruct K as [K|[K|[]]]; [eapply M1; exact K|discriminate].
        + destruct A as (E & M1). split; [exact E|]. intros c' d' p' K. apply in_app_or in K. destruct K as [K|[K|[]]]; [eapply M1; exact K|discriminate].
      - intros x r E. destruct (B x r E) as (c & d & p & K). exists c, d, p. apply in_or_app. auto. }
  assert (J0 : In (c0, Some (x0, d0, p0)) (b_faces b)) by (apply I, in_or_app; right; left; reflexivity).
  destruct P as (P1 & P2). destruct (P1 _ _ _ _ J0) as (_ & LP). rewrite <- L in LP. destruct (nth_error ds p0) as [dd|] eqn:ED; [|apply nth_error_None in ED; lia].
  pose proof (A _ _ _ _ J0) as A0. destruct (Rlt_dec d0 dd) as [LT|GE].
  - destruct (V _ _ J0) as (r0 & G0). unfold goes in G0. rewrite G0. exists (put x0 r0 bm), (set_nth p0 d0 ds). split; [reflexivity|]. split; [rewrite set_length; assumption|]. split.
    + intros c x d p J. rewrite find_put. destruct (Z.eqb_spec x0 x) as [<- |NE].
      * assert (p = p0) as -> by (symmetry; apply (P2 _ _ _ _ _ _ _ _ J0 J); reflexivity). exists c0, d0. split; [apply in_or_app; right; left; reflexivity|]. split; [rewrite nth_set by exact LP; rewrite Nat.eqb_refl; reflexivity|]. split; [exact G0|].
        intros c' d' p' K. apply in_app_or in K. destruct K as [K|[K|[]]].
        -- destruct (find x0 bm) as [r1|]; [|destruct A0 as (_ & A0); exfalso; eapply A0; exact K]. destruct A0 as (c1 & d1 & I1 & E1 & G1 & M1). assert (d1 = dd) by congruence. specialize (M1 c' d' p' K). lra.
        -- injection K as _ <- _. lra.
      * assert (NP : p0 <> p) by (intro E; apply NE; apply (P2 _ _ _ _ _ _ _ _ J0 J); exact E). specialize (A c x d p J). rewrite nth_set by exact LP. destruct (Nat.eqb_spec p0 p); [contradiction|]. destruct (find x bm) as [r|].
        -- destruct A as (c1 & d1 & I1 & E1 & G1 & M1). exists c1, d1. split; [apply in_or_app; auto|]. split; [exact E1|]. split; [exact G1|]. intros c' d' p' K. apply in_app_or in K. destruct K as [K|[K|[]]]; [eapply M1; exact K|congruence].
        -- destruct A as (E & M1). split; [exact E|]. intros c' d' p' K. apply in_app_or in K. destruct K as [K|[K|[]]]; [eapply M1; exact K|congruence].
    + intros x r. rewrite find_put. destruct (Z.eqb_spec x0 x) as [<- |NE]; intro E; [exists c0, d0, p0; apply in_or_app; right; left; reflexivity|]. destruct (B x r E) as (c & d & p & K). exists c, d, p. apply in_or_app. auto.
  - exists bm, ds. split; [reflexivity|]. split; [exact L|].
    assert (NF : exists r, find x0 bm = Some r). { destruct (find x0 bm) as [r|]; [exists r; reflexivity|]. destruct A0 as (E & _). assert (dd = top) by congruence. specialize (T _ _ _ _ J0). lra. }
    destruct NF as (r0 & F0). rewrite F0 in A0. split.
    + intros c x d p J. specialize (A c x d p J). destruct (Z.eq_dec x x0) as [-> |NE].
      * rewrite F0 in *. destruct A as (c1 & d1 & I1 & E1 & G1 & M1). assert (p = p0) as -> by (symmetry; apply (P2 _ _ _ _ _ _ _ _ J0 J); reflexivity). exists c1, d1. split; [apply in_or_app; auto|]. split; [exact E1|]. split; [exact G1|]. intros c' d' p' K. apply in_app_or in K. destruct K as [K|[K|[]]]; [eapply M1; exact K|]. injection K as _ <- _. assert (d1 = dd) by congruence. lra.
      * destruct (find x bm) as [r|].
        -- destruct A as (c1 & d1 & I1 & E1 & G1 & M1). exists c1, d1. split; [apply in_or_app; auto|]. split; [exact E1|]. split; [exact G1|]. intros c' d' p' K. apply in_app_or in K. destruct K as [K|[K|[]]]; [eapply M1; exact K|congruence].
        -- destruct A as (E & M1). split; [exact E|]. intros c' d' p' K. apply in_app_or in K. destruct K as [K|[K|[]]]; [eapply M1; exact K|congruence].
    + intros x r E. destruct (B x r E) as (c & d & p & K). exists c, d, p. apply in_or_app. auto.
Qed.
Lemma faces_all : forall G F bm ds, F ++ G = b_faces b -> so_far F bm ds -> exists bm' ds', fold_left (try_face m) G (Some (bm, ds)) = Some (bm', ds') /\ so_far (b_faces b) bm' ds'.
Proof.
  induction G as [|f G IH]; intros F bm ds E S; [rewrite app_nil_r in E; subst F; exists bm, ds; auto|]. destruct (face_step F f bm ds) as (bm' & ds' & R & S'); [|exact S|].
  - intros e I. rewrite <- E. change (f :: G) with ([f] ++ G). rewrite app_assoc. apply in_or_app. auto.
  - cbn [fold_left]. rewrite R. apply (IH (F ++ [f])); [rewrite <- app_assoc; exact E|exact S'].
Qed.
Lemma boundary_follows : forall mode bm, mode <> SERIALIZE -> b_distributed b = false -> exists bm', computeBoundaryPartition 0 top mode m b bm = Some bm' /\ follows top m b bm'.
Proof.
  intros mode bm NM ND. unfold computeBoundaryPartition. destruct (Z.eqb_spec mode SERIALIZE); [contradiction|]. rewrite ND. cbn [negb Z.eqb]. destruct (faces_all (b_faces b) [] [] (repeat top (length (b_ids b)))) as (bm' & ds & E & (L & A & B)); [reflexivity| |].
  - split; [apply repeat_length|]. split; [|intros x r E; discriminate]. intros c x d p J. cbn. split; [|auto]. destruct (proj1 P _ _ _ _ J) as (_ & LP). apply nth_error_repeat. exact LP.
  - exists bm'. split; [exact (f_equal (option_map fst) E)|]. intro x. split.
    + intros r G. unfold goes in G. destruct (B x r G) as (c & d & p & J). specialize (A c x d p J). rewrite G in A. destruct A as (c0 & d0 & I0 & _ & G0 & M0). exists c0, d0, p. auto.
    + intros N c d p J. specialize (A c x d p J). rewrite N in A. destruct A as (_ & A). eapply A. exact J.
Qed.
End Boundary.
