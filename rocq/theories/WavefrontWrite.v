(** Lemmas on the files written by Wavefront.v. *)
From Coq Require Import Reals List Arith ZArith Bool Lia Permutation.
From Verif Require Import Vec CurveProofs Wavefront WavefrontSpec WavefrontProofs.
Import ListNotations.
Open Scope R_scope.

(** ** Lists by key *)
Lemma filter_andb : forall A (f g : A -> bool) l, filter (fun x => f x && g x) l = filter g (filter f l).
Proof. induction l as [|x l IH]; [reflexivity|]. cbn. destruct (f x); cbn; [destruct (g x); rewrite IH; reflexivity|exact IH]. Qed.
Lemma by_key : forall A (f : A -> nat) n l, (forall x, In x l -> (f x < n)%nat) -> Permutation l (flat_map (fun k => filter (fun x => Nat.eqb (f x) k) l) (seq 0 n)).
Proof.
  intros A f n l. revert n.
  assert (G : forall n l, Permutation (filter (fun x => Nat.ltb (f x) n) l) (flat_map (fun k => filter (fun x => Nat.eqb (f x) k) l) (seq 0 n))).
  { induction n as [|n IH]; intro l0.
    - rewrite filter_none; [constructor|]. intros x _. apply Nat.ltb_ge. lia.
    - rewrite seq_S, flat_map_app. cbn [flat_map]. rewrite app_nil_r. rewrite <- IH. clear. rewrite Nat.add_0_l. induction l0 as [|x l0 IH]; [constructor|]. cbn [filter].
      destruct (Nat.ltb_spec (f x) (S n)), (Nat.ltb_spec (f x) n), (Nat.eqb_spec (f x) n); try lia.
      + apply perm_skip. exact IH.
      + eapply Permutation_cons_app. exact IH.
      + exact IH. }
  intros n H. rewrite <- G. rewrite filter_all; [reflexivity|]. intros x I. apply Nat.ltb_lt. exact (H x I).
Qed.
Lemma flat_map_perm : forall A B (f g : A -> list B) l, (forall x, In x l -> Permutation (f x) (g x)) -> Permutation (flat_map f l) (flat_map g l).
Proof. induction l as [|x l IH]; intro H; [constructor|]. cbn. apply Permutation_app; [apply H; left; reflexivity|]. apply IH. intros y Y. apply H. right. exact Y. Qed.

(** ** Names and their keys *)
Lemma find_name_spec : forall l n, In n l -> (0 < find_name n l <= length l)%nat /\ nth (pred (find_name n l)) l [] = n.
Proof.
  induction l as [|m l IH]; intros n H; [destruct H|]. cbn. destruct (name_eqb n m) eqn:E.
  - apply name_eqb_iff in E. subst. cbn. split; [lia|reflexivity].
  - destruct H as [-> |H]; [exfalso; apply eq_true_false_abs with (2 := E); apply name_eqb_iff; reflexivity|]. destruct (IH n H) as (B & N). split; [lia|]. cbn. destruct (find_name n l) as [|k]; [lia|]. exact N.
Qed.
Lemma uniques_in : forall l seen n, In n seen \/ (In n l /\ n <> []) -> In n (uniques seen l).
Proof.
  induction l as [|m l IH]; intros seen n H; cbn; [destruct H as [H|(H & _)]; [exact H|destruct H]|].
  destruct (name_eqb m [] || existsb (name_eqb m) seen) eqn:E; apply IH.
  - destruct H as [H|([-> |H] & NE)]; auto. apply orb_true_iff in E. destruct E as [E|E]; [apply name_eqb_iff in E; contradiction|]. apply existsb_exists in E. destruct E as (x & X & Q). apply name_eqb_iff in Q. subst. auto.
  - rewrite in_app_iff. destruct H as [H|([-> |H] & NE)]; auto. left. right. left. reflexivity.
Qed.
Lemma key_spec : forall l n, In n l -> (key l n < S (length (uniques [] l)))%nat /\ named l (key l n) = n /\ (key l n = 0%nat <-> n = []).
Proof.
  intros l n H. unfold key. destruct n as [|w n]; [cbn; split; [lia|tauto]|].
  destruct (find_name_spec (uniques [] l) (w :: n)) as (B & N); [apply uniques_in; right; split; [exact H|discriminate]|]. split; [lia|]. split; [|split; [lia|discriminate]].
  unfold named. destruct (find_name (w :: n) (uniques [] l)); [lia|]. exact N.
Qed.

(** ** Places *)
Lemma place_app : forall i a b, In i a -> place i (a ++ b) = place i a.
Proof. induction a as [|j a IH]; intros b H; [destruct H|]. cbn. destruct (Nat.eqb_spec i j); [reflexivity|]. rewrite IH; [reflexivity|]. destruct H; [congruence|assumption]. Qed.
Lemma place_nth : forall A (f : nat -> A) d i l, In i l -> (0 < place i l)%nat /\ nth (pred (place i l)) (map f l) d = f i.
Proof.
  induction l as [|j l IH]; intros H; [destruct H|]. cbn. destruct (Nat.eqb_spec i j) as [-> |N]; [split; [lia|reflexivity]|].
  destruct IH as (P & Q); [destruct H; [congruence|assumption]|]. split; [lia|]. cbn. destruct (place i l); [lia|]. exact Q.
Qed.
Lemma vertex_index : forall (f : nat -> vec) i l, In i l -> vertex (map f l) (index l i) = f i.
Proof.
  intros f i l H. destruct (place_nth vec f vzero i l H) as (P & N). unfold vertex, index. replace (Z.to_nat (Z.of_nat (place i l) - 1)) with (pred (place i l)) by lia. exact N.
Qed.
Lemma mem_iff : forall i l, mem i l = true <-> In i l.
Proof. intros i l. unfold mem. rewrite existsb_exists. split; [intros (x & H & E); apply Nat.eqb_eq in E; subst; exact H|intro H; exists i; split; [exact H|apply Nat.eqb_refl]]. Qed.
Lemma fresh_in : forall ins l i, In i (ins ++ fresh ins l) <-> In i ins \/ In i l.
Proof.
  intros ins l i. rewrite in_app_iff. unfold fresh. rewrite filter_In, negb_true_iff. pose proof (mem_iff i ins) as M. destruct (mem i ins); [|intuition].
  split; [intros [H|(_ & H)]; [auto|discriminate]|intros _; left; apply M; reflexivity].
Qed.
Lemma nodup_both : forall A (a b : list A), NoDup a -> NoDup b -> (forall x, In x a -> ~ In x b) -> NoDup (a ++ b).
Proof.
  induction a as [|x a IH]; intros b HA HB D; [exact HB|]. inversion HA; subst. cbn. constructor.
  - rewrite in_app_iff. intros [Q|Q]; [contradiction|]. exact (D x (or_introl eq_refl) Q).
  - apply IH; auto. intros y Y. apply D. right. exact Y.
Qed.
Lemma fresh_nodup : forall ins l, NoDup ins -> NoDup l -> NoDup (ins ++ fresh ins l).
Proof.
  intros ins l H1 H2. apply nodup_both; [exact H1|apply NoDup_filter; exact H2|]. intros x X Y. apply filter_In in Y. destruct Y as (_ & Y). rewrite (proj2 (mem_iff x ins) X) in Y. discriminate.
Qed.

(** ** Cells written and read *)
Lemma counted_index : forall n l i, counted n (index l i) = index l i.
Proof. intros n l i. unfold counted, index. destruct (Z_lt_dec (Z.of_nat (place i l)) 0); [lia|reflexivity]. Qed.
Lemma map_nth_seq : forall A B (f : A -> B) d l, map (fun i => f (nth i l d)) (seq 0 (length l)) = map f l.
Proof.
  intros A B f d l. rewrite <- (map_map (fun i => nth i l d) f). f_equal. clear f. induction l as [|x l IH] using rev_ind; [reflexivity|].
  rewrite app_length. cbn [length]. rewrite Nat.add_1_r, seq_S, map_app. cbn [map plus]. rewrite app_nth2, Nat.sub_diag by lia. cbn [nth]. f_equal.
  rewrite <- IH at 2. apply map_ext_in. intros i I. apply in_seq in I. apply app_nth1. lia.
Qed.
Lemma flat_single : forall A B (f : A -> B) l, flat_map (fun x => [f x]) l = map f l.
Proof. induction l as [|x l IH]; [reflexivity|]. cbn. rewrite IH. reflexivity. Qed.
Lemma flat_map_map : forall A B C (f : B -> list C) (g : A -> B) l, flat_map f (map g l) = flat_map (fun x => f (g x)) l.
Proof. induction l as [|x l IH]; [reflexivity|]. cbn. rewrite IH. reflexivity. Qed.

Definition geom (pid : nat) (iv it im : list nat) (c : wcell) (r : rcell) : Prop :=
  r_pid r = pid /\ r_conn r = map (index iv) (w_conn c) /\ r_txt r = map (index it) (w_txt c) /\ r_nrm r = map (index im) (w_nrm c).
Lemma facet_cell : forall pid nv nt nn iv it im c m g s, sound c ->
  exists r, cell_of pid nv nt nn (facet_entries true true iv it im c) m g s = [r] /\ geom pid iv it im c r /\ r_mat r = m /\ r_grp r = g /\ r_smooth r = s.
Proof.
  intros pid nv nt nn iv it im c m g s (L & LT & LN). unfold cell_of, facet_entries. rewrite map_length, seq_length. destruct (le_dec 3 (length (w_conn c))); [|contradiction].
  eexists. split; [reflexivity|]. unfold geom. cbn [r_pid r_conn r_txt r_nrm r_mat r_grp r_smooth]. rewrite map_map, !flat_map_map. cbn [fst snd]. rewrite !flat_single.
  repeat split; [rewrite <- (map_nth_seq _ _ (index iv) 0%nat (w_conn c))|rewrite <- (map_nth_seq _ _ (index it) 0%nat (w_txt c)), LT|rewrite <- (map_nth_seq _ _ (index im) 0%nat (w_nrm c)), LN]; apply map_ext; intro i; apply counted_index.
Qed.
Lemma facet_shape : forall ht hn iv it im c e, In e (facet_entries ht hn iv it im c) -> shape e = (ht, hn).
Proof. intros ht hn iv it im c e I. unfold facet_entries in I. apply in_map_iff in I. destruct I as (i & <- & _). destruct ht, hn; reflexivity. Qed.
Lemma facet_some : forall ht hn iv it im c, sound c -> facet_entries ht hn iv it im c <> [].
Proof. intros ht hn iv it im c (L & _) E. apply (f_equal (@length entry)) in E. unfold facet_entries in E. rewrite map_length, seq_length in E. cbn in E. lia. Qed.

Lemma run_app : forall ign pid n a b st, run ign pid n (a ++ b) st = match run ign pid n a st with Some st' => run ign pid n b st' | None => None end.
Proof. induction a as [|l a IH]; intros b st; [reflexivity|]. cbn. destruct (switch ign pid n l st); [apply IH|reflexivity]. Qed.
Definition same_vertices (st st' : state) : Prop := s_v st' = s_v st /\ s_t st' = s_t st /\ s_n st' = s_n st.
Definition fd_ok (st : state) : Prop := s_fd st = None \/ s_fd st = Some 2%nat.

Lemma forall2_in : forall A B (P : A -> B -> Prop) l m, Forall2 P l m -> Forall2 (fun x y => In x l /\ P x y) l m.
Proof. intros A B P l m F. induction F as [|x y l m H F IH]; constructor; [split; [left; reflexivity|exact H]|]. refine (forall2_impl _ _ _ _ _ IH). intros a b (I & Q). split; [right; exact I|exact Q]. Qed.
Lemma forall2_nil : forall A B (P : A -> B -> Prop) l, Forall2 P l [] -> l = [].
Proof. intros A B P l F. inversion F. reflexivity. Qed.
Section Sim.
  Variables (ign : bool) (pid : nat) (default : name) (mats grps : list name) (iv it im : list nat) (all : list wcell).
  (** what is right, and under what *)
  Variables okm okg : Prop.
  Hypothesis Hs : forall c, In c all -> sound c.
  Hypothesis Hm : forall c, In c all -> In (w_mat c) mats /\ In (w_grp c) grps.
  Hypothesis Hokm : okm -> (forall c, In c all -> one_word (w_mat c)) /\ ((forall c, In c all -> w_mat c <> []) \/ (forall c, In c all -> w_mat c = [])).
  Hypothesis Hokg : okg -> ign = false /\ one_word default /\ forall c, In c all -> one_word (w_grp c) /\ (w_grp c = default -> w_grp c = []).
  Let leaf_ := leaf mats grps.

  Lemma leaf_sim : forall cells ws st, incl cells all -> fd_ok st ->
    exists st' rs, run ign pid default (fst (write_leaf true true iv it im ws cells)) st = Some st' /\ same_vertices st st' /\ fd_ok st' /\ s_mat st' = s_mat st /\ s_grp st' = s_grp st /\
      s_cells st' = s_cells st ++ rs /\ Forall2 (fun c r => geom pid iv it im c r /\ r_mat r = s_mat st /\ r_grp r = s_grp st /\ (ws = s_smooth st -> r_smooth r = w_smooth c)) cells rs /\
      (ws = s_smooth st -> snd (write_leaf true true iv it im ws cells) = s_smooth st').
  Proof.
    induction cells as [|c cells IH]; intros ws st IN FD.
    - exists st, []. cbn. rewrite app_nil_r. unfold same_vertices. repeat split; auto.
    - cbn [write_leaf]. destruct (write_leaf true true iv it im (w_smooth c) cells) as [ls s] eqn:W. cbn [fst snd].
      assert (SC : sound c) by (apply Hs, IN; left; reflexivity).
      set (head := if Z.eqb ws (w_smooth c) then [] else _).
      assert (H1 : exists st1, run ign pid default head st = Some st1 /\ same_vertices st st1 /\ fd_ok st1 /\ s_mat st1 = s_mat st /\ s_grp st1 = s_grp st /\ s_cells st1 = s_cells st /\ (ws = s_smooth st -> s_smooth st1 = w_smooth c)).
      { unfold head. destruct (Z.eqb_spec ws (w_smooth c)) as [E|E].
        - exists st. unfold same_vertices. repeat split; auto. congruence.
        - eexists. cbn [run switch]. split; [reflexivity|]. unfold same_vertices, fd_ok. cbn. repeat split; auto. intros _. destruct (Z.eqb_spec (w_smooth c) 0) as [Q|Q]; [rewrite Q|]; reflexivity. }
      destruct H1 as (st1 & R1 & (V1 & T1 & N1) & F1 & M1 & G1 & C1 & Z1).
      destruct (facet_cell pid (length (s_v st1)) (length (s_t st1)) (length (s_n st1)) iv it im c (s_mat st1) (s_grp st1) (s_smooth st1) SC) as (r & CE & GE & RM & RG & RZ).
      pose proof (add_facet_run pid (facet_entries true true iv it im c) true (true, true) st1 (facet_some _ _ _ _ _ _ SC) (facet_shape _ _ _ _ _ _) ltac:(reflexivity) F1) as AF. rewrite CE in AF.
      set (st2 := State _ _ _ _ _ _ _ _) in AF. destruct (IH (w_smooth c) st2) as (st' & rs & R2 & (V2 & T2 & N2) & F2 & M2 & G2 & C2 & FA & Z2); [intros x X; apply IN; right; exact X|right; reflexivity|].
      rewrite W in R2, Z2. cbn [fst snd] in R2, Z2. exists st', (r :: rs). split.
      { rewrite run_app, R1. cbn [run switch]. rewrite AF. exact R2. }
      cbn [st2 s_v s_t s_n s_mat s_grp s_smooth s_cells] in *. unfold same_vertices. split; [repeat split; congruence|]. split; [exact F2|]. split; [congruence|]. split; [congruence|].
      split; [rewrite C2, C1, <- app_assoc; reflexivity|]. split.
      + constructor; [split; [exact GE|]; split; [congruence|]; split; [congruence|]; intro Q; rewrite RZ; exact (Z1 Q)|].
        refine (forall2_impl _ _ _ _ _ FA). cbn. intros x y (A1 & A2 & A3 & A4). split; [exact A1|]. split; [congruence|]. split; [congruence|]. intro Q. apply A4. symmetry. exact (Z1 Q).
      + intro Q. apply Z2. symmetry. exact (Z1 Q).
  Qed.
  Definition minv (mat : nat) (st : state) : Prop := s_mat st = named mats mat /\ ((forall c, In c all -> w_mat c = []) -> mat = 0%nat).
  Lemma leaf_in : forall g m c, In c (leaf_ all g m) -> In c all /\ key grps (w_grp c) = g /\ key mats (w_mat c) = m.
  Proof. intros g m c I. unfold leaf_, leaf in I. apply filter_In in I. destruct I as (I & E). apply andb_true_iff in E. destruct E as (E1 & E2). apply Nat.eqb_eq in E1, E2. auto. Qed.
  Lemma mats_sim : forall g ms mat ws st, fd_ok st -> forall ls m' s', write_mats true true mats grps iv it im all g ms mat ws = (ls, m', s') ->
    exists st' rs, run ign pid default ls st = Some st' /\ same_vertices st st' /\ fd_ok st' /\ s_grp st' = s_grp st /\ s_cells st' = s_cells st ++ rs /\
      Forall2 (fun c r => geom pid iv it im c r /\ r_grp r = s_grp st /\ (okm -> minv mat st -> r_mat r = w_mat c) /\ (ws = s_smooth st -> r_smooth r = w_smooth c)) (flat_map (leaf_ all g) ms) rs /\
      (okm -> minv mat st -> minv m' st') /\ (ws = s_smooth st -> s' = s_smooth st').
  Proof.
    intros g. induction ms as [|m ms IH]; intros mat ws st FD ls m' s' W.
    - cbn in W. injection W as <- <- <-. exists st, []. cbn. rewrite app_nil_r. unfold same_vertices. repeat split; auto; apply H0.
    - cbn [write_mats flat_map] in *. fold leaf_ in W. destruct (leaf_ all g m) as [|c0 l0] eqn:LF; [exact (IH mat ws st FD ls m' s' W)|].
      set (l := c0 :: l0) in *. assert (LI : forall c, In c l -> In c all /\ key grps (w_grp c) = g /\ key mats (w_mat c) = m) by (intros c I; apply leaf_in; rewrite LF; exact I).
      destruct (write_leaf true true iv it im ws l) as [ls1 s1] eqn:W1. destruct (write_mats true true mats grps iv it im all g ms m s1) as [[ls2 m2] s2] eqn:W2. injection W as <- <- <-.
      set (head := if Nat.eqb mat m then [] else _).
      assert (NM : forall c, In c l -> named mats m = w_mat c). { intros c I. destruct (LI c I) as (A & _ & <-). apply key_spec. apply Hm. exact A. }
      assert (H1 : exists st1, run ign pid default head st = Some st1 /\ same_vertices st st1 /\ fd_ok st1 /\ s_grp st1 = s_grp st /\ s_cells st1 = s_cells st /\ s_smooth st1 = s_smooth st /\ (okm -> minv mat st -> minv m st1)).
      { assert (C0 : In c0 all /\ key mats (w_mat c0) = m) by (destruct (LI c0 (or_introl eq_refl)); tauto). destruct C0 as (C0 & K0).
        pose proof (key_spec mats (w_mat c0) (proj1 (Hm c0 C0))) as (_ & N0 & Z0). unfold head. destruct (Nat.eqb_spec mat m) as [E|E].
        - exists st. unfold same_vertices. rewrite E. repeat split; auto; apply H0.
        - eexists. cbn [run switch]. split; [reflexivity|]. unfold same_vertices, fd_ok, minv. cbn. split; [auto|]. split; [exact FD|]. split; [reflexivity|]. split; [reflexivity|]. split; [reflexivity|].
          intros OM (S0 & A0). destruct (Hokm OM) as (OW & [NE|AE]).
          + rewrite (NM c0 (or_introl eq_refl)). pose proof (OW c0 C0) as O1. pose proof (NE c0 C0) as N1. unfold one_word in O1. destruct (w_mat c0) as [|w [|]]; cbn in *; [contradiction|split; [reflexivity|]|lia].
            intro AE. exfalso. apply (NE c0 C0). exact (AE c0 C0).
          + exfalso. apply E. rewrite (A0 AE), <- K0. symmetry. apply Z0. exact (AE c0 C0). }
      destruct H1 as (st1 & R1 & (V1 & T1 & N1) & F1 & G1 & C1 & Z1 & M1).
      destruct (leaf_sim l ws st1) as (st2 & rs1 & R2 & (V2 & T2 & N2) & F2 & M2 & G2 & C2 & FA2 & Z2); [intros c I; apply LI; exact I|exact F1|]. rewrite W1 in R2, Z2. cbn [fst snd] in R2, Z2.
      destruct (IH m s1 st2 F2 _ _ _ W2) as (st3 & rs2 & R3 & (V3 & T3 & N3) & F3 & G3 & C3 & FA3 & M3 & Z3).
      assert (MI : okm -> minv mat st -> minv m st2). { intros OM MV. destruct (M1 OM MV) as (A & B). split; [congruence|exact B]. }
      exists st3, (rs1 ++ rs2). split; [rewrite run_app, R1, run_app, R2; exact R3|]. split; [unfold same_vertices; repeat split; congruence|]. split; [exact F3|]. split; [congruence|].
      split; [rewrite C3, C2, C1, app_assoc; reflexivity|]. split; [|split].
      + apply Forall2_app.
        * pose proof (forall2_in _ _ _ _ _ FA2) as FA2'.
          refine (forall2_impl _ _ _ _ _ FA2'). cbn. intros c r (IC & A1 & A2 & A3 & A4). split; [exact A1|]. split; [congruence|]. split; [|rewrite <- Z1; exact A4].
          intros OM MV. rewrite A2. rewrite (proj1 (M1 OM MV)). apply NM. exact IC.
        * refine (forall2_impl _ _ _ _ _ FA3). cbn. intros c r (A1 & A2 & A3 & A4). split; [exact A1|]. split; [congruence|]. split; [intros OM MV; apply A3; auto|]. intro Q. apply A4, Z2. congruence.
      + intros OM MV. apply M3; auto.
      + intro Q. apply Z3, Z2. congruence.
  Qed.
  Lemma groups_sim : forall n a mat ws st, fd_ok st -> forall ls m' s', write_groups true true mats grps default iv it im all (seq a n) mat ws = (ls, m', s') ->
    exists st' rs, run ign pid default ls st = Some st' /\ same_vertices st st' /\ fd_ok st' /\ s_cells st' = s_cells st ++ rs /\
      Forall2 (fun c r => geom pid iv it im c r /\ (okg -> (a = 0%nat -> s_grp st = []) -> r_grp r = w_grp c) /\ (okm -> minv mat st -> r_mat r = w_mat c) /\ (ws = s_smooth st -> r_smooth r = w_smooth c))
        (flat_map (fun g => flat_map (leaf_ all g) (keys mats)) (seq a n)) rs.
  Proof.
    induction n as [|n IH]; intros a mat ws st FD ls m' s' W.
    - cbn in W. injection W as <- <- <-. exists st, []. cbn. rewrite app_nil_r. unfold same_vertices. repeat split; auto.
    - cbn [seq write_groups flat_map] in *. destruct (filter (fun c => Nat.eqb (key grps (w_grp c)) a) all) as [|c0 l0] eqn:LF.
      + assert (E0 : flat_map (leaf_ all a) (keys mats) = []).
        { assert (Q : forall m, leaf_ all a m = []). { intro m. unfold leaf_, leaf. rewrite filter_andb, LF. reflexivity. } clear - Q. induction (keys mats) as [|m ms IH]; [reflexivity|]. cbn. rewrite Q, IH. reflexivity. }
        rewrite E0. destruct (IH (S a) mat ws st FD ls m' s' W) as (st' & rs & R & V & F & C & FA). exists st', rs. repeat (split; [assumption|]). refine (forall2_impl _ _ _ _ _ FA). cbn. intros c r (A1 & A2 & A3 & A4).
        split; [exact A1|]. split; [|tauto]. intros OG _. apply A2; [exact OG|discriminate].
      + destruct (write_mats true true mats grps iv it im all a (keys mats) mat ws) as [[ls1 m1] s1] eqn:W1. destruct (write_groups true true mats grps default iv it im all (seq (S a) n) m1 s1) as [[ls2 m2] s2] eqn:W2. injection W as <- <- <-.
        set (gl := Lg _). assert (H1 : exists st1, switch ign pid default gl st = Some st1 /\ same_vertices st st1 /\ fd_ok st1 /\ s_cells st1 = s_cells st /\ s_mat st1 = s_mat st /\ s_smooth st1 = s_smooth st /\
          (okg -> (a = 0%nat -> s_grp st = []) -> forall c, In c all -> key grps (w_grp c) = a -> s_grp st1 = w_grp c)).
        { unfold gl. cbn [switch]. destruct ign eqn:IG.
          - exists st. unfold same_vertices. repeat split; auto. intro OG. destruct (Hokg OG) as (Q & _). discriminate.
          - eexists. split; [reflexivity|]. unfold same_vertices, fd_ok. cbn. repeat split; auto. intros OG ZA c IC KC. destruct (Hokg OG) as (_ & OD & ON). destruct (ON c IC) as (OC & DC).
            pose proof (key_spec grps (w_grp c) (proj2 (Hm c IC))) as (_ & NC & ZC). rewrite KC in NC, ZC. destruct a as [|a].
            + rewrite (proj1 ZC eq_refl). rewrite (ZA eq_refl). unfold one_word in OD. destruct default as [|w [|]]; cbn in *; [reflexivity| |lia]. destruct (name_eqb [w] [w]) eqn:E; [reflexivity|]. exfalso. apply eq_true_false_abs with (2 := E). apply name_eqb_iff. reflexivity.
            + rewrite NC. unfold one_word in OC. destruct (w_grp c) as [|w [|]] eqn:WG; cbn in OC; [exfalso; discriminate (proj2 ZC eq_refl)| |lia]. cbn [take_word]. destruct (name_eqb [w] default) eqn:E; [|reflexivity].
              apply name_eqb_iff in E. discriminate (DC E). }
        destruct H1 as (st1 & R1 & (V1 & T1 & N1) & F1 & C1 & M1 & Z1 & G1).
        destruct (mats_sim a (keys mats) mat ws st1 F1 _ _ _ W1) as (st2 & rs1 & R2 & (V2 & T2 & N2) & F2 & G2 & C2 & FA2 & M2 & Z2).
        destruct (IH (S a) m1 s1 st2 F2 _ _ _ W2) as (st3 & rs2 & R3 & (V3 & T3 & N3) & F3 & C3 & FA3).
        assert (MM : minv mat st -> minv mat st1) by (intros (A & B); split; [congruence|exact B]).
        exists st3, (rs1 ++ rs2). split; [cbn [run]; rewrite R1, run_app, R2; exact R3|]. split; [unfold same_vertices; repeat split; congruence|]. split; [exact F3|]. split; [rewrite C3, C2, C1, app_assoc; reflexivity|]. apply Forall2_app.
        * pose proof (forall2_in _ _ _ _ _ FA2) as FA2'.
          refine (forall2_impl _ _ _ _ _ FA2'). intros c r (IC & A1 & A2 & A3 & A4). apply in_flat_map in IC. destruct IC as (m & _ & IC). apply leaf_in in IC. destruct IC as (IC & KG & _).
          split; [exact A1|]. split; [intros OG ZA; rewrite A2; exact (G1 OG ZA c IC KG)|]. split; [intros OM MV; apply A3; auto|]. intro Q. apply A4. congruence.
        * refine (forall2_impl _ _ _ _ _ FA3). cbn. intros c r (A1 & A2 & A3 & A4). split; [exact A1|]. split; [intros OG _; apply A2; [exact OG|discriminate]|]. split; [intros OM MV; apply A3; auto|]. intro Q. apply A4, Z2. congruence.
  Qed.
  (** all the cells, by group and by material *)
  Definition regrouped : list wcell := flat_map (fun g => flat_map (leaf_ all g) (keys mats)) (keys grps).
  Lemma regrouped_perm : Permutation all regrouped.
  Proof.
    unfold regrouped, keys. rewrite (by_key _ (fun c => key grps (w_grp c)) (S (length (uniques [] grps))) all) at 1 by (intros c I; apply key_spec, Hm, I).
    apply flat_map_perm. intros g _. rewrite (by_key _ (fun c => key mats (w_mat c)) (S (length (uniques [] mats))) (filter _ all)) at 1 by (intros c I; apply filter_In in I; apply key_spec, Hm, I).
    apply flat_map_perm. intros m _. unfold leaf_, leaf. rewrite filter_andb. reflexivity.
  Qed.
End Sim.

Lemma body_statement : forall ht hn mats grps default iv it im all gs mat ws, (forall c, In c all -> sound c) ->
  forall l, In l (fst (fst (write_groups ht hn mats grps default iv it im all gs mat ws))) -> statement l.
Proof.
  intros ht hn mats grps default iv it im all. 
  assert (L1 : forall cells ws l, In l (fst (write_leaf ht hn iv it im ws cells)) -> statement l).
  { induction cells as [|c cells IH]; intros ws l I; [destruct I|]. cbn [write_leaf] in I. specialize (IH (w_smooth c)). destruct (write_leaf ht hn iv it im (w_smooth c) cells) as [ls s]. cbn [fst] in *. apply in_app_iff in I.
    destruct I as [I|[<- |I]]; [destruct (Z.eqb ws (w_smooth c)); [destruct I|destruct I as [<- |[]]; exact Logic.I]|exact Logic.I|exact (IH l I)]. }
  assert (L2 : forall g ms mat ws l, In l (fst (fst (write_mats ht hn mats grps iv it im all g ms mat ws))) -> statement l).
  { intros g. induction ms as [|m ms IH]; intros mat ws l I; [destruct I|]. cbn [write_mats] in I. destruct (leaf mats grps all g m) as [|c0 l0] eqn:LF; [exact (IH _ _ _ I)|].
    specialize (L1 (c0 :: l0) ws). destruct (write_leaf ht hn iv it im ws (c0 :: l0)) as [ls1 s1]. specialize (IH m s1). destruct (write_mats ht hn mats grps iv it im all g ms m s1) as [[ls2 m2] s2]. cbn [fst] in *.
    rewrite !in_app_iff in I. destruct I as [I|[I|I]]; auto. destruct (Nat.eqb mat m); [destruct I|destruct I as [<- |[]]; exact Logic.I]. }
  induction gs as [|g gs IH]; intros mat ws HS l I; [destruct I|]. cbn [write_groups] in I. destruct (filter _ all) as [|c0 l0]; [exact (IH _ _ HS _ I)|].
  specialize (L2 g (keys mats) mat ws). destruct (write_mats ht hn mats grps iv it im all g (keys mats) mat ws) as [[ls1 m1] s1]. specialize (IH m1 s1 HS). destruct (write_groups ht hn mats grps default iv it im all gs m1 s1) as [[ls2 m2] s2]. cbn [fst] in *.
  destruct I as [<- |I]; [exact Logic.I|]. apply in_app_iff in I. destruct I; auto.
Qed.
Lemma body_head : forall ht hn mats grps default iv it im all gs mat ws, fst (fst (write_groups ht hn mats grps default iv it im all gs mat ws)) = [] \/
  exists g r, fst (fst (write_groups ht hn mats grps default iv it im all gs mat ws)) = Lg g :: r.
Proof.
  intros ht hn mats grps default iv it im all. induction gs as [|g gs IH]; intros mat ws; [left; reflexivity|]. cbn [write_groups]. destruct (filter _ all) as [|c0 l0]; [apply IH|].
  destruct (write_mats ht hn mats grps iv it im all g (keys mats) mat ws) as [[ls1 m1] s1]. destruct (write_groups ht hn mats grps default iv it im all gs m1 s1) as [[ls2 m2] s2]. right. eexists _, _. reflexivity.
Qed.

Section Whole.
  Variables (pos tex nrm : nat -> vec) (shown : R -> R) (order_v order_t order_n : list nat -> list nat) (mats grps : list name).
  Hypothesis Hov : set_order order_v.
  Hypothesis Hot : set_order order_t.
  Hypothesis Hon : set_order order_n.
  Let P (f : nat -> vec) (i : nat) : vec := printed shown (f i).
  Let wparts := write_parts pos tex nrm true true false shown order_v order_t order_n mats grps.
  Definition okmats (all : list wcell) : Prop := (forall c, In c all -> one_word (w_mat c)) /\ ((forall c, In c all -> w_mat c <> []) \/ (forall c, In c all -> w_mat c = [])).
  Definition okgrps (default : name) (all : list wcell) : Prop := one_word default /\ forall c, In c all -> one_word (w_grp c) /\ (w_grp c = default -> w_grp c = []).
  (** a cell read from the vertices of the whole file *)
  Definition whole (iv it im : list nat) (c : wcell) (r : rcell) : Prop :=
    incl (w_conn c) iv /\ incl (w_txt c) it /\ incl (w_nrm c) im /\ r_conn r = map (index iv) (w_conn c) /\ r_txt r = map (index it) (w_txt c) /\ r_nrm r = map (index im) (w_nrm c).
  Lemma index_app : forall l x m, incl l x -> map (index (x ++ m)) l = map (index x) l.
  Proof. intros l x m H. apply map_ext_in. intros i I. unfold index. rewrite place_app; [reflexivity|]. apply H. exact I. Qed.
  Lemma whole_app : forall iv it im a b d c r, whole iv it im c r -> whole (iv ++ a) (it ++ b) (im ++ d) c r.
  Proof. intros iv it im a b d c r (A & B & C & D & E & F). unfold whole. rewrite !index_app by assumption. repeat split; auto; apply incl_appl; assumption. Qed.
  Lemma ends_parts : forall parts iv it im mat ws, ends (wparts parts iv it im mat ws).
  Proof. intros [|[n cells] parts] iv it im mat ws; [left; reflexivity|]. right. unfold wparts. cbn [write_parts]. destruct (write_groups _ _ _ _ _ _ _ _ _ _ _ _) as [[body m] s]. eexists _, _. reflexivity. Qed.
  Lemma line_ts : forall ft, map (fun i => line_t false shown (tex i)) ft = map (fun c => Lvt c false) (map (fun i => [shown (vx (tex i)); shown (vy (tex i)); shown (vz (tex i))]) ft).
  Proof. intro ft. rewrite map_map. reflexivity. Qed.

  Lemma parts_sim : forall (ign : bool) parts pid iv it im mat ws st,
    (forall n cells c, In (n, cells) parts -> In c cells -> sound c /\ In (w_mat c) mats /\ In (w_grp c) grps) ->
    s_v st = map (P pos) iv -> s_t st = map (P tex) it -> s_n st = map (P nrm) im -> (forall r, In r (s_cells st) -> (r_pid r < pid)%nat) -> NoDup iv -> NoDup it -> NoDup im ->
    exists st' av at_ an, read_objects ign pid (objects (wparts parts iv it im mat ws)) st = Some st' /\
      s_v st' = map (P pos) (iv ++ av) /\ s_t st' = map (P tex) (it ++ at_) /\ s_n st' = map (P nrm) (im ++ an) /\ NoDup (iv ++ av) /\ NoDup (it ++ at_) /\ NoDup (im ++ an) /\
      (forall j, (j < pid)%nat -> cells_read st' j = cells_read st j) /\ (forall r, In r (s_cells st') -> (r_pid r < pid + length parts)%nat) /\
      (forall x, In x (iv ++ av) <-> In x iv \/ exists n cells c, In (n, cells) parts /\ In c cells /\ In x (w_conn c)) /\
      (forall k n cells, nth_error parts k = Some (n, cells) -> exists l, Permutation cells l /\
        Forall2 (fun c r => whole (iv ++ av) (it ++ at_) (im ++ an) c r /\ (ign = false -> okgrps n cells -> r_grp r = w_grp c) /\
          (k = 0%nat -> mat = 0%nat -> okmats cells -> r_mat r = w_mat c) /\ (k = 0%nat -> ws = 0%Z -> r_smooth r = w_smooth c)) l (cells_read st' (pid + k))).
  Proof.
    intros ign. induction parts as [|[n cells] parts IH]; intros pid iv it im mat ws st HP SV ST SN LT DV DT DN.
    - exists st, [], [], []. rewrite !app_nil_r. cbn. split; [reflexivity|]. repeat (split; [assumption|]). split; [reflexivity|]. split; [intros r I; specialize (LT r I); lia|]. split.
      + intro x. split; [auto|]. intros [H|(n & cells & c & [] & _)]. exact H.
      + intros [|k] n cells H; discriminate.
    - unfold wparts. cbn [write_parts]. fold wparts. set (fv := fresh iv (order_v (flat_map w_conn cells))). set (ft := fresh it (order_t (flat_map w_txt cells))). set (fn := fresh im (order_n (flat_map w_nrm cells))).
      assert (HC : forall c, In c cells -> sound c /\ In (w_mat c) mats /\ In (w_grp c) grps) by (intros c I; exact (HP n cells c (or_introl eq_refl) I)).
      assert (HS : forall c, In c cells -> sound c) by (intros c I; apply HC, I).
      pose proof (body_statement true true mats grps n (iv ++ fv) (it ++ ft) (im ++ fn) cells (keys grps) mat ws HS) as BS.
      pose proof (body_head true true mats grps n (iv ++ fv) (it ++ ft) (im ++ fn) cells (keys grps) mat ws) as BH.
      destruct (write_groups true true mats grps n (iv ++ fv) (it ++ ft) (im ++ fn) cells (keys grps) mat ws) as [[body m1] s1] eqn:W. cbn [fst] in BS, BH.
      set (p := Part n (map (P pos) fv) (map (fun i => [shown (vx (tex i)); shown (vy (tex i)); shown (vz (tex i))]) ft) (map (P nrm) fn) body).
      set (B := wparts parts (iv ++ fv) (it ++ ft) (im ++ fn) m1 s1).
      assert (EQ : Lo n :: map (fun i => Lv (show_vec shown (pos i))) fv ++ map (fun i => line_t false shown (tex i)) ft ++ map (fun i => Lvn (show_vec shown (nrm i))) fn ++ body ++ B = Lo n :: inner p ++ B).
      { f_equal. unfold inner. cbn [p p_v p_t p_n p_body]. rewrite line_ts, !map_map, <- !app_assoc. reflexivity. }
      assert (IV : forall c, In c cells -> incl (w_conn c) (iv ++ fv)) by (intros c I x X; apply fresh_in; right; apply Hov; apply in_flat_map; exists c; auto).
      assert (IT : forall c, In c cells -> incl (w_txt c) (it ++ ft)) by (intros c I x X; apply fresh_in; right; apply Hot; apply in_flat_map; exists c; auto).
      assert (IM : forall c, In c cells -> incl (w_nrm c) (im ++ fn)) by (intros c I x X; apply fresh_in; right; apply Hon; apply in_flat_map; exists c; auto).
      assert (PB : (p_v p = [] /\ p_t p = [] /\ p_n p = []) \/ exists l r, p_body p = l :: r /\ l <> Lempty).
      { destruct BH as [BH|(g & r & BH)]; [|right; exists (Lg g), r; split; [exact BH|discriminate]]. left.
        destruct cells as [|c0 cells].
        - assert (E0 : forall f : list nat -> list nat, set_order f -> f [] = []) by (intros f F; destruct (f []) as [|x l] eqn:E; [reflexivity|]; exfalso; apply (proj1 (proj2 (F []) x)); rewrite E; left; reflexivity).
          cbn [p p_v p_t p_n]. unfold fv, ft, fn. cbn [flat_map]. rewrite (E0 _ Hov), (E0 _ Hot), (E0 _ Hon). repeat split; reflexivity.
        - exfalso. destruct (groups_sim ign pid n mats grps (iv ++ fv) (it ++ ft) (im ++ fn) (c0 :: cells) False False HS ltac:(intros c I; apply HC, I) ltac:(tauto) ltac:(tauto) _ 0 mat ws (State [] [] [] [] None [] [] 0%Z) (or_introl eq_refl) _ _ _ W) as (st' & rs & R & _ & _ & C & FA).
          rewrite BH in R. cbn in R. injection R as <-. cbn in C. subst rs. pose proof (regrouped_perm mats grps (c0 :: cells) ltac:(intros c I; apply HC, I)) as RP. unfold regrouped in RP.
          apply forall2_nil in FA. unfold keys in RP at 2. rewrite FA in RP. apply Permutation_length in RP. discriminate. }
      rewrite EQ. cbn [objects]. rewrite objects_skip by (apply inner_no_o; exact BS). cbn [read_objects].
      destruct (many_inner p B BS ltac:(apply ends_parts)) as (-> & -> & ->). change n with (p_name p) at 1.
      rewrite read_part; [|intros c I; cbn [p p_t] in I; apply in_map_iff in I; destruct I as (x & <- & _); cbn; lia|exact BS|exact PB|apply ends_parts].
      set (st0 := add_vertices _ _ _ _). cbn [p_name p_body p].
      destruct (groups_sim ign pid n mats grps (iv ++ fv) (it ++ ft) (im ++ fn) cells (okmats cells) (ign = false /\ okgrps n cells) HS ltac:(intros c I; apply HC, I) ltac:(intro Q; exact Q) ltac:(intros (A1 & A2 & A3); auto) _ 0 mat ws st0 (or_introl eq_refl) _ _ _ W)
        as (st1 & rs & R & (V1 & T1 & N1) & _ & C1 & FA). fold (keys grps) in FA. fold (regrouped mats grps cells) in FA. rewrite R.
      assert (FP : forall r, In r rs -> r_pid r = pid).
      { clear - FA. intros r I. induction FA as [|c r0 l rs H FA IH]; [destruct I|]. destruct I as [<- |I]; [apply H|exact (IH I)]. }
      destruct (IH (S pid) (iv ++ fv) (it ++ ft) (im ++ fn) m1 s1 st1) as (st' & av & at_ & an & R' & V' & T' & N' & D1 & D2 & D3 & OLD & LT' & MEM & FA').
      { intros n' cells' c I1 I2. apply (HP n' cells' c); [right; exact I1|exact I2]. }
      { rewrite V1. unfold st0. cbn [add_vertices s_v p p_v]. rewrite SV, map_app. reflexivity. }
      { rewrite T1. unfold st0. cbn [add_vertices s_t p p_t]. rewrite ST, map_app, map_map. reflexivity. }
      { rewrite N1. unfold st0. cbn [add_vertices s_n p p_n]. rewrite SN, map_app. reflexivity. }
      { intros r I. rewrite C1 in I. apply in_app_iff in I. destruct I as [I|I]; [specialize (LT r I)|specialize (FP r I)]; lia. }
      { apply fresh_nodup; [exact DV|apply Hov]. } { apply fresh_nodup; [exact DT|apply Hot]. } { apply fresh_nodup; [exact DN|apply Hon]. }
      assert (CR : forall j, cells_read st1 j = cells_read st j ++ if Nat.eqb pid j then rs else []).
      { intro j. unfold cells_read. rewrite C1. unfold st0. cbn [add_vertices s_cells]. rewrite filter_app. f_equal. destruct (Nat.eqb_spec pid j) as [E|E]; [apply filter_all|apply filter_none]; intros r I; rewrite (FP r I); [apply Nat.eqb_eq|apply Nat.eqb_neq]; exact E. }
      exists st', (fv ++ av), (ft ++ at_), (fn ++ an). rewrite !app_assoc. split; [exact R'|]. repeat (split; [assumption|]). split; [|split; [|split]].
      + intros j J. rewrite OLD by lia. rewrite CR. destruct (Nat.eqb_spec pid j); [lia|]. apply app_nil_r.
      + intros r I. specialize (LT' r I). cbn [length]. lia.
      + intro x. rewrite MEM. unfold fv. rewrite fresh_in, (proj2 (Hov _) x), in_flat_map. split.
        * intros [[H|(c & I & X)]|(n' & cs & c & I & X & Y)]; [auto|right; exists n, cells, c; split; [left; reflexivity|auto]|right; exists n', cs, c; split; [right; exact I|auto]].
        * intros [H|(n' & cs & c & [I|I] & X & Y)]; [auto|injection I as <- <-; left; right; exists c; auto|right; exists n', cs, c; auto].
      + intros [|k] n' cs H; cbn in H.
        * injection H as <- <-. exists (regrouped mats grps cells). split; [apply regrouped_perm; intros c I; apply HC, I|]. rewrite Nat.add_0_r, OLD by lia. rewrite CR, Nat.eqb_refl.
          assert (E0 : cells_read st pid = []) by (apply filter_none; intros r I; apply Nat.eqb_neq; specialize (LT r I); lia). rewrite E0. cbn [app].
          refine (forall2_impl _ _ _ _ _ (forall2_in _ _ _ _ _ FA)). intros c r (IC & (G0 & G1 & G2 & G3) & A2 & A3 & A4).
          assert (IC' : In c cells) by (apply (Permutation_in _ (Permutation_sym (regrouped_perm mats grps cells ltac:(intros z I; apply HC, I)))); exact IC).
          split; [apply whole_app; unfold whole; repeat split; auto|]. split; [intros Q1 Q2; apply A2; auto|]. split.
          -- intros _ -> OM. apply A3; [exact OM|]. split; [reflexivity|auto].
          -- intros _ Q. apply A4. exact Q.
        * destruct (FA' k n' cs H) as (l & PL & FL). exists l. split; [exact PL|]. rewrite <- Nat.add_succ_comm. refine (forall2_impl _ _ _ _ _ FL). intros c r (A1 & A2 & _). split; [exact A1|]. split; [exact A2|]. split; discriminate.
  Qed.
End Whole.
