(** Proofs about curves made from points. *)
From Coq Require Import Reals List Arith ZArith Permutation Lia Lra.
From Verif Require Import Vec SkdDistProofs Curve CurveSpec.
Import ListNotations.
Open Scope R_scope.

(** ** Values by identifier *)
Lemma get_in : forall {A} (d : A) l x v, NoDup (map fst l) -> In (x, v) l -> get d l x = v.
Proof.
  intros A d l x v. unfold get. induction l as [|[y u] l IH]; intros N I; [destruct I|]. cbn [find fst snd map] in *. inversion N as [|? ? N1 N2]; subst. destruct I as [E|I].
  - injection E as -> ->. rewrite Nat.eqb_refl. reflexivity.
  - destruct (Nat.eqb_spec y x) as [-> |_]; [|apply IH; assumption]. exfalso. apply N1. apply in_map_iff. exists (x, v). auto.
Qed.
Lemma in_get : forall {A} (d : A) l x, In x (map fst l) -> In (x, get d l x) l.
Proof.
  intros A d l x I. unfold get. destruct (find (fun e => Nat.eqb (fst e) x) l) as [[y u]|] eqn:F.
  - apply find_some in F. cbn in F. destruct F as (F & E). apply Nat.eqb_eq in E. subst y. exact F.
  - exfalso. apply in_map_iff in I. destruct I as ([y u] & E & I). cbn in E. subst y. apply (find_none _ _ F) in I. cbn in I. rewrite Nat.eqb_refl in I. discriminate.
Qed.
Lemma exists_in_iff : forall {A} (l : data A) x, exists_in l x = true <-> In x (map fst l).
Proof.
  intros A l x. unfold exists_in. rewrite existsb_exists, in_map_iff. split; [intros (e & I & E); apply Nat.eqb_eq in E; eauto|intros (e & E & I); exists e; rewrite E, Nat.eqb_refl; auto].
Qed.
Lemma biggest_ge : forall l x, In x l -> (x <= biggest l)%nat.
Proof.
  intros l x. unfold biggest. assert (G : forall l a, (a <= fold_left Nat.max l a)%nat) by (induction l0 as [|y r IH]; intro a; cbn [fold_left]; [lia|specialize (IH (Nat.max a y)); lia]).
  generalize 0%nat as a. induction l as [|y l IH]; intros a I; [destruct I|]. cbn [fold_left]. destruct I as [-> |I]; [specialize (G l (Nat.max a x)); lia|apply IH; exact I].
Qed.
Lemma nodup_snoc : forall (l : list nat) x, NoDup l -> (forall y, In y l -> (y < x)%nat) -> NoDup (l ++ [x]).
Proof.
  intros l x N B. apply (Permutation_NoDup (l := x :: l)); [apply Permutation_cons_append|]. constructor; [|exact N]. intro I. apply B in I. lia.
Qed.

Lemma forall2_impl : forall {A B} (P Q : A -> B -> Prop) l m, (forall x y, P x y -> Q x y) -> Forall2 P l m -> Forall2 Q l m.
Proof. intros A B P Q l m H F. induction F; constructor; auto. Qed.

Lemma perm_two : forall {A} (p q r : A) X1 X2 Y1 Y2 P1 P2, Permutation (X1 ++ p :: X2) (Y1 ++ (P1 ++ p :: P2) ++ Y2) ->
  Permutation (X1 ++ q :: X2 ++ [r]) (Y1 ++ (P1 ++ q :: r :: P2) ++ Y2).
Proof.
  intros A p q r X1 X2 Y1 Y2 P1 P2 H.
  replace (Y1 ++ (P1 ++ p :: P2) ++ Y2) with ((Y1 ++ P1) ++ p :: P2 ++ Y2) in H by (rewrite <- !app_assoc; reflexivity).
  replace (Y1 ++ (P1 ++ q :: r :: P2) ++ Y2) with ((Y1 ++ P1) ++ q :: r :: P2 ++ Y2) by (rewrite <- !app_assoc; reflexivity).
  apply Permutation_app_inv in H.
  transitivity (q :: r :: X1 ++ X2); [|transitivity (q :: r :: (Y1 ++ P1) ++ P2 ++ Y2); [do 2 constructor; exact H|]].
  - eapply Permutation_trans; [apply Permutation_sym, Permutation_middle|]. constructor. rewrite app_assoc. apply Permutation_sym, Permutation_cons_append.
  - eapply Permutation_trans; [|apply Permutation_middle]. constructor. apply Permutation_middle.
Qed.

(** ** Pieces *)
Lemma pieces_cons : forall x y l, pieces (x :: y :: l) = (snd x, snd y) :: pieces (y :: l).
Proof. reflexivity. Qed.
Lemma pieces_split : forall l1 x l2, pieces (l1 ++ x :: l2) = pieces (l1 ++ [x]) ++ pieces (x :: l2).
Proof.
  induction l1 as [|a l1 IH]; intros x l2; [reflexivity|]. destruct l1 as [|b l1]; cbn [app]; [reflexivity|]. rewrite !pieces_cons. cbn [app] in IH |- *. f_equal. exact (IH x l2).
Qed.
Lemma in_pieces : forall l a b, In (a, b) (pieces l) -> exists l1 s t l2, l = l1 ++ (s, a) :: (t, b) :: l2.
Proof.
  induction l as [|x l IH]; intros a b I; [destruct I|]. destruct l as [|y l]; [destruct I|]. rewrite pieces_cons in I. destruct I as [E|I].
  - injection E as <- <-. exists [], (fst x), (fst y), l. cbn. rewrite <- !surjective_pairing. reflexivity.
  - destruct (IH a b I) as (l1 & s & t & l2 & E). exists (x :: l1), s, t, l2. cbn [app]. f_equal. exact E.
Qed.
Lemma increasing_app : forall l1 s a t b l2, increasing (l1 ++ (s, a) :: (t, b) :: l2) -> forall v, increasing (l1 ++ (s, a) :: ((s + t) / 2, v) :: (t, b) :: l2) /\ s < t.
Proof.
  induction l1 as [|x l1 IH]; intros s a t b l2 H v.
  - cbn [app] in *. destruct H as (H1 & H2). cbn [fst] in H1. split; [|exact H1]. split; [cbn; lra|]. split; [cbn; lra|]. exact H2.
  - destruct l1 as [|y l1]; cbn [app] in *; destruct H as (H1 & H2); destruct (IH _ _ _ _ _ H2 v) as (K1 & K2); (split; [split; [exact H1|exact K1]|exact K2]).
Qed.
Lemma inside_insert : forall l1 s a t b l2 m, l1 ++ (s, a) :: (t, b) :: l2 <> [] -> Permutation (inside (l1 ++ (s, a) :: m :: (t, b) :: l2)) (snd m :: inside (l1 ++ (s, a) :: (t, b) :: l2)).
Proof.
  intros l1 s a t b l2 m _. unfold inside.
  assert (R : forall (l : list (R * nat)) x r, removelast (l ++ x :: r) = l ++ removelast (x :: r)) by (intros; apply removelast_app; discriminate).
  destruct l1 as [|x l1]; cbn [app tl].
  - change (m :: (t, b) :: l2) with ([m] ++ (t, b) :: l2). rewrite R. cbn [app map]. apply Permutation_refl.
  - replace (l1 ++ (s, a) :: m :: (t, b) :: l2) with ((l1 ++ [(s, a); m]) ++ (t, b) :: l2) by (rewrite <- app_assoc; reflexivity).
    replace (l1 ++ (s, a) :: (t, b) :: l2) with ((l1 ++ [(s, a)]) ++ (t, b) :: l2) by (rewrite <- app_assoc; reflexivity).
    rewrite !R, !map_app. cbn [map snd]. set (L := map snd l1). set (X := map snd (removelast ((t, b) :: l2))).
    replace ((L ++ [a; snd m]) ++ X) with ((L ++ [a]) ++ snd m :: X) by (rewrite <- !app_assoc; reflexivity). apply Permutation_sym, Permutation_middle.
Qed.
Lemma along_insert : forall u v l1 s a t b l2 x, along u v (l1 ++ (s, a) :: (t, b) :: l2) -> along u v (l1 ++ (s, a) :: ((s + t) / 2, x) :: (t, b) :: l2).
Proof.
  intros u v l1 s a t b l2 x (inner & E & I). destruct (increasing_app _ _ _ _ _ _ I x) as (J & _). unfold along. destruct l1 as [|y l1].
  - cbn [app] in *. injection E as -> -> E. exists (((0 + t) / 2, x) :: inner). split; [cbn [app]; rewrite <- E; reflexivity|exact J].
  - cbn [app] in *. injection E as -> E. destruct (exists_last (l := (t, b) :: l2) ltac:(discriminate)) as (q & z & Q). rewrite Q in *.
    assert (Z : inner = l1 ++ (s, a) :: q /\ z = (1, v)). { change ((s, a) :: q ++ [z]) with (((s, a) :: q) ++ [z]) in E. rewrite app_assoc in E. apply app_inj_tail in E. destruct E as (E & ->). auto. }
    destruct Z as (-> & ->). exists (l1 ++ (s, a) :: ((s + t) / 2, x) :: q). split; [rewrite <- app_assoc; reflexivity|]. exact J.
Qed.

(** ** The work in progress *)
Definition straight_in (w : work) := straight (result_of w).
Record good (o : curve) (w : work) (segs : list (nat * nat)) (subs : list (list (R * nat))) : Prop := {
  ok_points : NoDup (map fst (w_points w)); ok_scalar : map fst (w_scalar w) = map fst (w_points w); ok_vector : map fst (w_vector w) = map fst (w_points w);
  ok_idV : forall x, In x (map fst (w_points w)) -> (x <= w_idV w)%nat;
  ok_conn : NoDup (map fst (w_conn w)); ok_idC : forall c, In c (map fst (w_conn w)) -> (c <= w_idC w)%nat;
  ok_subs : Forall2 (fun s l => along (fst s) (snd s) l /\ forall t x, In (t, x) l -> straight_in w (fst s) (snd s) t x) segs subs;
  ok_cells : Permutation (map snd (w_conn w)) (concat (map pieces subs));
  ok_verts : Permutation (map fst (w_points w)) (map fst (v_points o) ++ concat (map inside subs));
  ok_queue : Permutation (map snd (w_queue w)) (map fst (w_conn w));
  ok_length : forall d c, In (d, c) (w_queue w) -> exists a b, In (c, (a, b)) (w_conn w) /\ d = norm (vsub (get vzero (w_points w) b) (get vzero (w_points w) a));
  ok_even : forall d c s, In (d, c) (w_queue w) -> In (c, s) (w_conn w) -> ~ In s segs -> forall e, In e (w_queue w) -> fst e <= 2 * d }.

Lemma shorten_split : forall c v C1 a b C2, NoDup (map fst (C1 ++ (c, (a, b)) :: C2)) -> shorten c v (C1 ++ (c, (a, b)) :: C2) = C1 ++ (c, (a, v)) :: C2.
Proof.
  intros c v C1 a b C2 N. unfold shorten. rewrite map_app. cbn [map fst snd]. rewrite Nat.eqb_refl. rewrite map_app in N. cbn [map fst] in N. apply NoDup_remove_2 in N.
  assert (K : forall C : data (nat * nat), (forall e, In e C -> fst e <> c) -> map (fun e => if Nat.eqb (fst e) c then (c, (fst (snd e), v)) else e) C = C).
  { induction C as [|e C IH]; intro H; cbn [map]; [reflexivity|]. rewrite IH by (intros; apply H; right; assumption). destruct (Nat.eqb_spec (fst e) c) as [E|_]; [exfalso; exact (H e (or_introl eq_refl) E)|reflexivity]. }
  rewrite !K; [reflexivity| |]; intros e I E; apply N; rewrite in_app_iff, <- E; [right|left]; apply in_map; exact I.
Qed.
Lemma straight_more : forall g g' u v t x, (forall y p, In (y, p) (g_points g) -> In (y, p) (g_points g')) -> (forall y p, In (y, p) (g_scalar g) -> In (y, p) (g_scalar g')) ->
  (forall y p, In (y, p) (g_vector g) -> In (y, p) (g_vector g')) -> straight g u v t x -> straight g' u v t x.
Proof. intros g g' u v t x A B C (pu & pv & su & sv & fu & fv & H). unfold value in *. exists pu, pv, su, sv, fu, fv. unfold value. intuition. Qed.
Lemma half_line : forall s t p q, vscale (/ 2) (vadd (vadd (vscale (1 - t) p) (vscale t q)) (vadd (vscale (1 - s) p) (vscale s q))) = vadd (vscale (1 - (s + t) / 2) p) (vscale ((s + t) / 2) q).
Proof. intros s t [] []. unfold vscale, vadd. cbn. f_equal; field. Qed.
Lemma half_norm : forall a b, norm (vsub (vscale (/ 2) (vadd b a)) a) = / 2 * norm (vsub b a) /\ norm (vsub b (vscale (/ 2) (vadd b a))) = / 2 * norm (vsub b a).
Proof.
  intros a b. replace (vsub (vscale (/ 2) (vadd b a)) a) with (vscale (/ 2) (vsub b a)) by (destruct a, b; unfold vsub, vscale, vadd; cbn; f_equal; field).
  replace (vsub b (vscale (/ 2) (vadd b a))) with (vscale (/ 2) (vsub b a)) by (destruct a, b; unfold vsub, vscale, vadd; cbn; f_equal; field).
  rewrite norm_scale. rewrite Rabs_right by lra. auto.
Qed.
Lemma get_more : forall {A} (d : A) l x v y, In y (map fst l) -> get d (l ++ [(x, v)]) y = get d l y.
Proof.
  intros A d l x v y I. unfold get. induction l as [|[z u] l IH]; [destruct I|]. cbn [find app fst snd]. destruct (Nat.eqb_spec z y) as [_|N]; [reflexivity|]. apply IH. destruct I as [E|I]; [cbn in E; contradiction|exact I].
Qed.
Lemma get_last : forall {A} (d : A) l x v, ~ In x (map fst l) -> get d (l ++ [(x, v)]) x = v.
Proof.
  intros A d l x v N. unfold get. induction l as [|[z u] l IH]; cbn [find app fst snd]; [rewrite Nat.eqb_refl; reflexivity|]. cbn [map fst] in N. destruct (Nat.eqb_spec z x) as [E|_]; [exfalso; apply N; left; exact E|]. apply IH. intro I. apply N. right. exact I.
Qed.

Lemma split_good : forall o w segs subs len c before after, good o w segs subs -> (forall s, In s segs -> In (fst s) (map fst (v_points o)) /\ In (snd s) (map fst (v_points o))) ->
  w_queue w = before ++ (len, c) :: after -> (forall e, In e (w_queue w) -> fst e <= len) ->
  exists subs', good o (split w len c (before ++ after)) segs subs'.
Proof.
  intros o w segs subs len c before after G SG Q M. destruct G as [GP GS GV GI GC GK GU GE GN GQ GL GX].
  assert (IQ : In (len, c) (w_queue w)) by (rewrite Q; apply in_or_app; right; left; reflexivity).
  destruct (GL _ _ IQ) as (a & b & IC & LE).
  destruct (in_split _ _ IC) as (C1 & C2 & EC).
  assert (IP : In (a, b) (concat (map pieces subs))). { apply (Permutation_in _ GE). apply in_map_iff. exists (c, (a, b)). auto. }
  apply in_concat in IP. destruct IP as (pl & IPL & IAB). apply in_map_iff in IPL. destruct IPL as (l & <- & IL). destruct (in_pieces _ _ _ IAB) as (l1 & s & t & l2 & EL).
  destruct (in_split _ _ IL) as (S1 & S2 & ES). subst subs. apply Forall2_app_inv_r in GU. destruct GU as (segs1 & segs2' & FU1 & FU2 & ESG). inversion FU2 as [|sg ? segs2 ? (AL & ST) FU3]; subst segs2'. clear FU2. clear dependent y. subst segs.
  set (v := S (w_idV w)). set (k := S (w_idC w)).
  assert (EG : get (0, 0)%nat (w_conn w) c = (a, b)) by (apply get_in; assumption).
  assert (FV : ~ In v (map fst (w_points w))) by (intro I; apply GI in I; unfold v in I; lia).
  assert (FK : ~ In k (map fst (w_conn w))) by (intro I; apply GK in I; unfold k in I; lia).
  (* the ends *)
  assert (SA : straight_in w (fst sg) (snd sg) s a) by (apply ST; rewrite EL; apply in_or_app; right; left; reflexivity).
  assert (SB : straight_in w (fst sg) (snd sg) t b) by (apply ST; rewrite EL; apply in_or_app; right; right; left; reflexivity).
  assert (IA : In a (map fst (w_points w))). { destruct SA as (? & ? & ? & ? & ? & ? & _ & _ & _ & _ & _ & _ & X & _). apply in_map_iff. eexists. split; [|exact X]. reflexivity. }
  assert (IB : In b (map fst (w_points w))). { destruct SB as (? & ? & ? & ? & ? & ? & _ & _ & _ & _ & _ & _ & X & _). apply in_map_iff. eexists. split; [|exact X]. reflexivity. }
  assert (WC : w_conn (split w len c (before ++ after)) = C1 ++ (c, (a, v)) :: C2 ++ [(k, (v, b))]).
  { unfold split. cbn [w_conn]. rewrite EG. cbn [snd]. fold v k. rewrite EC, shorten_split by (rewrite <- EC; exact GC). rewrite <- app_assoc. reflexivity. }
  assert (WP : w_points (split w len c (before ++ after)) = w_points w ++ [(v, vscale (/ 2) (vadd (get vzero (w_points w) b) (get vzero (w_points w) a)))]) by (unfold split; cbn [w_points]; rewrite EG; reflexivity).
  assert (WS : w_scalar (split w len c (before ++ after)) = w_scalar w ++ [(v, / 2 * (get 0 (w_scalar w) b + get 0 (w_scalar w) a))]) by (unfold split; cbn [w_scalar]; rewrite EG; reflexivity).
  assert (WV : w_vector (split w len c (before ++ after)) = w_vector w ++ [(v, vscale (/ 2) (vadd (get vzero (w_vector w) b) (get vzero (w_vector w) a)))]) by (unfold split; cbn [w_vector]; rewrite EG; reflexivity).
  assert (WQ : w_queue (split w len c (before ++ after)) = (before ++ after) ++ [(/ 2 * len, c); (/ 2 * len, k)]) by reflexivity.
  assert (MORE : forall s0 t0 u x, straight_in w s0 t0 u x -> straight_in (split w len c (before ++ after)) s0 t0 u x).
  { intros s0 t0 u x. apply straight_more; cbn [result_of g_points g_scalar g_vector]; intros y p; rewrite ?WP, ?WS, ?WV, in_app_iff; auto. }
  assert (MID : straight_in (split w len c (before ++ after)) (fst sg) (snd sg) ((s + t) / 2) v).
  { destruct SA as (pu & pv & su & sv & fu & fv & A1 & A2 & A3 & A4 & A5 & A6 & A7 & A8 & A9). destruct SB as (pu' & pv' & su' & sv' & fu' & fv' & B1 & B2 & B3 & B4 & B5 & B6 & B7 & B8 & B9). unfold value in *. cbn [result_of g_points g_scalar g_vector] in *.
    assert (NS : NoDup (map fst (w_scalar w))) by (rewrite GS; exact GP). assert (NV : NoDup (map fst (w_vector w))) by (rewrite GV; exact GP).
    assert (U : forall A (L : data A) x (p q : A), NoDup (map fst L) -> In (x, p) L -> In (x, q) L -> p = q). { intros A L x p q N X Y. rewrite <- (get_in p L x p N X). apply get_in; assumption. }
    assert (pu' = pu) by (eapply U; [exact GP|exact B1|exact A1]). assert (pv' = pv) by (eapply U; [exact GP|exact B2|exact A2]). assert (su' = su) by (eapply U; [exact NS|exact B3|exact A3]). assert (sv' = sv) by (eapply U; [exact NS|exact B4|exact A4]).
    assert (fu' = fu) by (eapply U; [exact NV|exact B5|exact A5]). assert (fv' = fv) by (eapply U; [exact NV|exact B6|exact A6]). subst pu' pv' su' sv' fu' fv'.
    exists pu, pv, su, sv, fu, fv. unfold value. cbn [result_of g_points g_scalar g_vector]. rewrite WP, WS, WV.
    rewrite (get_in vzero _ _ _ GP A7), (get_in vzero _ _ _ GP B7), (get_in 0 _ _ _ NS A8), (get_in 0 _ _ _ NS B8), (get_in vzero _ _ _ NV A9), (get_in vzero _ _ _ NV B9), !half_line.
    rewrite !in_app_iff. replace ((1 - (s + t) / 2) * su + (s + t) / 2 * sv) with (/ 2 * ((1 - t) * su + t * sv + ((1 - s) * su + s * sv))) by field. cbn [In]. intuition. }
  exists (S1 ++ (l1 ++ (s, a) :: ((s + t) / 2, v) :: (t, b) :: l2) :: S2). subst l. constructor.
  - rewrite WP, map_app. cbn [map fst]. apply nodup_snoc; [exact GP|]. intros y I. apply GI in I. unfold v. lia.
  - rewrite WS, WP, !map_app, GS. reflexivity.
  - rewrite WV, WP, !map_app, GV. reflexivity.
  - rewrite WP, map_app. intros x I. cbn [split w_idV]. apply in_app_or in I. destruct I as [I|[<- |[]]]; [apply GI in I; lia|cbn; unfold v; lia].
  - rewrite WC. replace (C1 ++ (c, (a, v)) :: C2 ++ [(k, (v, b))]) with ((C1 ++ (c, (a, v)) :: C2) ++ [(k, (v, b))]) by (rewrite <- app_assoc; reflexivity).
    assert (EQ : map fst (C1 ++ (c, (a, v)) :: C2) = map fst (w_conn w)) by (rewrite EC, !map_app; reflexivity). rewrite map_app, EQ. apply nodup_snoc; [exact GC|]. intros y I. apply GK in I. cbn. unfold k. lia.
  - rewrite WC. intros x I. cbn [split w_idC]. apply in_map_iff in I. destruct I as (e & <- & I). rewrite in_app_iff in I. cbn [In] in I. rewrite in_app_iff in I.
    assert (X : In (fst e) (map fst (w_conn w)) \/ fst e = k). { rewrite EC, map_app, in_app_iff. cbn [map fst In]. destruct I as [I|[<- |[I|[<- |[]]]]]; [left; left; apply in_map; exact I|left; right; left; reflexivity|left; right; right; apply in_map; exact I|right; reflexivity]. }
    destruct X as [X|X]; [apply GK in X; lia|unfold k in X; lia].
  - apply Forall2_app; [|constructor].
    + refine (forall2_impl _ _ _ _ _ FU1). intros x y (Y1 & Y2). split; [exact Y1|]. intros; apply MORE; auto.
    + split; [apply along_insert; exact AL|]. intros u x I. apply in_app_or in I. destruct I as [I|[E|[E|I]]].
      * apply MORE, ST, in_or_app. left. exact I.
      * injection E as <- <-. apply MORE. exact SA.
      * injection E as <- <-. exact MID.
      * apply MORE, ST, in_or_app. right. right. exact I.
    + refine (forall2_impl _ _ _ _ _ FU3). intros x y (Y1 & Y2). split; [exact Y1|]. intros; apply MORE; auto.
  - rewrite WC. rewrite !map_app. cbn [map snd]. rewrite map_app. cbn [map snd]. rewrite concat_app. cbn [concat].
    rewrite EC in GE. rewrite !map_app in GE. cbn [map snd] in GE. rewrite concat_app in GE. cbn [concat] in GE.
    rewrite pieces_split, pieces_cons in GE. rewrite pieces_split, !pieces_cons. cbn [snd] in *.
    exact (perm_two _ _ _ _ _ _ _ _ _ GE).
  - rewrite WP, map_app. cbn [map fst]. rewrite map_app, concat_app. cbn [map concat]. rewrite map_app, concat_app in GN. cbn [map concat] in GN.
    eapply Permutation_trans; [apply Permutation_sym, Permutation_cons_append|].
    eapply Permutation_trans; [constructor; exact GN|].
    rewrite !(app_assoc (map fst (v_points o))). set (Z := map fst (v_points o) ++ concat (map inside S1)).
    eapply Permutation_trans; [apply Permutation_middle|]. apply Permutation_app_head. change (v :: ?A ++ ?B) with ((v :: A) ++ B). apply Permutation_app_tail.
    apply Permutation_sym. apply (inside_insert l1 s a t b l2 ((s + t) / 2, v)). destruct l1; discriminate.
  - rewrite WQ, WC, Q in *. rewrite !map_app in *. cbn [map snd fst] in *. rewrite EC in GQ. rewrite !map_app in *. cbn [map fst snd] in *.
    set (X1 := map fst C1) in *. set (X2 := map fst C2) in *. set (B1 := map snd before) in *. set (B2 := map snd after) in *.
    assert (GQ' : Permutation (B1 ++ B2) (X1 ++ X2)). { apply (Permutation_cons_inv (a := c)). eapply Permutation_trans; [apply Permutation_middle|]. eapply Permutation_trans; [exact GQ|]. apply Permutation_sym, Permutation_middle. }
    transitivity (c :: k :: (B1 ++ B2)); [apply Permutation_app_comm|]. transitivity (c :: k :: (X1 ++ X2)); [do 2 constructor; exact GQ'|].
    symmetry. eapply Permutation_trans; [apply Permutation_sym, Permutation_middle|]. constructor. rewrite app_assoc. apply Permutation_sym, Permutation_cons_append.
  - intros d c0 I. rewrite WQ in I. rewrite WC, WP.
    assert (NEW : get vzero (w_points w ++ [(v, vscale (/ 2) (vadd (get vzero (w_points w) b) (get vzero (w_points w) a)))]) v = vscale (/ 2) (vadd (get vzero (w_points w) b) (get vzero (w_points w) a))) by (apply get_last; exact FV).
    apply in_app_or in I. destruct I as [I|[E|[E|[]]]].
    + assert (IW : In (d, c0) (w_queue w)) by (rewrite Q; apply in_app_or in I; apply in_or_app; cbn; tauto). destruct (GL _ _ IW) as (a0 & b0 & IC0 & D0).
      assert (NC : c0 <> c). { intros ->. assert (ND : NoDup (map snd (w_queue w))) by (apply (Permutation_NoDup (Permutation_sym GQ)); exact GC). rewrite Q, map_app in ND. cbn [map snd] in ND. apply NoDup_remove_2 in ND. apply ND. rewrite <- map_app. apply in_map_iff. exists (d, c). auto. }
      exists a0, b0. split; [rewrite EC in IC0; apply in_app_or in IC0; apply in_or_app; destruct IC0 as [X|[X|X]]; [auto|congruence|right; right; apply in_or_app; auto]|].
      assert (PE : In a0 (map fst (w_points w)) /\ In b0 (map fst (w_points w))).
      { assert (IP : In (a0, b0) (concat (map pieces (S1 ++ (l1 ++ (s, a) :: (t, b) :: l2) :: S2)))) by (apply (Permutation_in _ GE); apply in_map_iff; exists (c0, (a0, b0)); auto).
        apply in_concat in IP. destruct IP as (pl & IPL & IAB0). apply in_map_iff in IPL. destruct IPL as (l & <- & IL0). destruct (in_pieces _ _ _ IAB0) as (q1 & u0 & u1 & q2 & EL0).
        assert (SS : exists sg0, forall t0 x, In (t0, x) l -> straight_in w (fst sg0) (snd sg0) t0 x).
        { apply in_app_or in IL0. destruct IL0 as [X|[<- |X]]; [|exists sg; exact ST|].
          - apply in_split in X. destruct X as (m1 & m2 & ->). apply Forall2_app_inv_r in FU1. destruct FU1 as (? & ? & _ & F & _). inversion F as [|sx ? ? ? (_ & Y) _]. exists sx. exact Y.
          - apply in_split in X. destruct X as (m1 & m2 & ->). apply Forall2_app_inv_r in FU3. destruct FU3 as (? & ? & _ & F & _). inversion F as [|sx ? ? ? (_ & Y) _]. exists sx. exact Y. }
        destruct SS as (sg0 & SS). split.
        - assert (X : straight_in w (fst sg0) (snd sg0) u0 a0) by (apply SS; rewrite EL0; apply in_or_app; right; left; reflexivity). destruct X as (? & ? & ? & ? & ? & ? & _ & _ & _ & _ & _ & _ & X & _). apply in_map_iff. eexists. split; [|exact X]. reflexivity.
        - assert (X : straight_in w (fst sg0) (snd sg0) u1 b0) by (apply SS; rewrite EL0; apply in_or_app; right; right; left; reflexivity). destruct X as (? & ? & ? & ? & ? & ? & _ & _ & _ & _ & _ & _ & X & _). apply in_map_iff. eexists. split; [|exact X]. reflexivity. }
      destruct PE as (PA & PB). rewrite !get_more by assumption. exact D0.
    + injection E as <- <-. exists a, v. split; [apply in_or_app; right; left; reflexivity|]. rewrite NEW, get_more by exact IA. rewrite LE. symmetry. apply half_norm.
    + injection E as <- <-. exists v, b. split; [apply in_or_app; right; right; apply in_or_app; right; left; reflexivity|]. rewrite NEW, get_more by exact IB. rewrite LE. symmetry. apply half_norm.
  - assert (LP : 0 <= len) by (rewrite LE; apply norm_ge).
    intros d c0 s0 I J N e Ie. rewrite WQ in I, Ie. rewrite WC in J.
    assert (E1 : fst e <= len). { apply in_app_or in Ie. destruct Ie as [Ie|[<- |[<- |[]]]]; [apply M; rewrite Q; apply in_app_or in Ie; apply in_or_app; cbn; tauto|cbn; lra|cbn; lra]. }
    apply in_app_or in I. destruct I as [I|[E|[E|[]]]]; [|injection E as <- <-; lra|injection E as <- <-; lra].
    assert (IW : In (d, c0) (w_queue w)) by (rewrite Q; apply in_app_or in I; apply in_or_app; cbn; tauto).
    assert (NC : c0 <> c). { intros ->. assert (ND : NoDup (map snd (w_queue w))) by (apply (Permutation_NoDup (Permutation_sym GQ)); exact GC). rewrite Q, map_app in ND. cbn [map snd] in ND. apply NoDup_remove_2 in ND. apply ND. rewrite <- map_app. apply in_map_iff. exists (d, c). auto. }
    assert (J0 : In (c0, s0) (w_conn w)).
    { rewrite EC. apply in_app_or in J. apply in_or_app. destruct J as [J|[J|J]]; [auto|congruence|]. apply in_app_or in J. destruct J as [J|[J|[]]]; [right; right; exact J|]. exfalso. injection J as K _. apply FK.
      apply (Permutation_in _ GQ). apply in_map_iff. exists (d, c0). split; [cbn; symmetry; exact K|exact IW]. }
    pose proof (GX d c0 s0 IW J0 N (len, c) IQ) as X. cbn [fst] in X. lra.
Qed.

(** ** Before *)
Lemma path_joined : forall l, map (fun k => (nth k l 0%nat, nth (k + 1) l 0%nat)) (seq 0 (length l - 1)) = combine l (tl l).
Proof.
  induction l as [|x l IH]; [reflexivity|]. destruct l as [|y l]; [reflexivity|]. cbn [length] in *. replace (S (S (length l)) - 1)%nat with (S (S (length l) - 1)) by lia. cbn [seq map]. cbn [tl combine]. f_equal. rewrite <- seq_shift, map_map. etransitivity; [|exact IH]. apply map_ext. intro k. reflexivity.
Qed.
Lemma nth_last : forall (l : list nat) x d, last (x :: l) d = nth (length l) (x :: l) 0%nat.
Proof. induction l as [|y l IH]; intros x d; [reflexivity|]. change (last (x :: y :: l) d) with (last (y :: l) d). rewrite IH. reflexivity. Qed.
Lemma segments_joined : forall o conn, segments_of o = Some conn -> map snd conn = joined (v_closed o) (map fst (v_points o)) /\ map fst conn = seq 0 (length conn).
Proof.
  intros o conn. unfold segments_of, joined, ids. set (l := map fst (v_points o)). 
  assert (P1 : map snd (map (fun k => (k, (nth k l 0%nat, nth (k + 1) l 0%nat))) (seq 0 (length l - 1))) = combine l (tl l)) by (rewrite map_map; cbn [snd]; apply path_joined).
  assert (P2 : map fst (map (fun k => (k, (nth k l 0%nat, nth (k + 1) l 0%nat))) (seq 0 (length l - 1))) = seq 0 (length l - 1)) by (rewrite map_map; cbn [fst]; apply map_id).
  destruct (v_closed o).
  - destruct l as [|x l0] eqn:L; [discriminate|]. rewrite <- L in *. assert (LN : length l <> 0%nat) by (rewrite L; discriminate). destruct (Nat.eqb_spec (length l) 0) as [|_]; [contradiction|]. intro E. injection E as <-. split.
    + rewrite map_app, P1. cbn [map snd]. f_equal. rewrite L. rewrite nth_last. cbn [length nth]. replace (S (length l0) - 1)%nat with (length l0) by lia. reflexivity.
    + rewrite map_app, P2. cbn [map fst]. rewrite app_length, map_length, seq_length. cbn [length]. rewrite seq_app. reflexivity.
  - intro E. injection E as <-. rewrite P1, P2, app_nil_r, map_length, seq_length. auto.
Qed.
Lemma joined_in : forall closed l s, In s (joined closed l) -> In (fst s) l /\ In (snd s) l.
Proof.
  intros closed l [u v] I. unfold joined in I. apply in_app_or in I. destruct I as [I|I].
  - split; [exact (in_combine_l _ _ _ _ I)|]. apply in_combine_r in I. destruct l as [|x l]; [destruct I|right; exact I].
  - destruct closed; [|destruct I]. destruct l as [|x l]; [destruct I|]. assert (HL : In (last (x :: l) x) (x :: l)) by (rewrite nth_last; apply nth_In; cbn; lia). destruct I as [E|[]]. injection E as <- <-. split; [exact HL|left; reflexivity].
Qed.
Lemma start_good : forall o conn, proper o -> segments_of o = Some conn ->
  good o (start o conn) (joined (v_closed o) (map fst (v_points o))) (map (fun s => [(0, fst s); (1, snd s)]) (joined (v_closed o) (map fst (v_points o)))).
Proof.
  intros o conn (P & _) E. destruct (segments_joined o conn E) as (ES & EF). pose proof (joined_in (v_closed o) (map fst (v_points o))) as JI.
  assert (EN : forall c s, In (c, s) conn -> In s (joined (v_closed o) (map fst (v_points o)))) by (intros c s I; rewrite <- ES; apply in_map_iff; exists (c, s); auto).
  assert (MID : forall A (f : nat -> A), map fst (map (fun x => (x, f x)) (ids (v_points o))) = map fst (v_points o)) by (intros A f; rewrite map_map; cbn [fst]; rewrite map_id; reflexivity).
  constructor; cbn [start w_points w_scalar w_vector w_conn w_queue w_idV w_idC].
  - exact P.
  - apply (MID R).
  - apply (MID vec).
  - intros x I. apply biggest_ge. exact I.
  - rewrite EF. apply seq_NoDup.
  - intros x I. apply biggest_ge. exact I.
  - set (segs := joined (v_closed o) (map fst (v_points o))) in *. clearbody segs. clear EN ES. 
    assert (K : forall s, In s segs -> along (fst s) (snd s) [(0, fst s); (1, snd s)] /\ forall t x, In (t, x) [(0, fst s); (1, snd s)] -> straight_in (start o conn) (fst s) (snd s) t x).
    { intros [u v] I. apply JI in I. cbn [fst snd] in *. destruct I as (IU & IV). split.
      - exists []. cbn. split; [reflexivity|]. split; [lra|exact Logic.I].
      - intros t x H. unfold straight_in, straight, value. cbn [result_of start g_points g_scalar g_vector w_points w_scalar w_vector].
        exists (get vzero (v_points o) u), (get vzero (v_points o) v), (if exists_in (v_scalar o) u then get 0 (v_scalar o) u else 0), (if exists_in (v_scalar o) v then get 0 (v_scalar o) v else 0),
          (if exists_in (v_vector o) u then get vzero (v_vector o) u else vzero), (if exists_in (v_vector o) v then get vzero (v_vector o) v else vzero).
        assert (X : forall A (f : nat -> A) y, In y (map fst (v_points o)) -> In (y, f y) (map (fun x => (x, f x)) (ids (v_points o)))) by (intros A f y Y; apply in_map_iff; exists y; auto).
        do 6 (split; [first [apply in_get; assumption | apply (X R (fun x => if exists_in (v_scalar o) x then get 0 (v_scalar o) x else 0)); assumption | apply (X vec (fun x => if exists_in (v_vector o) x then get vzero (v_vector o) x else vzero)); assumption]|]).
        assert (V0 : forall p q, vadd (vscale (1 - 0) p) (vscale 0 q) = p) by (intros [] []; unfold vadd, vscale; cbn; f_equal; ring). assert (V1 : forall p q, vadd (vscale (1 - 1) p) (vscale 1 q) = q) by (intros [] []; unfold vadd, vscale; cbn; f_equal; ring).
        destruct H as [H|[H|[]]]; injection H as <- <-; rewrite ?V0, ?V1;
          [replace ((1 - 0) * (if exists_in (v_scalar o) u then get 0 (v_scalar o) u else 0) + 0 * (if exists_in (v_scalar o) v then get 0 (v_scalar o) v else 0)) with (if exists_in (v_scalar o) u then get 0 (v_scalar o) u else 0) by ring
          |replace ((1 - 1) * (if exists_in (v_scalar o) u then get 0 (v_scalar o) u else 0) + 1 * (if exists_in (v_scalar o) v then get 0 (v_scalar o) v else 0)) with (if exists_in (v_scalar o) v then get 0 (v_scalar o) v else 0) by ring];
          (split; [apply in_get; assumption|split; [apply (X R (fun x => if exists_in (v_scalar o) x then get 0 (v_scalar o) x else 0)); assumption|apply (X vec (fun x => if exists_in (v_vector o) x then get vzero (v_vector o) x else vzero)); assumption]]). }
    clear JI. induction segs as [|s segs IH]; cbn [map]; constructor; [apply K; left; reflexivity|]. apply IH. intros; apply K; right; assumption.
  - rewrite map_map. rewrite ES. clear. induction (joined (v_closed o) (map fst (v_points o))) as [|[u v] l IH]; cbn [map concat]; [constructor|]. cbn [pieces map tl combine snd fst app]. constructor. exact IH.
  - rewrite map_map. assert (Z : forall l : list (nat * nat), concat (map (fun s => inside [(0, fst s); (1, snd s)]) l) = []) by (induction l as [|a l IH]; [reflexivity|exact IH]). rewrite Z, app_nil_r. apply Permutation_refl.
  - rewrite map_map. cbn [snd]. apply Permutation_refl.
  - intros d c I. apply in_map_iff in I. destruct I as ([c' [a b]] & X & I). cbn [fst snd] in X. injection X as <- <-. exists a, b. auto.
  - intros d c s I J N. exfalso. apply N. exact (EN _ _ J).
Qed.

(** ** After *)
Lemma refine_good : forall n w r, refine n w r -> forall o segs subs, good o w segs subs -> (forall s, In s segs -> In (fst s) (map fst (v_points o)) /\ In (snd s) (map fst (v_points o))) ->
  forall w', r = Some w' -> exists subs', good o w' segs subs'.
Proof.
  intros n w r H. induction H as [w|n w Q|n w len c before after r Q M H IH]; intros o segs subs G SG w' E.
  - injection E as <-. eauto.
  - discriminate.
  - destruct (split_good o w segs subs len c before after G SG Q M) as (subs' & G'). exact (IH o segs subs' G' SG w' E).
Qed.
Lemma refine_count : forall n w r, refine n w r -> forall w', r = Some w' -> length (w_conn w') = (length (w_conn w) + n)%nat /\ length (w_points w') = (length (w_points w) + n)%nat.
Proof.
  intros n w r H. induction H as [w|n w Q|n w len c before after r Q M H IH]; intros w' E; [injection E as <-; lia|discriminate|]. destruct (IH w' E) as (A & B). rewrite A, B. unfold split, shorten. cbn [w_conn w_points]. rewrite !app_length, map_length. cbn [length]. lia.
Qed.
Lemma refine_more : forall n w r, refine n w r -> forall w', r = Some w' -> (forall e, In e (w_points w) -> In e (w_points w')) /\ (forall e, In e (w_scalar w) -> In e (w_scalar w')) /\ (forall e, In e (w_vector w) -> In e (w_vector w')).
Proof.
  intros n w r H. induction H as [w|n w Q|n w len c before after r Q M H IH]; intros w' E; [injection E as <-; auto|discriminate|]. destruct (IH w' E) as (A & B & C). unfold split in A, B, C. cbn [w_points w_scalar w_vector] in A, B, C. repeat split; intros e I; [apply A|apply B|apply C]; apply in_or_app; left; exact I.
Qed.
Lemma longest : forall q : list (R * nat), q <> [] -> exists before e after, q = before ++ e :: after /\ forall f, In f q -> fst f <= fst e.
Proof.
  induction q as [|x q IH]; intro N; [contradiction|]. destruct q as [|y q].
  - exists [], x, []. split; [reflexivity|]. intros f [<- |[]]. lra.
  - destruct IH as (b & e & a & E & M); [discriminate|]. destruct (Rle_dec (fst x) (fst e)) as [L|L].
    + exists (x :: b), e, a. split; [cbn [app]; f_equal; exact E|]. intros f [<- |I]; [exact L|apply M; exact I].
    + exists [], x, (y :: q). split; [reflexivity|]. intros f [<- |I]; [lra|]. apply M in I. lra.
Qed.
Lemma queue_split : forall w len c rest, w_queue (split w len c rest) <> [].
Proof. intros w len c rest. cbn [split w_queue]. destruct rest; discriminate. Qed.
Lemma refine_exists : forall n w, w_queue w <> [] \/ n = 0%nat -> exists w', refine n w (Some w').
Proof.
  induction n as [|n IH]; intros w H; [eexists; constructor|]. destruct H as [H|H]; [|discriminate]. destruct (longest _ H) as (b & [len c] & a & E & M).
  destruct (IH (split w len c (b ++ a))) as (w' & R0); [left; apply queue_split|]. exists w'. exact (refine_split n w len c b a _ E M R0).
Qed.
Lemma refine_defined : forall n w r, refine n w r -> w_queue w <> [] \/ n = 0%nat -> r <> None.
Proof.
  intros n w r H. induction H as [w|n w Q|n w len c before after r Q M H IH]; intros [K|K]; try discriminate; try contradiction. apply IH. left. apply queue_split.
Qed.
Lemma refine_undefined : forall n w, w_queue w = [] -> n <> 0%nat -> forall r, refine n w r <-> r = None.
Proof.
  intros n w Q N r. split; [|intros ->; destruct n; [contradiction|constructor; exact Q]]. intro H. inversion H as [| |? ? ? ? ? ? ? Q']; subst; [contradiction|reflexivity|]. rewrite Q in Q'. destruct before; discriminate.
Qed.

(** ** Clouds *)
Lemma overwrite_ids : forall {A} (e : nat * A) f, map fst (map (fun x => if Nat.eqb (fst x) (fst e) then e else x) f) = map fst f.
Proof. intros A e f. rewrite map_map. apply map_ext. intro x. destruct (Nat.eqb_spec (fst x) (fst e)); congruence. Qed.
Lemma written_ids : forall {A} (raw f : data A), map fst (written raw f) = map fst f.
Proof.
  intros A raw. unfold written. induction raw as [|e raw IH]; intro f; cbn [fold_left]; [reflexivity|]. rewrite IH. destruct (exists_in f (fst e)); [apply overwrite_ids|reflexivity].
Qed.
Lemma written_other : forall {A} (raw f : data A) x v, ~ In x (map fst raw) -> In (x, v) f -> In (x, v) (written raw f).
Proof.
  intros A raw. unfold written. induction raw as [|e raw IH]; intros f x v N I; cbn [fold_left]; [exact I|]. cbn [map In] in N. apply IH; [tauto|]. destruct (exists_in f (fst e)); [|exact I]. apply in_map_iff. exists (x, v). split; [|exact I]. cbn [fst]. destruct (Nat.eqb_spec x (fst e)) as [E|_]; [exfalso; apply N; left; congruence|reflexivity].
Qed.
Lemma written_value : forall {A} (raw f : data A) x v, NoDup (map fst raw) -> In (x, v) raw -> In x (map fst f) -> In (x, v) (written raw f).
Proof.
  intros A raw. unfold written. induction raw as [|e raw IH]; intros f x v N I J; [destruct I|]. cbn [fold_left]. cbn [map] in N. inversion N as [|? ? N1 N2]; subst. destruct I as [-> |I].
  - cbn [fst] in *. rewrite (proj2 (exists_in_iff f x) J). apply written_other; [exact N1|]. apply in_map_iff in J. destruct J as (y & Y & J). apply in_map_iff. exists y. split; [|exact J]. rewrite Y, Nat.eqb_refl. reflexivity.
  - apply IH; [exact N2|exact I|]. destruct (exists_in f (fst e)); [rewrite overwrite_ids|]; exact J.
Qed.
Lemma written_kept : forall {A} (zero : A) (points : list nat) (raw : data A) x, NoDup (map fst raw) -> In x points -> field_kept zero raw (written raw (map (fun y => (y, zero)) points)) x.
Proof.
  intros A zero points raw x N I. unfold field_kept, value. split.
  - intros v V. apply written_value; [exact N|exact V|]. rewrite map_map. cbn [fst]. rewrite map_id. exact I.
  - intro V. apply written_other; [|apply in_map_iff; exists x; auto]. intro J. apply in_map_iff in J. destruct J as ([y u] & E & J). cbn in E. subst y. exact (V u J).
Qed.
