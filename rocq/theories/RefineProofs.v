(** Proofs about refinement and smoothing. *)
From Coq Require Import Reals List Arith Bool Lra Lia ZArith Permutation.
From Verif Require Import Vec Refine RefineSpec.
Import ListNotations.
Open Scope nat_scope.

(* ---------------------------------------------------------- edges and faces *)
Lemma key_eqb_eq : forall a b, key_eqb a b = true <-> a = b.
Proof. intros [a b] [c d]. unfold key_eqb. cbn. rewrite andb_true_iff, !Nat.eqb_eq. split; [intros [-> ->]; reflexivity|intros H; injection H as -> ->; auto]. Qed.
Lemma edge_eq : forall a b c d, edge a b = edge c d <-> (a = c /\ b = d) \/ (a = d /\ b = c).
Proof. intros a b c d. unfold edge. split; [intros H; assert (H1 : Nat.min a b = Nat.min c d) by congruence; assert (H2 : Nat.max a b = Nat.max c d) by congruence; lia|]. intros [[-> ->]|[-> ->]]; [reflexivity|]. rewrite Nat.min_comm, Nat.max_comm. reflexivity. Qed.
Lemma edge_sym : forall a b, edge a b = edge b a.
Proof. intros a b. apply edge_eq. auto. Qed.
Lemma three : forall i, i < 3 -> i = 0 \/ i = 1 \/ i = 2. Proof. intros i H. lia. Qed.
Lemma has_edge_face : forall c f a b x y z, c_verts c = [x; y; z] -> (has_edge c f a b <-> f < 3 /\ face c f = edge a b).
Proof.
  intros c f a b x y z E. unfold has_edge, face, corner. rewrite E. split.
  - intros (x' & y' & z' & E' & H). injection E' as <- <- <-. destruct H as [[-> H]|[[-> H]|[-> H]]]; (split; [lia|]); cbn; apply edge_eq; destruct H as [[-> ->]|[-> ->]]; auto.
  - intros [L H]. exists x, y, z. split; [reflexivity|]. destruct (three f L) as [-> |[-> | ->]]; cbn in H; apply edge_eq in H; intuition (subst; auto).
Qed.
Lemma in_faces_on : forall cs e k f, In (k, f) (faces_on cs e) <-> k < length cs /\ f < 3 /\ face (cell_at cs k) f = e.
Proof.
  intros cs e k f. unfold faces_on. rewrite filter_In, key_eqb_eq. cbn [fst snd]. rewrite in_flat_map. split.
  - intros ((j & Hj & H) & E). apply in_map_iff in H. destruct H as (i & Q & H). injection Q as -> ->. apply in_seq in Hj. cbn in H. split; [lia|split; [intuition lia|exact E]].
  - intros (Hk & Hf & E). split; [|exact E]. exists k. split; [apply in_seq; lia|]. apply in_map_iff. exists f. split; [reflexivity|]. cbn. destruct (three f Hf) as [-> |[-> | ->]]; auto.
Qed.
Lemma in_adjacent : forall cs k i n f, In (n, f) (adjacent cs k i) <-> n <> k /\ n < length cs /\ f < 3 /\ face (cell_at cs n) f = face (cell_at cs k) i.
Proof. intros cs k i n f. unfold adjacent. rewrite filter_In, in_faces_on. cbn [fst]. rewrite negb_true_iff, Nat.eqb_neq. tauto. Qed.
Lemma NoDup_flat_map : forall A B (f : A -> list B) l, NoDup l -> (forall x, In x l -> NoDup (f x)) -> (forall x y z, In x l -> In y l -> In z (f x) -> In z (f y) -> x = y) -> NoDup (flat_map f l).
Proof.
  intros A B f. induction l as [|x l IH]; intros N F D; [constructor|]. apply NoDup_cons_iff in N. destruct N as [N1 N2]. cbn [flat_map].
  assert (G : forall (a b : list B), NoDup a -> NoDup b -> (forall z, In z a -> In z b -> False) -> NoDup (a ++ b)).
  { induction a as [|y a IHa]; intros b Na Nb Dab; [exact Nb|]. apply NoDup_cons_iff in Na. destruct Na as [Na1 Na2]. cbn. constructor; [|apply IHa; [exact Na2|exact Nb|intros z Z1 Z2; apply (Dab z); [right; exact Z1|exact Z2]]].
    intros I. apply in_app_or in I. destruct I as [I|I]; [contradiction|apply (Dab y); [left; reflexivity|exact I]]. }
  apply G; [apply F; left; reflexivity|apply IH; [exact N2|intros y Y; apply F; right; exact Y|intros y z w Y Z; apply D; right; assumption]|].
  intros z Z1 Z2. apply in_flat_map in Z2. destruct Z2 as (y & Y & Z2). assert (x = y) by (apply (D x y z); [left; reflexivity|right; exact Y|exact Z1|exact Z2]). subst y. contradiction.
Qed.
Lemma faces_on_nodup : forall cs e, NoDup (faces_on cs e).
Proof.
  intros cs e. apply NoDup_filter. apply NoDup_flat_map; [apply seq_NoDup| |].
  - intros k _. cbn. repeat constructor; cbn; intuition congruence.
  - intros x y [k f] _ _ Hx Hy. apply in_map_iff in Hx. apply in_map_iff in Hy. destruct Hx as (? & E & _), Hy as (? & E' & _). congruence.
Qed.
Lemma adjacent_nodup : forall cs k i, NoDup (adjacent cs k i).
Proof. intros cs k i. apply NoDup_filter, faces_on_nodup. Qed.
Lemma at_nth : forall cs k c, nth_error cs k = Some c -> cell_at cs k = c.
Proof. intros cs k c H. apply nth_error_nth. exact H. Qed.
Lemma at_some : forall cs k, k < length cs -> nth_error cs k = Some (cell_at cs k).
Proof. intros cs k H. unfold cell_at. apply nth_error_nth'. exact H. Qed.
Definition tri_ok (m : mesh) (c : cell) : Prop := c_kind c = Triangle /\ exists x y z, c_verts c = [x; y; z] /\ x <> y /\ y <> z /\ z <> x /\ (x < m_next m /\ y < m_next m /\ z < m_next m).
Lemma at_tri : forall m k, triangulated m -> k < length (m_cells m) -> tri_ok m (cell_at (m_cells m) k).
Proof. intros m k T H. apply T. apply nth_In. exact H. Qed.
Lemma face_inj : forall m c i j, tri_ok m c -> i < 3 -> j < 3 -> face c i = face c j -> i = j.
Proof.
  intros m c i j (_ & x & y & z & E & N1 & N2 & N3 & _) Hi Hj H. unfold face, corner in H. rewrite E in H. destruct (three i Hi) as [-> |[-> | ->]], (three j Hj) as [-> |[-> | ->]]; try reflexivity; cbn in H; apply edge_eq in H; exfalso; intuition congruence.
Qed.
Lemma at_most_two : forall m e p q r, triangulated m -> manifold m -> In p (faces_on (m_cells m) e) -> In q (faces_on (m_cells m) e) -> In r (faces_on (m_cells m) e) -> p = q \/ q = r \/ p = r.
Proof.
  intros m e [i f] [j g] [k h] T M P Q R. apply in_faces_on in P. apply in_faces_on in Q. apply in_faces_on in R. destruct P as (Pi & Pf & PE), Q as (Qi & Qf & QE), R as (Ri & Rf & RE).
  destruct (at_tri m i T Pi) as (_ & x & y & z & Ei & _). destruct (at_tri m j T Qi) as (_ & x1 & y1 & z1 & Ej & _). destruct (at_tri m k T Ri) as (_ & x2 & y2 & z2 & Ek & _).
  assert (Xe : exists a b, e = edge a b) by (exists (corner (cell_at (m_cells m) i) f), (corner (cell_at (m_cells m) i) (f + 1)); symmetry; exact PE). destruct Xe as (a & b & ->).
  apply (M a b i f j g k h _ _ _ (at_some _ _ Pi) (at_some _ _ Qi) (at_some _ _ Ri)).
  - apply (has_edge_face _ f a b _ _ _ Ei). auto.
  - apply (has_edge_face _ g a b _ _ _ Ej). auto.
  - apply (has_edge_face _ h a b _ _ _ Ek). auto.
Qed.

(* ---------------------------------------------------------- the spreading of the red cells *)
Inductive event := Border (e : key) | Touch (e : key) (nf : nat * nat).
Definition ev_edge (v : event) : key := match v with Border e => e | Touch e _ => e end.
Definition step (s : state) (v : event) : state := match v with Border e => State (tag s) (e :: edges s) (green s) (queue s) | Touch e nf => touch e s nf end.
Definition events_on (cs : list cell) (k i : nat) : list event :=
  match adjacent cs k i with [] => [Border (face (cell_at cs k) i)] | ns => map (Touch (face (cell_at cs k) i)) ns end.
Definition events (cs : list cell) (k : nat) : list event := if is_triangle (c_kind (cell_at cs k)) then flat_map (events_on cs k) [0; 1; 2] else [].
Lemma fold_touch : forall e ns s, fold_left (touch e) ns s = fold_left step (map (Touch e) ns) s.
Proof. intros e. induction ns as [|n ns IH]; intros s; [reflexivity|]. cbn. apply IH. Qed.
Lemma visit_face_events : forall cs k s i, visit_face cs k s i = fold_left step (events_on cs k i) s.
Proof. intros cs k s i. unfold visit_face, events_on. destruct (adjacent cs k i) as [|n ns]; [reflexivity|]. apply fold_touch. Qed.
Lemma visit_events : forall cs k s, visit cs k s = fold_left step (events cs k) s.
Proof. intros cs k s. unfold visit, events. destruct (is_triangle _); [|reflexivity]. cbn [fold_left flat_map]. rewrite app_nil_r, !fold_left_app, !visit_face_events. reflexivity. Qed.
Definition touches (h : list event) : list (nat * nat) := flat_map (fun v => match v with Touch _ nf => [nf] | Border _ => [] end) h.
Definition cnt (n : nat) (h : list event) : nat := length (filter (fun nf => Nat.eqb (fst nf) n) (touches h)).
Lemma touches_app : forall a b, touches (a ++ b) = touches a ++ touches b.
Proof. intros a b. apply flat_map_app. Qed.
Lemma cnt_app : forall n a b, cnt n (a ++ b) = cnt n a + cnt n b.
Proof. intros n a b. unfold cnt. rewrite touches_app, filter_app, app_length. reflexivity. Qed.
Lemma in_touches : forall h nf, In nf (touches h) <-> exists e, In (Touch e nf) h.
Proof. intros h nf. unfold touches. rewrite in_flat_map. split; [intros ([e|e x] & I & H); [destruct H|]; destruct H as [<- |[]]; exists e; exact I|intros (e & I); exists (Touch e nf); split; [exact I|left; reflexivity]]. Qed.
Definition mem (n : nat) (l : list nat) : bool := existsb (Nat.eqb n) l.
Lemma mem_in : forall n l, mem n l = true <-> In n l.
Proof. intros n l. unfold mem. rewrite existsb_exists. split; [intros (x & H & E); apply Nat.eqb_eq in E; subst; exact H|intros H; exists n; split; [exact H|apply Nat.eqb_refl]]. Qed.
Record Inv (active W : list nat) (H : list event) (s : state) : Prop := {
  i_tag : forall n, tag s n = (if mem n active then 2 else 0) + cnt n H;
  i_edges : forall e, In e (edges s) <-> In e (map ev_edge H);
  i_nodup : NoDup (W ++ queue s);
  i_red : forall n, In n (W ++ queue s) <-> 2 <= tag s n;
  i_green : forall n, tag s n = 1 -> exists f e, green s n = Some f /\ In (Touch e (n, f)) H }.
Lemma upd_same : forall A (f : nat -> A) k x, upd f k x k = x. Proof. intros A f k x. unfold upd. rewrite Nat.eqb_refl. reflexivity. Qed.
Lemma upd_other : forall A (f : nat -> A) k x j, j <> k -> upd f k x j = f j. Proof. intros A f k x j H. unfold upd. apply Nat.eqb_neq in H. rewrite H. reflexivity. Qed.
Lemma NoDup_snoc : forall A (l : list A) x, NoDup l -> ~ In x l -> NoDup (l ++ [x]).
Proof. intros A l x N H. apply (Permutation_NoDup (l := x :: l)); [apply Permutation_cons_append|constructor; assumption]. Qed.
Lemma step_inv : forall active W H s v, Inv active W H s -> Inv active W (H ++ [v]) (step s v).
Proof.
  intros active W H s v [T E N R G].
  assert (EE : forall e, In e (ev_edge v :: edges s) <-> In e (map ev_edge (H ++ [v]))) by (intros e; rewrite map_app, in_app_iff; cbn; rewrite E; tauto).
  destruct v as [e|e [n f]].
  - constructor; cbn [step tag edges green queue]; [|exact EE|exact N|exact R|].
    + intros n. rewrite T, cnt_app. cbn. lia.
    + intros n Hn. destruct (G n Hn) as (f & e' & A & B). exists f, e'. split; [exact A|apply in_or_app; left; exact B].
  - assert (TT : forall j, upd (tag s) n (tag s n + 1) j = (if mem j active then 2 else 0) + cnt j (H ++ [Touch e (n, f)])).
    { intros j. rewrite cnt_app. unfold cnt at 2. cbn [touches flat_map app filter fst]. destruct (Nat.eq_dec j n) as [-> |D]; [rewrite upd_same, Nat.eqb_refl, T; cbn; lia|]. rewrite upd_other by exact D. destruct (Nat.eqb n j) eqn:Q; [apply Nat.eqb_eq in Q; congruence|]. rewrite T. cbn. lia. }
    cbn [step]. unfold touch. destruct (Nat.ltb 2 (tag s n + 1)) eqn:C; [|destruct (Nat.eqb (tag s n + 1) 2) eqn:C2; [|destruct (Nat.eqb (tag s n + 1) 1) eqn:C1]].
    + apply Nat.ltb_lt in C. constructor; cbn [tag edges green queue]; [exact TT|exact EE|exact N| |].
      * intros j. rewrite R. destruct (Nat.eq_dec j n) as [-> |D]; [rewrite upd_same; lia|rewrite upd_other by exact D; reflexivity].
      * intros j Hj. destruct (Nat.eq_dec j n) as [-> |D]; [rewrite upd_same in Hj; lia|]. rewrite upd_other in Hj by exact D. destruct (G j Hj) as (g & e' & A & B). exists g, e'. split; [exact A|apply in_or_app; left; exact B].
    + apply Nat.eqb_eq in C2. constructor; cbn [tag edges green queue]; [exact TT|exact EE| | |].
      * rewrite app_assoc. apply NoDup_snoc; [exact N|]. rewrite R. lia.
      * intros j. rewrite app_assoc, in_app_iff, R. cbn. destruct (Nat.eq_dec j n) as [-> |D]; [rewrite upd_same; split; [lia|auto]|]. rewrite upd_other by exact D. split; [intros [A|[A|[]]]; [exact A|congruence]|auto].
      * intros j Hj. destruct (Nat.eq_dec j n) as [-> |D]; [rewrite upd_same in Hj; lia|]. rewrite upd_other in Hj by exact D. destruct (G j Hj) as (g & e' & A & B). exists g, e'. rewrite upd_other by exact D. split; [exact A|apply in_or_app; left; exact B].
    + apply Nat.eqb_eq in C1. constructor; cbn [tag edges green queue]; [exact TT|exact EE|exact N| |].
      * intros j. rewrite R. destruct (Nat.eq_dec j n) as [-> |D]; [rewrite upd_same; lia|rewrite upd_other by exact D; reflexivity].
      * intros j Hj. destruct (Nat.eq_dec j n) as [-> |D]; [exists f, e; rewrite upd_same; split; [reflexivity|apply in_or_app; right; left; reflexivity]|]. rewrite upd_other in Hj by exact D. destruct (G j Hj) as (g & e' & A & B). exists g, e'. rewrite upd_other by exact D. split; [exact A|apply in_or_app; left; exact B].
    + apply Nat.ltb_ge in C. apply Nat.eqb_neq in C1. apply Nat.eqb_neq in C2. lia.
Qed.
Lemma steps_inv : forall active W l H s, Inv active W H s -> Inv active W (H ++ l) (fold_left step l s).
Proof. intros active W. induction l as [|v l IH]; intros H s I; [rewrite app_nil_r; exact I|]. cbn. replace (H ++ v :: l) with ((H ++ [v]) ++ l) by (rewrite <- app_assoc; reflexivity). apply IH. apply step_inv. exact I. Qed.
(** all the red cells are in any set that obeys the rule *)
Definition two_touches (P : nat -> Prop) (l : list event) : Prop := forall n p q, (exists a b c, touches l = a ++ p :: b ++ q :: c) -> fst p = n -> fst q = n -> P n.
Lemma filter_two : forall (n : nat) (l : list (nat * nat)), 2 <= length (filter (fun nf => Nat.eqb (fst nf) n) l) -> exists a b c p q, l = a ++ p :: b ++ q :: c /\ fst p = n /\ fst q = n.
Proof.
  intros n. induction l as [|x l IH]; intros H; [cbn in H; lia|]. cbn [filter] in H. destruct (Nat.eqb (fst x) n) eqn:E.
  - apply Nat.eqb_eq in E. cbn in H. assert (K : 1 <= length (filter (fun nf => Nat.eqb (fst nf) n) l)) by lia. clear IH H.
    assert (G : exists b q c, l = b ++ q :: c /\ fst q = n).
    { induction l as [|y l IHl]; [cbn in K; lia|]. cbn [filter] in K. destruct (Nat.eqb (fst y) n) eqn:Ey; [apply Nat.eqb_eq in Ey; exists [], y, l; auto|]. destruct (IHl K) as (b & q & c & -> & Q). exists (y :: b), q, c. auto. }
    destruct G as (b & q & c & -> & Q). exists [], b, c, x, q. auto.
  - destruct (IH H) as (a & b & c & p & q & -> & A & B). exists (x :: a), b, c, p, q. auto.
Qed.
Lemma step_reach : forall (P : nat -> Prop) active W H s v, Inv active W H s -> two_touches P (H ++ [v]) -> (forall n, In n (W ++ queue s) -> P n) -> forall n, In n (W ++ queue (step s v)) -> P n.
Proof.
  intros P active W H s v I Tw A n Hn. pose proof (step_inv active W H s v I) as I'. destruct (in_dec Nat.eq_dec n (W ++ queue s)) as [K|K]; [apply A; exact K|].
  assert (T1 : ~ 2 <= tag s n) by (intros Q; apply K; apply (i_red _ _ _ _ I); exact Q). apply (i_red _ _ _ _ I') in Hn. rewrite (i_tag _ _ _ _ I') in Hn. rewrite (i_tag _ _ _ _ I) in T1. destruct (mem n active); [lia|]. cbn in Hn.
  destruct (filter_two n (touches (H ++ [v])) Hn) as (a & b & c & p & q & E & Hp & Hq). apply (Tw n p q); [exists a, b, c; exact E|exact Hp|exact Hq].
Qed.
Lemma two_prefix : forall P a b, two_touches P (a ++ b) -> two_touches P a.
Proof. intros P a b H n p q (x & y & z & E) Hp Hq. apply (H n p q); [|exact Hp|exact Hq]. exists x, y, (z ++ touches b). rewrite touches_app, E, <- app_assoc. cbn. rewrite <- app_assoc. reflexivity. Qed.
Lemma steps_reach : forall (P : nat -> Prop) active W l H s, Inv active W H s -> two_touches P (H ++ l) -> (forall n, In n (W ++ queue s) -> P n) -> forall n, In n (W ++ queue (fold_left step l s)) -> P n.
Proof.
  intros P active W. induction l as [|v l IH]; intros H s I Tw A n Hn; [apply A; exact Hn|]. cbn in Hn. assert (Tw' : two_touches P ((H ++ [v]) ++ l)) by (rewrite <- app_assoc; exact Tw). apply (IH (H ++ [v]) (step s v) (step_inv _ _ _ _ _ I) Tw'); [|exact Hn].
  apply (step_reach P active W H s v I (two_prefix _ _ _ Tw') A).
Qed.
Lemma touch_cells : forall cs k v, In v (events cs k) -> match v with Touch e (n, f) => exists i, i < 3 /\ e = face (cell_at cs k) i /\ In (n, f) (adjacent cs k i) | Border e => exists i, i < 3 /\ e = face (cell_at cs k) i end.
Proof.
  intros cs k v H. unfold events in H. destruct (is_triangle _); [|destruct H]. apply in_flat_map in H. destruct H as (i & Hi & H). assert (L : i < 3) by (cbn in Hi; intuition lia). unfold events_on in H. destruct (adjacent cs k i) as [|x ns] eqn:E; [destruct H as [<- |[]]; exists i; auto|].
  apply in_map_iff in H. destruct H as ([n f] & <- & H). exists i. split; [exact L|split; [reflexivity|rewrite E; exact H]].
Qed.
Lemma queue_bound : forall (cs : list cell) l s, (forall n, In n (queue s) -> n < length cs) -> (forall v, In v l -> match v with Touch _ (n, _) => n < length cs | Border _ => True end) -> forall n, In n (queue (fold_left step l s)) -> n < length cs.
Proof.
  intros cs. induction l as [|v l IH]; intros s Q L n Hn; [apply Q; exact Hn|]. cbn in Hn. apply (IH (step s v)); [|intros w Hw; apply L; right; exact Hw|exact Hn].
  intros j Hj. pose proof (L v (or_introl eq_refl)) as Lv. destruct v as [e|e [k f]]; [apply Q; exact Hj|]. cbn [step] in Hj. unfold touch in Hj. destruct (Nat.ltb 2 _); [apply Q; exact Hj|]. destruct (Nat.eqb _ 2); [|destruct (Nat.eqb _ 1); apply Q; exact Hj]. cbn [queue] in Hj. apply in_app_or in Hj. destruct Hj as [Hj|[<- |[]]]; [apply Q; exact Hj|exact Lv].
Qed.
Lemma bounded_length : forall (l : list nat) n, NoDup l -> (forall x, In x l -> x < n) -> length l <= n.
Proof. intros l n N B. rewrite <- (seq_length n 0). apply NoDup_incl_length; [exact N|]. intros x Hx. apply in_seq. specialize (B x Hx). lia. Qed.
Lemma spread_right : forall cs active fuel W s, Inv active W (flat_map (events cs) W) s -> (forall n, In n (W ++ queue s) -> n < length cs) -> length cs <= length W + fuel ->
  exists s' W' r, W' = W ++ r /\ spread cs fuel s = Some s' /\ Inv active W' (flat_map (events cs) W') s' /\ queue s' = [] /\ (forall n, In n W' -> n < length cs) /\
    forall P : nat -> Prop, (forall W1 r1, W' = W1 ++ r1 -> (forall k, In k W1 -> P k) -> two_touches P (flat_map (events cs) W1)) -> (forall n, In n (W ++ queue s) -> P n) -> forall n, In n W' -> P n.
Proof.
  intros cs active. induction fuel as [|fuel IH]; intros W s I B L.
  - assert (Q : queue s = []).
    { pose proof (bounded_length _ _ (i_nodup _ _ _ _ I) B) as K. rewrite app_length in K. destruct (queue s); [reflexivity|cbn in K; lia]. }
    exists s, W, []. unfold spread. rewrite Q, app_nil_r. split; [reflexivity|split; [reflexivity|split; [exact I|split; [reflexivity|split]]]]; [intros n Hn; apply B; apply in_or_app; left; exact Hn|]. intros P _ A n Hn. apply A. exact Hn.
  - cbn [spread]. destruct (queue s) as [|k q] eqn:Q.
    + exists s, W, []. rewrite app_nil_r. split; [reflexivity|split; [reflexivity|split; [exact I|split; [exact Q|split]]]]; [intros n Hn; apply B; apply in_or_app; left; exact Hn|]. intros P _ A n Hn. apply A. exact Hn.
    + assert (I0 : Inv active (W ++ [k]) (flat_map (events cs) W) (State (tag s) (edges s) (green s) q)).
      { destruct I as [T E N R G]. rewrite Q in N, R. constructor; cbn [tag edges green queue]; [exact T|exact E|rewrite <- app_assoc; exact N|intros n; rewrite <- app_assoc; apply R|exact G]. }
      pose proof (steps_inv active (W ++ [k]) (events cs k) _ _ I0) as I1. rewrite <- visit_events in I1.
      assert (FM : flat_map (events cs) W ++ events cs k = flat_map (events cs) (W ++ [k])) by (rewrite flat_map_app; cbn; rewrite app_nil_r; reflexivity). rewrite FM in I1.
      assert (B1 : forall n, In n ((W ++ [k]) ++ queue (visit cs k (State (tag s) (edges s) (green s) q))) -> n < length cs).
      { intros n Hn. apply in_app_or in Hn. destruct Hn as [Hn|Hn]; [apply B; apply in_app_or in Hn; apply in_or_app; destruct Hn as [Hn|[<- |[]]]; [left; exact Hn|right; left; reflexivity]|].
        rewrite visit_events in Hn. revert Hn. apply (queue_bound cs); [intros j Hj; apply B; apply in_or_app; right; right; exact Hj|]. intros v Hv. pose proof (touch_cells cs k v Hv) as X. destruct v as [e|e [j f]]; [exact Logic.I|]. destruct X as (i & _ & _ & X). apply in_adjacent in X. apply X. }
      destruct (IH (W ++ [k]) _ I1 B1) as (s' & W' & r & EW & S1 & I2 & Q2 & B2 & R2); [rewrite app_length; cbn; lia|].
      exists s', W', (k :: r). split; [rewrite EW, <- app_assoc; reflexivity|]. split; [exact S1|split; [exact I2|split; [exact Q2|split; [exact B2|]]]]. intros P Tw A. apply R2; [exact Tw|].
      assert (Tw1 : two_touches P (flat_map (events cs) (W ++ [k]))) by (apply (Tw (W ++ [k]) r EW); intros j Hj; apply A; apply in_app_or in Hj; apply in_or_app; destruct Hj as [Hj|[<- |[]]]; [left; exact Hj|right; left; reflexivity]). clear Tw. rename Tw1 into Tw. intros n Hn. rewrite visit_events in Hn. revert n Hn. apply (steps_reach P active (W ++ [k]) (events cs k) _ _ I0); [rewrite FM; exact Tw|]. intros n Hn. apply A. rewrite <- app_assoc in Hn. exact Hn.
Qed.
Lemma start_inv : forall active, NoDup active -> Inv active [] [] (start active).
Proof.
  intros active N. constructor; cbn [start tag edges green queue]; [intros n; fold (mem n active); destruct (mem n active); reflexivity|intros e; reflexivity|exact N| |].
  - intros n. cbn [app]. fold (mem n active). rewrite <- mem_in. destruct (mem n active); split; intros H; try lia; try reflexivity; discriminate.
  - intros n H. fold (mem n active) in H. destruct (mem n active); discriminate.
Qed.
Lemma spread_start : forall cs active, NoDup active -> (forall n, In n active -> n < length cs) ->
  exists s W, spread cs (length cs) (start active) = Some s /\ Inv active W (flat_map (events cs) W) s /\ queue s = [] /\ (forall n, In n W -> n < length cs) /\
    forall P : nat -> Prop, (forall W1 r1, W = W1 ++ r1 -> (forall k, In k W1 -> P k) -> two_touches P (flat_map (events cs) W1)) -> (forall n, In n active -> P n) -> forall n, In n W -> P n.
Proof.
  intros cs active N B. destruct (spread_right cs active (length cs) [] (start active) (start_inv active N) B) as (s & W & r & _ & H); [cbn; lia|]. exists s, W. exact H.
Qed.
Section Spread.
  Variables (m : mesh) (active W : list nat) (s : state).
  Let cs := m_cells m.
  Hypothesis T : triangulated m.
  Hypothesis I : Inv active W (flat_map (events cs) W) s.
  Hypothesis Q : queue s = [].
  Hypothesis B : forall n, In n W -> n < length cs.
  Lemma red_in : forall n, 2 <= tag s n <-> In n W.
  Proof. intros n. rewrite <- (i_red _ _ _ _ I), Q, app_nil_r. reflexivity. Qed.
  Lemma W_nodup : NoDup W.
  Proof. pose proof (i_nodup _ _ _ _ I) as H. rewrite Q, app_nil_r in H. exact H. Qed.
  Lemma events_tri : forall k, k < length cs -> events cs k = flat_map (events_on cs k) [0; 1; 2].
  Proof. intros k H. unfold events. destruct (at_tri m k T H) as (E & _). fold cs in E. rewrite E. reflexivity. Qed.
  Lemma edge_iff : forall e, In e (edges s) <-> exists k i, In k W /\ i < 3 /\ e = face (cell_at cs k) i.
  Proof.
    intros e. rewrite (i_edges _ _ _ _ I). rewrite in_map_iff. split.
    - intros (v & <- & H). apply in_flat_map in H. destruct H as (k & Hk & H). pose proof (touch_cells cs k v H) as X. destruct v as [e|e [n f]]; destruct X as (i & L & X); exists k, i; [auto|]. destruct X as [X _]. auto.
    - intros (k & i & Hk & L & ->). assert (Hi : In i [0; 1; 2]) by (cbn; lia).
      assert (G : exists v, In v (events_on cs k i) /\ ev_edge v = face (cell_at cs k) i) by (unfold events_on; destruct (adjacent cs k i) as [|x ns]; [eexists; split; [left; reflexivity|reflexivity]|eexists; split; [left; reflexivity|reflexivity]]).
      destruct G as (v & Hv & E). exists v. split; [exact E|]. apply in_flat_map. exists k. split; [exact Hk|]. rewrite events_tri by (apply B; exact Hk). apply in_flat_map. exists i. auto.
  Qed.
  Lemma touch_iff : forall n f, In (n, f) (touches (flat_map (events cs) W)) <-> exists k i, In k W /\ i < 3 /\ In (n, f) (adjacent cs k i).
  Proof.
    intros n f. rewrite in_touches. split.
    - intros (e & H). apply in_flat_map in H. destruct H as (k & Hk & H). destruct (touch_cells cs k _ H) as (i & L & _ & X). exists k, i. auto.
    - intros (k & i & Hk & L & H). exists (face (cell_at cs k) i). apply in_flat_map. exists k. split; [exact Hk|]. rewrite events_tri by (apply B; exact Hk). apply in_flat_map. exists i. split; [cbn; lia|]. unfold events_on. destruct (adjacent cs k i) as [|x ns]; [destruct H|]. apply in_map. exact H.
  Qed.
  Hypothesis M : manifold m.
  Lemma touches_nodup : NoDup (touches (flat_map (events cs) W)).
  Proof.
    assert (E : touches (flat_map (events cs) W) = flat_map (fun k => flat_map (fun i => adjacent cs k i) [0; 1; 2]) W).
    { revert B. clear - T. induction W as [|k w IH]; intros B; [reflexivity|]. cbn [flat_map]. rewrite touches_app. rewrite IH by (intros n Hn; apply B; right; exact Hn). f_equal. rewrite events_tri by (apply B; left; reflexivity). cbn [flat_map]. rewrite !touches_app.
      assert (G : forall i, touches (events_on cs k i) = adjacent cs k i) by (intros i; unfold events_on; destruct (adjacent cs k i) as [|x ns]; [reflexivity|]; induction (x :: ns) as [|y l IHl]; [reflexivity|cbn; f_equal; exact IHl]).
      rewrite !G. reflexivity. }
    rewrite E. apply NoDup_flat_map; [apply W_nodup| |].
    - intros k Hk. apply NoDup_flat_map; [repeat constructor; cbn; intuition lia|intros i _; apply adjacent_nodup|]. intros i j [n f] Hi Hj H1 H2. apply in_adjacent in H1. apply in_adjacent in H2. destruct H1 as (_ & _ & _ & H1), H2 as (_ & _ & _ & H2).
      apply (face_inj m (cell_at cs k)); [apply at_tri; [exact T|apply B; exact Hk]|cbn in Hi; lia|cbn in Hj; lia|congruence].
    - intros k j [n f] Hk Hj H1 H2. apply in_flat_map in H1. apply in_flat_map in H2. destruct H1 as (i & Hi & H1), H2 as (i' & Hi' & H2). apply in_adjacent in H1. apply in_adjacent in H2. destruct H1 as (A1 & A2 & A3 & A4), H2 as (C1 & C2 & C3 & C4).
      destruct (at_most_two m (face (cell_at cs n) f) (n, f) (k, i) (j, i') T M) as [D|[D|D]]; try (injection D; intros; congruence).
      + apply in_faces_on. auto.
      + apply in_faces_on. split; [apply B; exact Hk|split; [cbn in Hi; lia|symmetry; exact A4]].
      + apply in_faces_on. split; [apply B; exact Hj|split; [cbn in Hi'; lia|symmetry; exact C4]].
  Qed.
  Lemma beside_adjacent : forall n f k, n < length cs -> k < length cs -> (beside m n f k <-> exists i, i < 3 /\ In (n, f) (adjacent cs k i)).
  Proof.
    intros n f k Hn Hk. destruct (at_tri m n T Hn) as (_ & x & y & z & En & _). destruct (at_tri m k T Hk) as (_ & x' & y' & z' & Ek & _). split.
    - intros (D & cn & ck & g & a & b & Nn & Nk & H1 & H2). apply at_nth in Nn. apply at_nth in Nk. subst cn ck. apply (has_edge_face _ _ _ _ _ _ _ En) in H1. apply (has_edge_face _ _ _ _ _ _ _ Ek) in H2. exists g. split; [apply H2|]. apply in_adjacent. split; [exact D|split; [exact Hn|split; [apply H1|destruct H1 as [_ H1], H2 as [_ H2]; unfold cs; congruence]]].
    - intros (i & L & H). apply in_adjacent in H. destruct H as (D & _ & F & E). split; [exact D|]. exists (cell_at cs n), (cell_at cs k), i, (corner (cell_at cs n) f), (corner (cell_at cs n) (f + 1)). split; [apply at_some; exact Hn|split; [apply at_some; exact Hk|split]].
      + apply (has_edge_face _ _ _ _ _ _ _ En). split; [exact F|reflexivity].
      + apply (has_edge_face _ _ _ _ _ _ _ Ek). split; [exact L|symmetry; exact E].
  Qed.
  Lemma touched_beside : forall n f, In (n, f) (touches (flat_map (events cs) W)) <-> exists k, In k W /\ beside m n f k.
  Proof.
    intros n f. rewrite touch_iff. split.
    - intros (k & i & Hk & L & H). exists k. split; [exact Hk|]. apply beside_adjacent; [apply in_adjacent in H; apply H|apply B; exact Hk|exists i; auto].
    - intros (k & Hk & H). assert (Hn : n < length cs) by (destruct H as (_ & cn & ck & g & a & b & Nn & _); apply nth_error_Some; fold cs in Nn; rewrite Nn; discriminate). apply beside_adjacent in H; [|exact Hn|apply B; exact Hk]. destruct H as (i & L & H). exists k, i. auto.
  Qed.
  Lemma cnt_two : forall n, 2 <= cnt n (flat_map (events cs) W) <-> exists f g k l, f <> g /\ In k W /\ In l W /\ beside m n f k /\ beside m n g l.
  Proof.
    intros n. pose proof touches_nodup as N. split.
    - intros H. destruct (filter_two n _ H) as (a & b & c & [n1 f] & [n2 g] & E & E1 & E2). cbn in E1, E2. subst n1 n2.
      assert (If : In (n, f) (touches (flat_map (events cs) W))) by (rewrite E; apply in_or_app; right; left; reflexivity). assert (Ig : In (n, g) (touches (flat_map (events cs) W))) by (rewrite E; apply in_or_app; right; right; apply in_or_app; right; left; reflexivity).
      apply touched_beside in If. apply touched_beside in Ig. destruct If as (k & Hk & Bk), Ig as (l & Hl & Bl). exists f, g, k, l. split; [|auto]. intros ->. rewrite E in N. apply NoDup_remove_2 in N. apply N. apply in_or_app. right. apply in_or_app. right. left. reflexivity.
    - intros (f & g & k & l & D & Hk & Hl & Bk & Bl). unfold cnt. assert (If : In (n, f) (touches (flat_map (events cs) W))) by (apply touched_beside; exists k; auto). assert (Ig : In (n, g) (touches (flat_map (events cs) W))) by (apply touched_beside; exists l; auto).
      assert (L : length [(n, f); (n, g)] <= length (filter (fun nf => Nat.eqb (fst nf) n) (touches (flat_map (events cs) W)))); [|exact L]. apply NoDup_incl_length; [repeat constructor; cbn; intuition congruence|]. intros x [<- |[<- |[]]]; apply filter_In; cbn [fst]; rewrite Nat.eqb_refl; auto.
  Qed.
  Lemma red_rule : forall n, In n W <-> rule m active (fun k => In k W) n.
  Proof.
    intros n. rewrite <- red_in, (i_tag _ _ _ _ I). unfold rule. destruct (mem n active) eqn:E; [apply mem_in in E; split; [auto|lia]|]. cbn. rewrite cnt_two. split; [auto|]. intros [H|H]; [apply mem_in in H; congruence|exact H].
  Qed.
  (** which faces are split *)
  Lemma split_iff : forall n f, n < length cs -> f < 3 -> (In (face (cell_at cs n) f) (edges s) <-> 2 <= tag s n \/ (tag s n = 1 /\ green s n = Some f)).
  Proof.
    intros n f Hn Hf. rewrite edge_iff. pose proof touches_nodup as N. split.
    - intros (k & i & Hk & L & E). destruct (Nat.eq_dec n k) as [-> |D]; [left; apply red_in; exact Hk|]. assert (X : In (n, f) (touches (flat_map (events cs) W))) by (apply touch_iff; exists k, i; split; [exact Hk|split; [exact L|apply in_adjacent; auto]]).
      destruct (le_lt_dec 2 (tag s n)) as [Y|Y]; [left; exact Y|right]. assert (C : 1 <= cnt n (flat_map (events cs) W)).
      { unfold cnt. assert (L1 : length [(n, f)] <= length (filter (fun nf => Nat.eqb (fst nf) n) (touches (flat_map (events cs) W)))); [|exact L1]. apply NoDup_incl_length; [repeat constructor; cbn; intuition congruence|]. intros x [<- |[]]; apply filter_In; cbn [fst]; rewrite Nat.eqb_refl; auto. }
      pose proof (i_tag _ _ _ _ I n) as TG. assert (T1 : tag s n = 1) by (destruct (mem n active); lia). split; [exact T1|]. destruct (i_green _ _ _ _ I n T1) as (g & e & G & H). rewrite G. f_equal. destruct (Nat.eq_dec g f) as [Z|Z]; [exact Z|exfalso].
      assert (Z2 : 2 <= cnt n (flat_map (events cs) W)); [|destruct (mem n active); lia]. unfold cnt. assert (L1 : length [(n, f); (n, g)] <= length (filter (fun nf => Nat.eqb (fst nf) n) (touches (flat_map (events cs) W)))); [|exact L1]. apply NoDup_incl_length; [repeat constructor; cbn; intuition congruence|].
      assert (Xg : In (n, g) (touches (flat_map (events cs) W))) by (apply in_touches; exists e; exact H). intros x [<- |[<- |[]]]; apply filter_In; cbn [fst]; rewrite Nat.eqb_refl; auto.
    - intros [H|[H1 H2]]; [exists n, f; split; [apply red_in; exact H|auto]|]. destruct (i_green _ _ _ _ I n H1) as (g & e & G & H). rewrite G in H2. injection H2 as ->. assert (X : In (n, f) (touches (flat_map (events cs) W))) by (apply in_touches; exists e; exact H).
      apply touch_iff in X. destruct X as (k & i & Hk & L & X). exists k, i. apply in_adjacent in X. split; [exact Hk|split; [exact L|apply X]].
  Qed.
  Lemma green_face : forall n, tag s n = 1 -> exists f, green s n = Some f /\ f < 3.
  Proof.
    intros n H1. destruct (i_green _ _ _ _ I n H1) as (g & e & G & H). exists g. split; [exact G|]. assert (X : In (n, g) (touches (flat_map (events cs) W))) by (apply in_touches; exists e; exact H). apply touch_iff in X. destruct X as (k & i & Hk & L & X). apply in_adjacent in X. apply X.
  Qed.
  Lemma green_iff : forall n, n < length cs -> (tag s n = 1 <-> ~ In n W /\ exists f k, In k W /\ beside m n f k).
  Proof.
    intros n Hn. split.
    - intros H. split; [rewrite <- red_in; lia|]. destruct (i_green _ _ _ _ I n H) as (g & e & G & K). assert (X : In (n, g) (touches (flat_map (events cs) W))) by (apply in_touches; exists e; exact K). apply touched_beside in X. destruct X as (k & Hk & X). exists g, k. auto.
    - intros [H (f & k & Hk & X)]. rewrite <- red_in in H. assert (Y : In (n, f) (touches (flat_map (events cs) W))) by (apply touched_beside; exists k; auto).
      assert (C : 1 <= cnt n (flat_map (events cs) W)).
      { unfold cnt. assert (L1 : length [(n, f)] <= length (filter (fun nf => Nat.eqb (fst nf) n) (touches (flat_map (events cs) W)))); [|exact L1]. apply NoDup_incl_length; [repeat constructor; cbn; intuition congruence|]. intros x [<- |[]]; apply filter_In; cbn [fst]; rewrite Nat.eqb_refl; auto. }
      pose proof (i_tag _ _ _ _ I n) as TG. destruct (mem n active); lia.
  Qed.
End Spread.
Lemma closed_two : forall m active W s (P : nat -> Prop), triangulated m -> manifold m -> Inv active W (flat_map (events (m_cells m)) W) s -> queue s = [] -> (forall n, In n W -> n < length (m_cells m)) -> (forall n, rule m active P n -> P n) ->
  forall W1 r1, W = W1 ++ r1 -> (forall k, In k W1 -> P k) -> two_touches P (flat_map (events (m_cells m)) W1).
Proof.
  intros m active W s P T M I Q B C W1 r1 E A n [n1 f] [n2 g] (a & b & c & EE) E1 E2. cbn in E1, E2. subst n1 n2. pose proof (touches_nodup m active W s T I Q B M) as N. rewrite E, flat_map_app, touches_app, EE in N.
  assert (B1 : forall n, In n W1 -> n < length (m_cells m)) by (intros j Hj; apply B; rewrite E; apply in_or_app; left; exact Hj).
  assert (If : In (n, f) (touches (flat_map (events (m_cells m)) W1))) by (rewrite EE; apply in_or_app; right; left; reflexivity). assert (Ig : In (n, g) (touches (flat_map (events (m_cells m)) W1))) by (rewrite EE; apply in_or_app; right; right; apply in_or_app; right; left; reflexivity).
  apply touched_beside in If; [|exact T|exact B1]. apply touched_beside in Ig; [|exact T|exact B1]. destruct If as (k & Hk & Bk), Ig as (l & Hl & Bl). apply C. right. exists f, g, k, l. split; [|auto].
  intros ->. rewrite <- app_assoc in N. cbn in N. apply NoDup_remove_2 in N. apply N. apply in_or_app. right. apply in_or_app. left. apply in_or_app. right. left. reflexivity.
Qed.

(* ---------------------------------------------------------- new vertices *)
Lemma place_some : forall e l, In e l -> exists p, place e l = Some p.
Proof. intros e. induction l as [|x l IH]; intros H; [destruct H|]. cbn. destruct (key_eqb x e) eqn:E; [eexists; reflexivity|]. destruct H as [-> |H]; [rewrite (proj2 (key_eqb_eq e e) eq_refl) in E; discriminate|]. destruct (IH H) as (p & ->). eexists; reflexivity. Qed.
Lemma place_nth : forall e l p, place e l = Some p -> nth_error l p = Some e.
Proof. intros e. induction l as [|x l IH]; intros p H; [discriminate|]. cbn in H. destruct (key_eqb x e) eqn:E; [apply key_eqb_eq in E; injection H as <-; subst; reflexivity|]. destruct (place e l) as [q|]; [|discriminate]. injection H as <-. cbn. apply IH. reflexivity. Qed.
Lemma new_vertex_some : forall m es e, In e es -> exists v, new_vertex m es e = Some v.
Proof. intros m es e H. unfold new_vertex. destruct (place_some e es H) as (p & ->). eexists; reflexivity. Qed.
Lemma new_vertex_in : forall m es e v, new_vertex m es e = Some v -> In e es /\ m_next m <= v /\ v < m_next m + length es /\ nth_error es (v - m_next m) = Some e.
Proof.
  intros m es e v H. unfold new_vertex in H. destruct (place e es) as [p|] eqn:E; [|discriminate]. cbn [option_map] in H. injection H as H. apply place_nth in E. assert (p < length es) by (apply nth_error_Some; rewrite E; discriminate). replace (v - m_next m) with p by lia. split; [apply (nth_error_In _ _ E)|split; [lia|split; [lia|exact E]]].
Qed.
Lemma new_vertex_inj : forall m es e e' v, new_vertex m es e = Some v -> new_vertex m es e' = Some v -> e = e'.
Proof. intros m es e e' v H H'. apply new_vertex_in in H. apply new_vertex_in in H'. destruct H as (_ & _ & _ & H), H' as (_ & _ & _ & H'). congruence. Qed.
Open Scope R_scope.
Definition mid (a b : vec) : vec := vscale (/ 2) (vadd a b).
Lemma mid_sym : forall a b, mid a b = mid b a. Proof. intros [a1 a2 a3] [b1 b2 b3]. unfold mid, vscale, vadd. cbn. f_equal; ring. Qed.
Lemma new_points_old : forall m es i, (i < m_next m)%nat -> new_points m es i = m_pts m i.
Proof. intros m es i H. unfold new_points. apply Nat.ltb_lt in H. rewrite H. reflexivity. Qed.
Lemma new_points_mid : forall m es a b v, new_vertex m es (edge a b) = Some v -> new_points m es v = mid (m_pts m a) (m_pts m b).
Proof.
  intros m es a b v H. apply new_vertex_in in H. destruct H as (_ & L & _ & E). unfold new_points. destruct (Nat.ltb v (m_next m)) eqn:Q; [apply Nat.ltb_lt in Q; lia|]. rewrite E. unfold edge. cbv beta iota.
  replace (vadd (vadd vzero (m_pts m (Nat.min a b))) (m_pts m (Nat.max a b))) with (vadd (m_pts m (Nat.min a b)) (m_pts m (Nat.max a b))) by (destruct (m_pts m (Nat.min a b)), (m_pts m (Nat.max a b)); unfold vadd, vzero; cbn; f_equal; ring).
  destruct (Nat.le_ge_cases a b) as [K|K]; [rewrite Nat.min_l, Nat.max_r by lia; reflexivity|]. rewrite Nat.min_r, Nat.max_l by lia. apply mid_sym.
Qed.

(* ---------------------------------------------------------- points and areas *)
Ltac vecs := repeat match goal with p : vec |- _ => destruct p as [? ? ?] end; unfold mid, area2, cross, vadd, vsub, vscale, vzero in *; cbn [vx vy vz] in *.
Lemma convex : forall a b c x y z p, in_triangle a b c x -> in_triangle a b c y -> in_triangle a b c z -> in_triangle x y z p -> in_triangle a b c p.
Proof.
  intros a b c x y z p (s1 & t1 & u1 & A1 & A2 & A3 & A4 & ->) (s2 & t2 & u2 & B1 & B2 & B3 & B4 & ->) (s3 & t3 & u3 & C1 & C2 & C3 & C4 & ->) (s & t & u & D1 & D2 & D3 & D4 & ->).
  exists (s * s1 + t * s2 + u * s3), (s * t1 + t * t2 + u * t3), (s * u1 + t * u2 + u * u3).
  assert (P : forall x y z, 0 <= x -> 0 <= y -> 0 <= z -> 0 <= s * x + t * y + u * z) by (intros x y z X Y Z; pose proof (Rmult_le_pos _ _ D1 X); pose proof (Rmult_le_pos _ _ D2 Y); pose proof (Rmult_le_pos _ _ D3 Z); lra).
  split; [apply P; assumption|split; [apply P; assumption|split; [apply P; assumption|split]]].
  - replace (_ + _ + _) with (s * (s1 + t1 + u1) + t * (s2 + t2 + u2) + u * (s3 + t3 + u3)) by ring. rewrite A4, B4, C4. lra.
  - vecs. f_equal; ring.
Qed.
Lemma corner_a : forall a b c, in_triangle a b c a. Proof. intros a b c. exists 1, 0, 0. repeat split; try lra. vecs. f_equal; ring. Qed.
Lemma corner_b : forall a b c, in_triangle a b c b. Proof. intros a b c. exists 0, 1, 0. repeat split; try lra. vecs. f_equal; ring. Qed.
Lemma corner_c : forall a b c, in_triangle a b c c. Proof. intros a b c. exists 0, 0, 1. repeat split; try lra. vecs. f_equal; ring. Qed.
Lemma mid_ab : forall a b c, in_triangle a b c (mid a b). Proof. intros a b c. exists (/ 2), (/ 2), 0. repeat split; try lra. vecs. f_equal; field. Qed.
Lemma mid_bc : forall a b c, in_triangle a b c (mid b c). Proof. intros a b c. exists 0, (/ 2), (/ 2). repeat split; try lra. vecs. f_equal; field. Qed.
Lemma mid_ca : forall a b c, in_triangle a b c (mid c a). Proof. intros a b c. exists (/ 2), 0, (/ 2). repeat split; try lra. vecs. f_equal; field. Qed.
Definition mid3 (a b c : vec) : vec := vscale (/ 3) (vadd (vadd (vadd vzero a) b) c).
Lemma mid3_in : forall a b c, in_triangle a b c (mid3 a b c). Proof. intros a b c. exists (/ 3), (/ 3), (/ 3). unfold mid3. repeat split; try lra. vecs. f_equal; field. Qed.
Lemma red_points : forall a b c p, in_triangle a b c p <-> in_triangle (mid a b) (mid b c) (mid c a) p \/ in_triangle b (mid b c) (mid a b) p \/ in_triangle c (mid c a) (mid b c) p \/ in_triangle a (mid a b) (mid c a) p.
Proof.
  intros a b c p. split.
  - intros (s & t & u & S0 & T0 & U0 & E & ->). destruct (Rle_dec (/ 2) s) as [H|H]; [|destruct (Rle_dec (/ 2) t) as [H1|H1]; [|destruct (Rle_dec (/ 2) u) as [H2|H2]]].
    + right. right. right. exists (2 * s - 1), (2 * t), (2 * u). repeat split; try lra. replace s with (1 - t - u) by lra. vecs. f_equal; field.
    + right. left. exists (2 * t - 1), (2 * u), (2 * s). repeat split; try lra. replace t with (1 - s - u) by lra. vecs. f_equal; field.
    + right. right. left. exists (2 * u - 1), (2 * s), (2 * t). repeat split; try lra. replace u with (1 - s - t) by lra. vecs. f_equal; field.
    + left. exists (1 - 2 * u), (1 - 2 * s), (1 - 2 * t). repeat split; try lra. replace u with (1 - s - t) by lra. vecs. f_equal; field.
  - pose proof (mid_ab a b c). pose proof (mid_bc a b c). pose proof (mid_ca a b c). pose proof (corner_a a b c). pose proof (corner_b a b c). pose proof (corner_c a b c).
    intros [H'|[H'|[H'|H']]]; (eapply convex; [| | |exact H']; assumption).
Qed.
Lemma green_points : forall a b c p, in_triangle a b c p <-> in_triangle (mid a b) b c p \/ in_triangle (mid a b) c a p.
Proof.
  intros a b c p. split.
  - intros (s & t & u & S0 & T0 & U0 & E & ->). destruct (Rle_dec s t) as [H|H].
    + left. exists (2 * s), (t - s), u. repeat split; try lra. vecs. f_equal; field.
    + right. exists (2 * t), u, (s - t). repeat split; try lra. vecs. f_equal; field.
  - pose proof (mid_ab a b c). pose proof (corner_a a b c). pose proof (corner_b a b c). pose proof (corner_c a b c). intros [H'|H']; (eapply convex; [| | |exact H']; assumption).
Qed.
Lemma ternary_points : forall a b c p, in_triangle a b c p <-> in_triangle (mid3 a b c) a b p \/ in_triangle (mid3 a b c) b c p \/ in_triangle (mid3 a b c) c a p.
Proof.
  intros a b c p. split.
  - intros (s & t & u & S0 & T0 & U0 & E & ->). unfold mid3. destruct (Rle_dec u s) as [H|H], (Rle_dec u t) as [H1|H1], (Rle_dec s t) as [H2|H2];
    first [ left; exists (3 * u), (s - u), (t - u); repeat split; try lra; vecs; f_equal; field
          | right; left; exists (3 * s), (t - s), (u - s); repeat split; try lra; vecs; f_equal; field
          | right; right; exists (3 * t), (u - t), (s - t); repeat split; try lra; vecs; f_equal; field ].
  - pose proof (mid3_in a b c). pose proof (corner_a a b c). pose proof (corner_b a b c). pose proof (corner_c a b c). intros [H'|[H'|H']]; (eapply convex; [| | |exact H']; assumption).
Qed.
Lemma triangle_turn : forall a b c p, in_triangle a b c p <-> in_triangle b c a p.
Proof. intros a b c p. split; intros (s & t & u & S0 & T0 & U0 & E & ->); [exists t, u, s|exists u, s, t]; (split; [lra|split; [lra|split; [lra|split; [lra|]]]]); vecs; f_equal; ring. Qed.
Lemma area_turn : forall a b c, area2 b c a = area2 a b c. Proof. intros a b c. vecs. f_equal; ring. Qed.
Lemma red_area : forall a b c, area2 (mid a b) (mid b c) (mid c a) = vscale (/ 4) (area2 a b c) /\ area2 b (mid b c) (mid a b) = vscale (/ 4) (area2 a b c) /\ area2 c (mid c a) (mid b c) = vscale (/ 4) (area2 a b c) /\ area2 a (mid a b) (mid c a) = vscale (/ 4) (area2 a b c).
Proof. intros a b c. vecs. repeat split; f_equal; field. Qed.
Lemma green_area : forall a b c, area2 (mid a b) b c = vscale (/ 2) (area2 a b c) /\ area2 (mid a b) c a = vscale (/ 2) (area2 a b c).
Proof. intros a b c. vecs. repeat split; f_equal; field. Qed.
Lemma ternary_area : forall a b c, area2 (mid3 a b c) a b = vscale (/ 3) (area2 a b c) /\ area2 (mid3 a b c) b c = vscale (/ 3) (area2 a b c) /\ area2 (mid3 a b c) c a = vscale (/ 3) (area2 a b c).
Proof. intros a b c. unfold mid3. vecs. repeat split; f_equal; field. Qed.
Lemma in_cell_tri : forall pts c x y z p, c_verts c = [x; y; z] -> (in_cell pts c p <-> in_triangle (pts x) (pts y) (pts z) p).
Proof. intros pts c x y z p E. unfold in_cell. rewrite E. split; [intros (x' & y' & z' & Q & H); injection Q as <- <- <-; exact H|intros H; exists x, y, z; auto]. Qed.
Lemma in_cells_cons : forall pts c l p, in_cells pts (c :: l) p <-> in_cell pts c p \/ in_cells pts l p.
Proof. intros pts c l p. unfold in_cells. split; [intros (d & [-> |H] & K); [left; exact K|right; exists d; auto]|intros [H|(d & H & K)]; [exists c; split; [left; reflexivity|exact H]|exists d; split; [right; exact H|exact K]]]. Qed.
Lemma in_cells_nil : forall pts p, in_cells pts [] p <-> False.
Proof. intros pts p. split; [intros (d & [] & _)|tauto]. Qed.
Lemma in_cells_app : forall pts a b p, in_cells pts (a ++ b) p <-> in_cells pts a p \/ in_cells pts b p.
Proof. intros pts a b p. unfold in_cells. split; [intros (d & H & K); apply in_app_or in H; destruct H; [left|right]; exists d; auto|intros [(d & H & K)|(d & H & K)]; exists d; (split; [apply in_or_app; auto|exact K])]. Qed.
Lemma stands_self : forall m pts c, tri_ok m c -> stands pts c [c].
Proof.
  intros m pts c (K & x & y & z & E & _). split; [intros p; rewrite in_cells_cons, in_cells_nil; tauto|]. intros d [<- |[]]. split; [reflexivity|split; [exact K|]]. cbn. rewrite Rinv_1. destruct (cell_area pts c). unfold vscale. cbn. f_equal; ring.
Qed.
Lemma stands_red : forall pts c x y z u v w (n : nat -> nat), c_kind c = Triangle -> c_verts c = [x; y; z] -> n 0%nat = u -> n 1%nat = v -> n 2%nat = w ->
  pts u = mid (pts x) (pts y) -> pts v = mid (pts y) (pts z) -> pts w = mid (pts z) (pts x) -> stands pts c (redCell c n) /\ length (redCell c n) = 4%nat /\ map c_verts (redCell c n) = [[u; v; w]; [y; v; u]; [z; w; v]; [x; u; w]].
Proof.
  intros pts c x y z u v w n K E N0 N1 N2 Eu Ev Ew. unfold redCell. rewrite K. cbn [is_triangle seq map]. unfold corner. rewrite E. cbn. rewrite N0, N1, N2. split; [|split; reflexivity]. split.
  - intros p. rewrite (in_cell_tri pts c x y z p E), !in_cells_cons, in_cells_nil. rewrite !(in_cell_tri pts (Cell _ [_; _; _] _) _ _ _ p eq_refl), Eu, Ev, Ew. rewrite red_points. tauto.
  - intros d Hd. cbn [length INR]. replace (1 + 1 + 1 + 1) with 4 by ring. unfold cell_area. rewrite E. destruct (red_area (pts x) (pts y) (pts z)) as (A1 & A2 & A3 & A4). destruct Hd as [<- |[<- |[<- |[<- |[]]]]]; cbn [c_pid c_kind c_verts]; rewrite ?Eu, ?Ev, ?Ew; auto.
Qed.
Lemma stands_green : forall pts c x y z n f, c_kind c = Triangle -> c_verts c = [x; y; z] -> (f < 3)%nat -> pts n = mid (pts (corner c f)) (pts (corner c (f + 1))) ->
  stands pts c (greenCell c n f) /\ length (greenCell c n f) = 2%nat /\ map c_verts (greenCell c n f) = [[n; corner c (f + 1); corner c (f + 2)]; [n; corner c (f + 2); corner c f]].
Proof.
  intros pts c x y z n f K E L En. unfold greenCell. rewrite K. cbn [is_triangle seq map].
  assert (C3 : corner c (f + 2 + 1) = corner c f) by (unfold corner; replace (f + 2 + 1)%nat with (f + 1 * 3)%nat by lia; rewrite Nat.mod_add by lia; reflexivity). replace (f + 1 + 0)%nat with (f + 1)%nat by lia. replace (f + 1 + 1)%nat with (f + 2)%nat by lia. replace (f + 2 + 0)%nat with (f + 2)%nat by lia. rewrite C3.
  split; [|split; reflexivity].
  assert (P : forall p, in_cell pts c p <-> in_triangle (pts (corner c f)) (pts (corner c (f + 1))) (pts (corner c (f + 2))) p).
  { intros p. rewrite (in_cell_tri pts c x y z p E). unfold corner. rewrite E. destruct (three f L) as [-> |[-> | ->]]; cbn; [reflexivity|apply triangle_turn|rewrite triangle_turn; apply triangle_turn]. }
  assert (A : cell_area pts c = area2 (pts (corner c f)) (pts (corner c (f + 1))) (pts (corner c (f + 2)))).
  { unfold cell_area, corner. rewrite E. destruct (three f L) as [-> |[-> | ->]]; cbn; [reflexivity|symmetry; apply area_turn|apply area_turn]. }
  split.
  - intros p. rewrite P, !in_cells_cons, in_cells_nil. rewrite !(in_cell_tri pts (Cell _ [_; _; _] _) _ _ _ p eq_refl), En. rewrite green_points. tauto.
  - intros d Hd. cbn [length INR]. replace (1 + 1) with 2 by ring. rewrite A. destruct (green_area (pts (corner c f)) (pts (corner c (f + 1))) (pts (corner c (f + 2)))) as (A1 & A2). destruct Hd as [<- |[<- |[]]]; unfold cell_area; cbn [c_pid c_kind c_verts]; rewrite ?En; auto.
Qed.

(* ---------------------------------------------------------- edges of the cells *)
Definition zsum (d : nat -> nat -> Z) (l : list (nat * nat)) : Z := fold_right (fun e s => (d (fst e) (snd e) + s)%Z) 0%Z l.
Definition dirs (cs : list cell) : list (nat * nat) := flat_map (fun c => turn (c_verts c)) cs.
Lemma zsum_cons : forall d x l, zsum d (x :: l) = (d (fst x) (snd x) + zsum d l)%Z. Proof. reflexivity. Qed.
Lemma zsum_app : forall d a b, zsum d (a ++ b) = (zsum d a + zsum d b)%Z.
Proof. intros d. induction a as [|x a IH]; intros b; [reflexivity|]. cbn [app]. rewrite !zsum_cons, IH. ring. Qed.
Lemma zsum_perm : forall d a b, Permutation a b -> zsum d a = zsum d b.
Proof. intros d a b P. induction P as [|x l l' P IH|x y l|l l' l'' P1 IH1 P2 IH2]; rewrite ?zsum_cons; lia. Qed.
Lemma zsum_swap : forall d l, (forall a b, d a b = (- d b a)%Z) -> zsum d (map (fun e => (snd e, fst e)) l) = (- zsum d l)%Z.
Proof. intros d l A. induction l as [|[a b] l IH]; [reflexivity|]. cbn [map fst snd]. rewrite !zsum_cons, IH. cbn [fst snd]. rewrite (A b a). ring. Qed.
Lemma closed_zero : forall cs d, closed cs -> (forall a b, d a b = (- d b a)%Z) -> zsum d (dirs cs) = 0%Z.
Proof.
  intros cs d C A. assert (P : Permutation (dirs cs) (map (fun e => (snd e, fst e)) (dirs cs))).
  { apply (Permutation_count_occ pair_dec). intros [u v]. replace (count_occ pair_dec (map (fun e => (snd e, fst e)) (dirs cs)) (u, v)) with (count_occ pair_dec (dirs cs) (v, u)); [apply (C u v)|].
    generalize (dirs cs). induction l as [|[a b] l IH]; [reflexivity|]. cbn [map fst snd]. cbn [count_occ]. destruct (pair_dec (a, b) (v, u)) as [E|E], (pair_dec (b, a) (u, v)) as [F|F]; try congruence; rewrite IH; reflexivity. }
  pose proof (zsum_perm d _ _ P) as Z. rewrite zsum_swap in Z by exact A. lia.
Qed.
Definition delta (u v a b : nat) : Z := ((if pair_dec (a, b) (u, v) then 1 else 0) - (if pair_dec (b, a) (u, v) then 1 else 0))%Z.
Lemma delta_anti : forall u v a b, delta u v a b = (- delta u v b a)%Z.
Proof. intros u v a b. unfold delta. lia. Qed.
Lemma zero_closed : forall cs, (forall u v, zsum (delta u v) (dirs cs) = 0%Z) -> closed cs.
Proof.
  intros cs H u v. unfold goes. fold (dirs cs). specialize (H u v). assert (G : forall l, zsum (delta u v) l = (Z.of_nat (count_occ pair_dec l (u, v)) - Z.of_nat (count_occ pair_dec l (v, u)))%Z).
  { induction l as [|[a b] l IH]; [reflexivity|]. rewrite zsum_cons, IH. cbn [fst snd]. cbn [count_occ]. unfold delta. destruct (pair_dec (a, b) (u, v)), (pair_dec (b, a) (u, v)), (pair_dec (a, b) (v, u)); try congruence; lia. }
  rewrite G in H. lia.
Qed.
Definition parted (m : mesh) (es : list key) (d : nat -> nat -> Z) (a b : nat) : Z := match new_vertex m es (edge a b) with Some v => (d a v + d v b)%Z | None => d a b end.
Lemma parted_anti : forall m es d, (forall a b, d a b = (- d b a)%Z) -> forall a b, parted m es d a b = (- parted m es d b a)%Z.
Proof. intros m es d A a b. unfold parted. rewrite (edge_sym b a). destruct (new_vertex m es (edge a b)) as [v|]; [rewrite (A a v), (A v b); ring|apply A]. Qed.

(* ---------------------------------------------------------- a step *)
Definition good (m : mesh) (es : list key) (s : state) (k : nat) (g : list cell) : Prop :=
  stands (new_points m es) (cell_at (m_cells m) k) g /\ length g = (match Nat.min 2 (tag s k) with 0 => 1 | 1 => 2 | _ => 4 end)%nat /\
  (forall d, In d g -> tri_ok (Mesh (new_points m es) (m_next m + length es) []) d) /\
  (forall d, (forall a b, d a b = (- d b a)%Z) -> zsum d (dirs g) = zsum (parted m es d) (turn (c_verts (cell_at (m_cells m) k)))).
Lemma dirs_verts : forall g l, map c_verts g = l -> dirs g = flat_map turn l.
Proof. intros g l <-. unfold dirs. induction g as [|c g IH]; [reflexivity|]. cbn. rewrite IH. reflexivity. Qed.
Lemma refine_good : forall m s es k, triangulated m -> (k < length (m_cells m))%nat ->
  (forall f, (f < 3)%nat -> (In (face (cell_at (m_cells m) k) f) es <-> (2 <= tag s k)%nat \/ (tag s k = 1%nat /\ green s k = Some f))) -> (tag s k = 1%nat -> exists f, green s k = Some f /\ (f < 3)%nat) ->
  exists g, refine_cell m s es k = Some g /\ good m es s k g.
Proof.
  intros m s es k T Hk Sp Gr. pose proof (at_tri m k T Hk) as TK. set (c := cell_at (m_cells m) k) in *. destruct TK as (Kc & x & y & z & E & D1 & D2 & D3 & L1 & L2 & L3).
  assert (NV : forall a b v, new_vertex m es (edge a b) = Some v -> new_points m es v = mid (m_pts m a) (m_pts m b) /\ (m_next m <= v)%nat /\ (v < m_next m + length es)%nat) by (intros a b v H; split; [apply (new_points_mid m es a b v H)|apply new_vertex_in in H; tauto]).
  assert (F0 : face c 0 = edge x y) by (unfold face, corner; rewrite E; reflexivity). assert (F1 : face c 1 = edge y z) by (unfold face, corner; rewrite E; reflexivity). assert (F2 : face c 2 = edge z x) by (unfold face, corner; rewrite E; reflexivity).
  unfold refine_cell, good. fold c. destruct (Nat.min 2 (tag s k)) as [|[|j]] eqn:Tg.
  - exists [c]. split; [reflexivity|]. split; [apply (stands_self m); split; [exact Kc|exists x, y, z; auto 10]|]. split; [reflexivity|]. split.
    + intros d [<- |[]]. split; [exact Kc|]. exists x, y, z. cbn [m_next]. repeat split; try assumption; lia.
    + intros d A. assert (T0 : tag s k = 0%nat) by lia.
      assert (NN : forall f, (f < 3)%nat -> new_vertex m es (face c f) = None). { intros f L. destruct (new_vertex m es (face c f)) as [v|] eqn:Q; [|reflexivity]. apply new_vertex_in in Q. destruct Q as [Q _]. apply (Sp f L) in Q. lia. }
      unfold dirs. cbn [flat_map]. rewrite app_nil_r, E. cbn. unfold parted. rewrite <- F0, <- F1, <- F2, !NN by lia. reflexivity.
  - assert (T1 : tag s k = 1%nat) by lia. destruct (Gr T1) as (f & Gf & Lf). rewrite Gf. destruct (new_vertex_some m es (face c f)) as (v & Hv); [apply (Sp f Lf); right; auto|]. rewrite Hv.
    destruct (NV _ _ _ Hv) as (Pv & V1 & V2).
    assert (CL : forall i, (corner c i < m_next m)%nat) by (intros i; unfold corner; rewrite E; pose proof (Nat.mod_upper_bound i 3 ltac:(lia)) as U; destruct (three _ U) as [-> |[-> | ->]]; cbn; lia).
    destruct (stands_green (new_points m es) c x y z v f Kc E Lf) as (St & Le & Ve); [rewrite (new_points_old m es (corner c f)), (new_points_old m es (corner c (f + 1))) by apply CL; exact Pv|].
    assert (Ne : greenCell c v f <> []) by (intros Q; rewrite Q in Le; discriminate). exists (greenCell c v f). split; [destruct (greenCell c v f); [contradiction|reflexivity]|]. split; [exact St|split; [exact Le|split]].
    + intros d Hd. split; [destruct St as [_ St]; apply (St d Hd)|]. assert (In (c_verts d) (map c_verts (greenCell c v f))) as I by (apply in_map; exact Hd). rewrite Ve in I. cbn [m_next].
      assert (CD : corner c (f + 1) <> corner c (f + 2) /\ corner c (f + 2) <> corner c f) by (unfold corner; rewrite E; destruct (three f Lf) as [-> |[-> | ->]]; cbn; auto). pose proof (CL f). pose proof (CL (f + 1)%nat). pose proof (CL (f + 2)%nat).
      destruct I as [I|[I|[]]]; rewrite <- I; eexists; eexists; eexists; (split; [reflexivity|]); repeat split; try lia; apply CD.
    + intros d A. rewrite (dirs_verts _ _ Ve), E.
      assert (NN : forall i, (i < 3)%nat -> i <> f -> new_vertex m es (face c i) = None). { intros i L N. destruct (new_vertex m es (face c i)) as [w|] eqn:Q; [|reflexivity]. apply new_vertex_in in Q. destruct Q as [Q _]. apply (Sp i L) in Q. destruct Q as [Q|[_ Q]]; [lia|]. rewrite Gf in Q. injection Q as ->. contradiction. }
      destruct (three f Lf) as [-> |[-> | ->]]; unfold corner; rewrite E; cbn -[edge]; unfold parted; rewrite <- ?F0, <- ?F1, <- ?F2, Hv, ?NN by lia; repeat match goal with |- context [d v ?a] => rewrite (A v a) end; ring.
  - assert (T2 : (2 <= tag s k)%nat) by lia.
    destruct (new_vertex_some m es (face c 0)) as (u & Hu); [apply Sp; [lia|auto]|]. destruct (new_vertex_some m es (face c 1)) as (v & Hv); [apply Sp; [lia|auto]|]. destruct (new_vertex_some m es (face c 2)) as (w & Hw); [apply Sp; [lia|auto]|]. rewrite Hu, Hv, Hw.
    pose proof Hu as Hu'. pose proof Hv as Hv'. pose proof Hw as Hw'. rewrite F0 in Hu'. rewrite F1 in Hv'. rewrite F2 in Hw'. destruct (NV _ _ _ Hu') as (Pu & U1 & U2). destruct (NV _ _ _ Hv') as (Pv & V1 & V2). destruct (NV _ _ _ Hw') as (Pw & W1 & W2).
    destruct (stands_red (new_points m es) c x y z u v w (fun i => nth i [u; v; w] 0%nat) Kc E eq_refl eq_refl eq_refl) as (St & Le & Ve); [rewrite !(new_points_old m es x), !(new_points_old m es y) by assumption; exact Pu|rewrite !(new_points_old m es z), !(new_points_old m es y) by assumption; exact Pv|rewrite !(new_points_old m es x), !(new_points_old m es z) by assumption; exact Pw|].
    set (g := redCell c _) in *. assert (Ne : g <> []) by (intros Q; rewrite Q in Le; discriminate). exists g. split; [destruct g; [contradiction|reflexivity]|]. split; [exact St|split; [exact Le|split]].
    + intros d Hd. split; [destruct St as [_ St]; apply (St d Hd)|]. assert (In (c_verts d) (map c_verts g)) as I by (apply in_map; exact Hd). rewrite Ve in I. cbn [m_next].
      assert (UV : u <> v). { intros ->. pose proof (new_vertex_inj m es _ _ _ Hu' Hv') as Q. apply edge_eq in Q. intuition congruence. }
      assert (VW : v <> w). { intros ->. pose proof (new_vertex_inj m es _ _ _ Hv' Hw') as Q. apply edge_eq in Q. intuition congruence. }
      assert (WU : w <> u). { intros ->. pose proof (new_vertex_inj m es _ _ _ Hw' Hu') as Q. apply edge_eq in Q. intuition congruence. }
      destruct I as [I|[I|[I|[I|[]]]]]; rewrite <- I; eexists; eexists; eexists; (split; [reflexivity|]); repeat split; try lia; auto.
    + intros d A. rewrite (dirs_verts _ _ Ve), E. cbn -[edge]. unfold parted. rewrite Hu', Hv', Hw'. rewrite (A v u), (A w v), (A u w). ring.
Qed.
Lemma all_cells_right : forall (f : nat -> option (list cell)) (P : nat -> list cell -> Prop) l, (forall k, In k l -> exists g, f k = Some g /\ P k g) -> exists gs, all_cells (map f l) = Some (concat gs) /\ Forall2 P l gs.
Proof.
  intros f P. induction l as [|k l IH]; intros H; [exists []; split; [reflexivity|constructor]|]. destruct (H k (or_introl eq_refl)) as (g & E & Pg). destruct IH as (gs & E' & F); [intros j Hj; apply H; right; exact Hj|]. exists (g :: gs). cbn [map all_cells concat]. rewrite E, E'. split; [reflexivity|constructor; assumption].
Qed.
Lemma Forall2_seq : forall (P : nat -> list cell -> Prop) n a gs, Forall2 P (seq a n) gs -> length gs = n /\ forall k g, nth_error gs k = Some g -> P (a + k)%nat g.
Proof.
  intros P. induction n as [|n IH]; intros a gs F; cbn in F; inversion F as [|? g ? r Pg F']; subst; [split; [reflexivity|intros [|k] g H; discriminate]|]. destruct (IH (S a) r F') as [L N]. split; [cbn; rewrite L; reflexivity|]. intros [|k] g' H; [injection H as <-; rewrite Nat.add_0_r; exact Pg|]. rewrite <- Nat.add_succ_comm. apply N. exact H.
Qed.
Lemma groups_closed : forall m es s gs, closed (m_cells m) -> length gs = length (m_cells m) -> (forall k g, nth_error gs k = Some g -> good m es s k g) -> closed (concat gs).
Proof.
  intros m es s gs C L G. apply zero_closed. intros u v. rewrite <- (closed_zero (m_cells m) (parted m es (delta u v)) C (parted_anti m es _ (delta_anti u v))).
  assert (K : forall cs gs, length gs = length cs -> (forall k g, nth_error gs k = Some g -> zsum (delta u v) (dirs g) = zsum (parted m es (delta u v)) (turn (c_verts (cell_at cs k)))) -> zsum (delta u v) (dirs (concat gs)) = zsum (parted m es (delta u v)) (dirs cs)).
  { clear. induction cs as [|c cs IH]; intros [|g gs] L H; try discriminate; [reflexivity|]. cbn [concat]. unfold dirs at 1. rewrite flat_map_app, zsum_app. fold (dirs g) (dirs (concat gs)). unfold dirs at 3. cbn [flat_map]. rewrite zsum_app. fold (dirs cs). rewrite (H 0%nat g eq_refl). cbn [cell_at nth]. f_equal. apply IH; [cbn in L; lia|]. intros k g' Hk. apply (H (S k) g' Hk). }
  apply K; [exact L|]. intros k g Hk. apply (G k g Hk). apply delta_anti.
Qed.
Lemma step_groups : forall m s es, triangulated m -> (forall k f, (k < length (m_cells m))%nat -> (f < 3)%nat -> (In (face (cell_at (m_cells m) k) f) es <-> (2 <= tag s k)%nat \/ (tag s k = 1%nat /\ green s k = Some f))) -> (forall k, (k < length (m_cells m))%nat -> tag s k = 1%nat -> exists f, green s k = Some f /\ (f < 3)%nat) ->
  exists gs, all_cells (map (refine_cell m s es) (seq 0 (length (m_cells m)))) = Some (concat gs) /\ length gs = length (m_cells m) /\ forall k g, nth_error gs k = Some g -> refine_cell m s es k = Some g /\ good m es s k g.
Proof.
  intros m s es T Sp Gr. destruct (all_cells_right (refine_cell m s es) (fun k g => refine_cell m s es k = Some g /\ good m es s k g) (seq 0 (length (m_cells m)))) as (gs & E & F).
  { intros k Hk. apply in_seq in Hk. destruct (refine_good m s es k T) as (g & A & B); [lia|intros f L; apply Sp; [lia|exact L]|apply Gr; lia|]. exists g. auto. }
  destruct (Forall2_seq _ _ _ _ F) as [L N]. exists gs. split; [exact E|split; [exact L|exact N]].
Qed.
Lemma groups_triangulated : forall m es s gs, (forall k g, nth_error gs k = Some g -> good m es s k g) -> triangulated (Mesh (new_points m es) (m_next m + length es) (concat gs)).
Proof.
  intros m es s gs G c Hc. cbn [m_cells] in Hc. apply in_concat in Hc. destruct Hc as (g & Hg & Hc). apply In_nth_error in Hg. destruct Hg as (k & Hk). destruct (G k g Hk) as (_ & _ & A & _). apply (A c Hc).
Qed.
Lemma groups_points : forall m es s gs, length gs = length (m_cells m) -> (forall k g, nth_error gs k = Some g -> good m es s k g) -> forall p, in_cells (new_points m es) (m_cells m) p <-> in_cells (new_points m es) (concat gs) p.
Proof.
  intros m es s gs L G p. split.
  - intros (c & Hc & H). apply In_nth_error in Hc. destruct Hc as (k & Hk). assert (Lk : (k < length gs)%nat) by (rewrite L; apply nth_error_Some; rewrite Hk; discriminate). destruct (nth_error gs k) as [g|] eqn:Eg; [|apply nth_error_None in Eg; lia].
    destruct (G k g Eg) as ((St & _) & _). rewrite (at_nth _ _ _ Hk) in St. apply St in H. destruct H as (d & Hd & H). exists d. split; [|exact H]. apply in_concat. exists g. split; [apply (nth_error_In _ _ Eg)|exact Hd].
  - intros (d & Hd & H). apply in_concat in Hd. destruct Hd as (g & Hg & Hd). apply In_nth_error in Hg. destruct Hg as (k & Hk). assert (Lk : (k < length (m_cells m))%nat) by (rewrite <- L; apply nth_error_Some; rewrite Hk; discriminate). destruct (G k g Hk) as ((St & _) & _). exists (cell_at (m_cells m) k). split; [apply nth_In; exact Lk|]. apply St. exists d. auto.
Qed.
Lemma in_cell_old : forall m es c p, tri_ok m c -> (in_cell (new_points m es) c p <-> in_cell (m_pts m) c p).
Proof. intros m es c p (_ & x & y & z & E & _ & _ & _ & L1 & L2 & L3). rewrite (in_cell_tri (new_points m es) c x y z p E), (in_cell_tri (m_pts m) c x y z p E), (new_points_old m es x L1), (new_points_old m es y L2), (new_points_old m es z L3). reflexivity. Qed.
Lemma in_cells_old : forall m es p, triangulated m -> (in_cells (new_points m es) (m_cells m) p <-> in_cells (m_pts m) (m_cells m) p).
Proof. intros m es p T. unfold in_cells. split; intros (c & Hc & H); exists c; (split; [exact Hc|]); apply (in_cell_old m es c p (T c Hc)); exact H. Qed.
Lemma area_old : forall m es c, tri_ok m c -> cell_area (new_points m es) c = cell_area (m_pts m) c.
Proof. intros m es c (_ & x & y & z & E & _ & _ & _ & L1 & L2 & L3). unfold cell_area. rewrite E, (new_points_old m es x L1), (new_points_old m es y L2), (new_points_old m es z L3). reflexivity. Qed.
(** all cells active: every cell is split in four *)
Lemma full_step : forall m, triangulated m -> exists m', redgreenRefine m (seq 0 (length (m_cells m))) = Some m' /\ triangulated m' /\ length (m_cells m') = (4 * length (m_cells m))%nat /\ (m_next m <= m_next m')%nat /\
  (forall i, (i < m_next m)%nat -> m_pts m' i = m_pts m i) /\ (forall p, in_cells (m_pts m) (m_cells m) p <-> in_cells (m_pts m') (m_cells m') p) /\ (closed (m_cells m) -> closed (m_cells m')) /\
  (forall d, In d (m_cells m') -> exists c, In c (m_cells m) /\ c_pid d = c_pid c /\ cell_area (m_pts m') d = vscale (/ 4) (cell_area (m_pts m) c) /\ forall p, in_cell (m_pts m') d p -> in_cell (m_pts m) c p).
Proof.
  intros m T. destruct (spread_start (m_cells m) (seq 0 (length (m_cells m))) (seq_NoDup _ _)) as (s & W & E & I & Q & B & _); [intros n Hn; apply in_seq in Hn; lia|]. unfold redgreenRefine. rewrite E.
  assert (T2 : forall k, (k < length (m_cells m))%nat -> (2 <= tag s k)%nat). { intros k Hk. rewrite (i_tag _ _ _ _ I). rewrite (proj2 (mem_in k (seq 0 (length (m_cells m))))) by (apply in_seq; lia). lia. }
  destruct (step_groups m s (split_edges s) T) as (gs & EA & L & G0).
  - intros k f Hk Hf. split; [left; apply T2; exact Hk|]. intros _. unfold split_edges. apply nodup_In. apply (edge_iff m (seq 0 (length (m_cells m))) W s T I B). exists k, f. split; [|auto]. apply (red_in m (seq 0 (length (m_cells m))) W s I Q). apply T2. exact Hk.
  - intros k Hk H. specialize (T2 k Hk). lia.
  - assert (G : forall k g, nth_error gs k = Some g -> good m (split_edges s) s k g) by (intros k g Hk; apply G0; exact Hk). rewrite EA. eexists. split; [reflexivity|]. cbn [m_cells m_pts m_next]. split; [apply (groups_triangulated m (split_edges s) s gs G)|]. split; [|split; [lia|split; [intros i Hi; apply new_points_old; exact Hi|split; [|split]]]].
    + assert (K : forall (g : list cell), In g gs -> length g = 4%nat). { intros g Hg. apply In_nth_error in Hg. destruct Hg as (k & Hk). destruct (G k g Hk) as (_ & Lg & _). assert ((k < length (m_cells m))%nat) as Lk by (rewrite <- L; apply nth_error_Some; rewrite Hk; discriminate). specialize (T2 k Lk). replace (Nat.min 2 (tag s k)) with 2%nat in Lg by lia. exact Lg. }
      rewrite <- L. clear - K. induction gs as [|g gs IH]; [reflexivity|]. cbn [concat length]. rewrite app_length, IH, (K g (or_introl eq_refl)) by (intros h Hh; apply K; right; exact Hh). lia.
    + intros p. rewrite <- (groups_points m (split_edges s) s gs L G). symmetry. apply in_cells_old. exact T.
    + intros C. apply (groups_closed m (split_edges s) s gs C L G).
    + intros d Hd. apply in_concat in Hd. destruct Hd as (g & Hg & Hd). apply In_nth_error in Hg. destruct Hg as (k & Hk). assert ((k < length (m_cells m))%nat) as Lk by (rewrite <- L; apply nth_error_Some; rewrite Hk; discriminate). destruct (G k g Hk) as ((St1 & St2) & Lg & _). specialize (T2 k Lk). replace (Nat.min 2 (tag s k)) with 2%nat in Lg by lia.
      exists (cell_at (m_cells m) k). destruct (St2 d Hd) as (A1 & _ & A3). split; [apply nth_In; exact Lk|split; [exact A1|]]. pose proof (at_tri m k T Lk) as TK. split.
      * rewrite A3, Lg, (area_old m _ _ TK). replace (INR 4) with 4 by (cbn; ring). reflexivity.
      * intros p Hp. apply (in_cell_old m (split_edges s) _ p TK). apply St1. exists d. auto.
Qed.

(* ---------------------------------------------------------- several steps *)
Lemma red_steps : forall k m, triangulated m -> exists m', steps_of REDGREEN k m = Some m' /\ triangulated m' /\ length (m_cells m') = (4 ^ k * length (m_cells m))%nat /\ (m_next m <= m_next m')%nat /\ same_surface m m' /\
  (forall d, In d (m_cells m') -> exists c, In c (m_cells m) /\ c_pid d = c_pid c /\ cell_area (m_pts m') d = vscale (/ 4 ^ k) (cell_area (m_pts m) c) /\ forall p, in_cell (m_pts m') d p -> in_cell (m_pts m) c p).
Proof.
  induction k as [|k IH]; intros m T.
  - exists m. cbn [steps_of]. split; [reflexivity|]. split; [exact T|]. split; [cbn; lia|]. split; [lia|]. split; [split; [auto|split; [tauto|auto]]|]. intros d Hd. exists d. repeat split; auto. cbn. generalize (cell_area (m_pts m) d). intros q. vecs. f_equal; field.
  - destruct (full_step m T) as (m1 & E & T1 & L1 & N1 & P1 & Q1 & C1 & D1). destruct (IH m1 T1) as (m2 & E2 & T2 & L2 & N2 & (P2 & Q2 & C2) & D2). exists m2. cbn [steps_of]. rewrite E. split; [exact E2|]. split; [exact T2|]. split; [rewrite L2, L1; cbn; lia|]. split; [lia|]. split.
    + split; [intros i Hi; rewrite P2 by lia; apply P1; exact Hi|]. split; [intros p; rewrite Q1; apply Q2|auto].
    + intros d Hd. destruct (D2 d Hd) as (c & Hc & A1 & A2 & A3). destruct (D1 c Hc) as (b & Hb & B1 & B2 & B3). exists b. split; [exact Hb|]. split; [congruence|]. split; [|auto]. rewrite A2, B2. cbn [pow]. assert (F : 4 ^ k <> 0) by (apply pow_nonzero; lra). generalize (cell_area (m_pts m) b). intros q. vecs. f_equal; field; exact F.
Qed.

(* ---------------------------------------------------------- ternary *)
Lemma path_nth : forall l, path l = map (fun i => (nth i l 0%nat, nth (S i) l 0%nat)) (seq 0 (length l - 1)).
Proof.
  induction l as [|x [|y r] IH]; [reflexivity|reflexivity|]. change (path (x :: y :: r)) with ((x, y) :: path (y :: r)). rewrite IH. cbn [length Nat.sub seq map nth]. f_equal. rewrite <- seq_shift, map_map. replace (S (length r) - 1)%nat with (length r) by lia. replace (length r - 0)%nat with (length r) by lia. reflexivity.
Qed.
Lemma turn_nth : forall l, turn l = map (fun i => (nth (i mod length l) l 0%nat, nth ((i + 1) mod length l) l 0%nat)) (seq 0 (length l)).
Proof.
  intros [|x r]; [reflexivity|]. set (l := x :: r). change (turn l) with (path (l ++ [x])). rewrite path_nth, app_length. cbn [length]. replace (length l + 1 - 1)%nat with (length l) by lia. apply map_ext_in. intros i Hi. apply in_seq in Hi. rewrite Nat.mod_small by lia. rewrite app_nth1 by lia. f_equal. replace (i + 1)%nat with (S i) by lia.
  destruct (Nat.eq_dec (S i) (length l)) as [E|E]; [rewrite E, Nat.mod_same by (subst l; cbn; lia); rewrite app_nth2, Nat.sub_diag by lia; reflexivity|]. rewrite Nat.mod_small by lia. rewrite app_nth1 by lia. reflexivity.
Qed.
Lemma turn_length : forall l, length (turn l) = length l. Proof. intros l. rewrite turn_nth, map_length, seq_length. reflexivity. Qed.
Lemma ternary_verts : forall new c, ternaryCell new c = map (fun e => Cell Triangle [new; fst e; snd e] (c_pid c)) (turn (c_verts c)).
Proof. intros new c. unfold ternaryCell. rewrite turn_nth, map_map. reflexivity. Qed.
(** sums along a closed path *)
Lemma path_last : forall (h : nat -> Z) x l, (fold_right (fun e s => (h (fst e) - h (snd e) + s)%Z) 0%Z (path (x :: l)) = h x - h (last l x))%Z.
Proof.
  intros h x l. revert x. induction l as [|y r IH]; intros x; [cbn; lia|]. change (path (x :: y :: r)) with ((x, y) :: path (y :: r)). cbn [fold_right fst snd]. rewrite IH. destruct r as [|w r]; [cbn; lia|]. replace (last (y :: w :: r) x) with (last (w :: r) y); [lia|]. clear. change (last (y :: w :: r) x) with (last (w :: r) x). revert w. induction r as [|v r IH]; intros w; [reflexivity|]. apply (IH v).
Qed.
Lemma turn_zero : forall (h : nat -> Z) l, fold_right (fun e s => (h (fst e) - h (snd e) + s)%Z) 0%Z (turn l) = 0%Z.
Proof. intros h [|x r]; [reflexivity|]. change (turn (x :: r)) with (path (x :: (r ++ [x]))). rewrite path_last, last_last. lia. Qed.
Lemma path_last_R : forall (h : nat -> R) x l, fold_right (fun e s => h (fst e) - h (snd e) + s) 0 (path (x :: l)) = h x - h (last l x).
Proof.
  intros h x l. revert x. induction l as [|y r IH]; intros x; [cbn; lra|]. change (path (x :: y :: r)) with ((x, y) :: path (y :: r)). cbn [fold_right fst snd]. rewrite IH. destruct r as [|w r]; [cbn; lra|]. replace (last (y :: w :: r) x) with (last (w :: r) y); [lra|]. clear. change (last (y :: w :: r) x) with (last (w :: r) x). revert w. induction r as [|v r IH]; intros w; [reflexivity|]. apply (IH v).
Qed.
Lemma turn_zero_R : forall (h : nat -> R) l, fold_right (fun e s => h (fst e) - h (snd e) + s) 0 (turn l) = 0.
Proof. intros h [|x r]; [reflexivity|]. change (turn (x :: r)) with (path (x :: (r ++ [x]))). rewrite path_last_R, last_last. lra. Qed.
Lemma ternary_dirs : forall new c d, (forall a b, d a b = (- d b a)%Z) -> zsum d (dirs (ternaryCell new c)) = zsum d (turn (c_verts c)).
Proof.
  intros new c d A. rewrite ternary_verts. transitivity (zsum d (turn (c_verts c)) + fold_right (fun e s => (d new (fst e) - d new (snd e) + s)%Z) 0%Z (turn (c_verts c)))%Z; [|rewrite (turn_zero (d new)); lia].
  induction (turn (c_verts c)) as [|[a b] l IH]; [reflexivity|]. cbn [map]. unfold dirs. cbn [flat_map c_verts]. fold (dirs (map (fun e => Cell Triangle [new; fst e; snd e] (c_pid c)) l)). rewrite zsum_app, IH. cbn [fst snd fold_right]. rewrite zsum_cons. cbn. rewrite (A b new). ring.
Qed.
Lemma ternary_areas : forall pts new c, vsum (map (cell_area pts) (ternaryCell new c)) = polygon_area pts (c_verts c).
Proof.
  intros pts new c. rewrite ternary_verts, map_map. unfold polygon_area, vsum. set (l := turn (c_verts c)).
  assert (Z : forall h : nat -> R, fold_right (fun e s => h (fst e) - h (snd e) + s) 0 l = 0) by (intros h; apply turn_zero_R).
  pose proof (Z (fun i => vx (cross (pts new) (pts i)))) as X1. pose proof (Z (fun i => vy (cross (pts new) (pts i)))) as X2. pose proof (Z (fun i => vz (cross (pts new) (pts i)))) as X3.
  assert (G : forall l', fold_right vadd (V3 0 0 0) (map (fun e => cell_area pts (Cell Triangle [new; fst e; snd e] (c_pid c))) l') = vadd (fold_right (fun e s => vadd (cross (pts (fst e)) (pts (snd e))) s) (V3 0 0 0) l') (V3 (fold_right (fun e s => vx (cross (pts new) (pts (fst e))) - vx (cross (pts new) (pts (snd e))) + s) 0 l') (fold_right (fun e s => vy (cross (pts new) (pts (fst e))) - vy (cross (pts new) (pts (snd e))) + s) 0 l') (fold_right (fun e s => vz (cross (pts new) (pts (fst e))) - vz (cross (pts new) (pts (snd e))) + s) 0 l'))).
  { clear. induction l' as [|[a b] l' IH]; [cbn; unfold vadd; cbn; f_equal; ring|]. cbn [map fold_right fst snd]. rewrite IH. generalize (fold_right (fun e s => vadd (cross (pts (fst e)) (pts (snd e))) s) (V3 0 0 0) l'). intros q. unfold cell_area. cbn [c_verts]. generalize (pts a) (pts b) (pts new). intros A B C. vecs. f_equal; ring. }
  rewrite G. cbn beta in X1, X2, X3. rewrite X1, X2, X3. generalize (fold_right (fun e s => vadd (cross (pts (fst e)) (pts (snd e))) s) (V3 0 0 0) l). intros q. vecs. f_equal; ring.
Qed.
Lemma sum_right : forall l, sum_vecs l = vsum l.
Proof.
  assert (G : forall l a, fold_left vadd l a = vadd a (vsum l)); [|intros l; unfold sum_vecs; rewrite G; generalize (vsum l); intros q; vecs; f_equal; ring].
  unfold vsum. induction l as [|x l IH]; intros a; [cbn [fold_left fold_right]; vecs; f_equal; ring|]. cbn [fold_left fold_right]. rewrite IH. generalize (fold_right vadd (V3 0 0 0) l). intros q. vecs. f_equal; ring.
Qed.
Lemma centroid_mean : forall pts c, centroid pts c = mean (c_verts c) pts.
Proof. intros pts c. unfold centroid, mean. rewrite sum_right. reflexivity. Qed.
Lemma ternary_loop_right : forall n0 todo m done, (n0 <= m_next m)%nat -> (forall c, In c todo -> c_verts c <> [] /\ forall i, In i (c_verts c) -> (i < n0)%nat) ->
  exists pts news, ternary_loop todo m done = (Mesh pts (m_next m + length todo) (m_cells m), done ++ concat (map (fun nc => ternaryCell (fst nc) (snd nc)) (combine news todo))) /\ (forall i, (i < m_next m)%nat -> pts i = m_pts m i) /\ length news = length todo /\
  forall k c new, nth_error todo k = Some c -> nth_error news k = Some new -> (m_next m <= new < m_next m + length todo)%nat /\ pts new = mean (c_verts c) (m_pts m).
Proof.
  intros n0. induction todo as [|c r IH]; intros m done L H.
  - exists (m_pts m), []. cbn. rewrite app_nil_r, Nat.add_0_r. destruct m. cbn. repeat split; auto; destruct k; discriminate.
  - cbn [ternary_loop]. destruct (IH (addVertex m (centroid (m_pts m) c)) (done ++ match ternaryCell (m_next m) c with [] => [c] | _ :: _ => ternaryCell (m_next m) c end)) as (pts & news & E & P & N & K); [cbn; lia|intros d Hd; apply H; right; exact Hd|]. cbn [addVertex m_next m_cells m_pts] in P, K.
    exists pts, (m_next m :: news). destruct (H c (or_introl eq_refl)) as [Ne Lt]. split; [|split; [|split; [cbn; rewrite N; reflexivity|]]].
    + rewrite E. cbn [combine map concat fst snd length addVertex m_next m_cells]. f_equal; [f_equal; lia|]. rewrite <- app_assoc. f_equal. f_equal. destruct (ternaryCell (m_next m) c) as [|c0 l0] eqn:Q; [|reflexivity]. exfalso. rewrite ternary_verts in Q. apply map_eq_nil in Q. pose proof (turn_length (c_verts c)) as TL. rewrite Q in TL. destruct (c_verts c); [contradiction|discriminate].
    + intros i Hi. rewrite P by lia. destruct (Nat.eqb_spec i (m_next m)); [lia|reflexivity].
    + intros [|k] d new Hd Hn; cbn in Hd, Hn.
      * injection Hd as <-. injection Hn as <-. split; [cbn; lia|]. rewrite P by lia. rewrite Nat.eqb_refl. apply centroid_mean.
      * destruct (K k d new Hd Hn) as [K1 K2]. split; [cbn; lia|]. rewrite K2. unfold mean. do 2 f_equal. apply map_ext_in. intros i Hi. destruct (H d (or_intror (nth_error_In _ _ Hd))) as [_ Hlt]. specialize (Hlt i Hi). destruct (Nat.eqb_spec i (m_next m)); [lia|reflexivity].
Qed.
Lemma ternary_right : forall m, ids_ok m -> exists news, length news = length (m_cells m) /\ m_cells (ternaryRefine m) = concat (map (fun nc => ternaryCell (fst nc) (snd nc)) (combine news (m_cells m))) /\ m_next (ternaryRefine m) = (m_next m + length (m_cells m))%nat /\
  (forall i, (i < m_next m)%nat -> m_pts (ternaryRefine m) i = m_pts m i) /\
  forall k c new, nth_error (m_cells m) k = Some c -> nth_error news k = Some new -> (m_next m <= new < m_next (ternaryRefine m))%nat /\ m_pts (ternaryRefine m) new = mean (c_verts c) (m_pts m).
Proof.
  intros m H. unfold ternaryRefine. destruct (ternary_loop_right (m_next m) (m_cells m) m [] (le_n _) H) as (pts & news & E & P & N & K). rewrite E. cbn [m_cells m_next m_pts app]. exists news. auto.
Qed.
Lemma combine_nth_error : forall A B (a : list A) (b : list B) k, nth_error (combine a b) k = match nth_error a k, nth_error b k with Some x, Some y => Some (x, y) | _, _ => None end.
Proof. induction a as [|x a IH]; intros [|y b] [|k]; cbn; try reflexivity; [destruct (nth_error a k); reflexivity|apply IH]. Qed.
Lemma fans_closed : forall news cs, length news = length cs -> closed cs -> closed (concat (map (fun nc => ternaryCell (fst nc) (snd nc)) (combine news cs))).
Proof.
  intros news cs L C. apply zero_closed. intros u v. rewrite <- (closed_zero cs (delta u v) C (delta_anti u v)). clear C. revert news L. induction cs as [|c cs IH]; intros [|n news] L; try discriminate; [reflexivity|]. cbn [combine map concat fst snd]. unfold dirs at 1. rewrite flat_map_app, zsum_app. fold (dirs (ternaryCell n c)) (dirs (concat (map (fun nc => ternaryCell (fst nc) (snd nc)) (combine news cs)))).
  rewrite IH by (cbn in L; lia). rewrite ternary_dirs by apply delta_anti. unfold dirs at 2. cbn [flat_map]. rewrite zsum_app. reflexivity.
Qed.
Lemma stands_ternary : forall pts c x y z n, c_verts c = [x; y; z] -> pts n = mean [x; y; z] pts -> stands pts c (ternaryCell n c).
Proof.
  intros pts c x y z n E En. assert (M : pts n = mid3 (pts x) (pts y) (pts z)) by (rewrite En; unfold mean, mid3; cbn [map fold_right length INR]; generalize (pts x) (pts y) (pts z); intros a b d; vecs; f_equal; field). rewrite ternary_verts, E. cbn [turn app path map fst snd]. split.
  - intros p. rewrite (in_cell_tri pts c x y z p E), !in_cells_cons, in_cells_nil. rewrite !(in_cell_tri pts (Cell _ [_; _; _] _) _ _ _ p eq_refl), M. rewrite ternary_points. tauto.
  - intros d Hd. cbn [length INR]. replace (1 + 1 + 1) with 3 by ring. destruct (ternary_area (pts x) (pts y) (pts z)) as (A1 & A2 & A3). destruct Hd as [<- |[<- |[<- |[]]]]; unfold cell_area; cbn [c_pid c_kind c_verts]; rewrite E, M; auto.
Qed.
Lemma triangulated_ids : forall m, triangulated m -> ids_ok m.
Proof. intros m T c Hc. destruct (T c Hc) as (_ & x & y & z & E & _ & _ & _ & L1 & L2 & L3). rewrite E. split; [discriminate|]. intros i [<- |[<- |[<- |[]]]]; assumption. Qed.
Lemma pts_old_cell : forall m m' c p, tri_ok m c -> (forall i, (i < m_next m)%nat -> m_pts m' i = m_pts m i) -> (in_cell (m_pts m') c p <-> in_cell (m_pts m) c p) /\ cell_area (m_pts m') c = cell_area (m_pts m) c.
Proof. intros m m' c p (_ & x & y & z & E & _ & _ & _ & L1 & L2 & L3) P. split; [rewrite (in_cell_tri (m_pts m') c x y z p E), (in_cell_tri (m_pts m) c x y z p E), (P x L1), (P y L2), (P z L3); reflexivity|unfold cell_area; rewrite E, (P x L1), (P y L2), (P z L3); reflexivity]. Qed.
Lemma ternary_step : forall m, triangulated m -> let m' := ternaryRefine m in triangulated m' /\ length (m_cells m') = (3 * length (m_cells m))%nat /\ (m_next m <= m_next m')%nat /\ same_surface m m' /\
  (forall d, In d (m_cells m') -> exists c, In c (m_cells m) /\ c_pid d = c_pid c /\ cell_area (m_pts m') d = vscale (/ 3) (cell_area (m_pts m) c) /\ forall p, in_cell (m_pts m') d p -> in_cell (m_pts m) c p).
Proof.
  intros m T m'. destruct (ternary_right m (triangulated_ids m T)) as (news & L & E & N & P & K). fold m' in E, N, P, K.
  assert (G : forall k c, nth_error (m_cells m) k = Some c -> exists new, nth_error news k = Some new /\ (m_next m <= new < m_next m')%nat /\ stands (m_pts m') c (ternaryCell new c) /\ In (ternaryCell new c) (map (fun nc => ternaryCell (fst nc) (snd nc)) (combine news (m_cells m)))).
  { intros k c Hk. destruct (nth_error news k) as [new|] eqn:Q; [|apply nth_error_None in Q; assert ((k < length (m_cells m))%nat) by (apply nth_error_Some; rewrite Hk; discriminate); lia]. exists new. destruct (K k c new Hk Q) as [K1 K2]. split; [reflexivity|split; [exact K1|split]].
    - destruct (T c (nth_error_In _ _ Hk)) as (_ & x & y & z & Ec & _ & _ & _ & L1 & L2 & L3). apply (stands_ternary _ c x y z); [exact Ec|]. rewrite K2, Ec. unfold mean. cbn [map]. rewrite (P x L1), (P y L2), (P z L3). reflexivity.
    - apply in_map_iff. exists (new, c). split; [reflexivity|]. apply (nth_error_In _ k). rewrite combine_nth_error, Q, Hk. reflexivity. }
  assert (G' : forall d, In d (m_cells m') -> exists k c new, nth_error (m_cells m) k = Some c /\ nth_error news k = Some new /\ In d (ternaryCell new c)).
  { intros d Hd. rewrite E in Hd. apply in_concat in Hd. destruct Hd as (g & Hg & Hd). apply in_map_iff in Hg. destruct Hg as ([new c] & <- & Hg). cbn [fst snd] in Hd. apply In_nth_error in Hg. destruct Hg as (k & Hk). rewrite combine_nth_error in Hk. exists k, c, new. destruct (nth_error news k), (nth_error (m_cells m) k); try discriminate. injection Hk as -> ->. auto. }
  assert (TE : triangulated m').
  { intros d Hd. destruct (G' d Hd) as (k & c & new & Hk & Hn & Hg). destruct (K k c new Hk Hn) as [K1 _]. destruct (T c (nth_error_In _ _ Hk)) as (_ & x & y & z & Ec & D1 & D2 & D3 & L1 & L2 & L3). rewrite ternary_verts, Ec in Hg. cbn [turn app path map fst snd] in Hg.
    destruct Hg as [<- |[<- |[<- |[]]]]; (split; [reflexivity|]); eexists; eexists; eexists; (split; [reflexivity|]); repeat split; try assumption; lia. }
  split; [exact TE|]. split; [|split; [lia|split; [split; [exact P|split]|]]].
  - rewrite E. assert (X : forall cs news, length news = length cs -> (forall c, In c cs -> length (c_verts c) = 3%nat) -> length (concat (map (fun nc => ternaryCell (fst nc) (snd nc)) (combine news cs))) = (3 * length cs)%nat).
    { clear. induction cs as [|c cs IH]; intros [|n news] L H; try discriminate; [reflexivity|]. cbn [combine map concat fst snd]. rewrite app_length, IH; [|cbn in L; lia|intros d Hd; apply H; right; exact Hd]. rewrite ternary_verts, map_length, turn_length, (H c (or_introl eq_refl)). cbn. lia. }
    apply X; [exact L|]. intros c Hc. destruct (T c Hc) as (_ & x & y & z & Ec & _). rewrite Ec. reflexivity.
  - intros p. split.
    + intros (c & Hc & H). pose proof (T c Hc) as TC. apply In_nth_error in Hc. destruct Hc as (k & Hk). destruct (G k c Hk) as (new & _ & _ & (St & _) & Hi). apply (proj2 (proj1 (pts_old_cell m m' c p TC P))) in H. apply St in H. destruct H as (d & Hd & H). exists d. split; [|exact H]. rewrite E. apply in_concat. exists (ternaryCell new c). auto.
    + intros (d & Hd & H). destruct (G' d Hd) as (k & c & new & Hk & Hn & Hg). destruct (G k c Hk) as (new' & Hn' & _ & (St & _) & _). rewrite Hn in Hn'. injection Hn' as <-. exists c. pose proof (nth_error_In _ _ Hk) as Hc. split; [exact Hc|]. apply (proj1 (pts_old_cell m m' c p (T c Hc) P)). apply St. exists d. auto.
  - intros C. rewrite E. apply fans_closed; [exact L|exact C].
  - intros d Hd. destruct (G' d Hd) as (k & c & new & Hk & Hn & Hg). destruct (G k c Hk) as (new' & Hn' & _ & (St & St2) & _). rewrite Hn in Hn'. injection Hn' as <-. pose proof (nth_error_In _ _ Hk) as Hc. exists c. destruct (St2 d Hg) as (A1 & _ & A3). split; [exact Hc|split; [exact A1|split]].
    + rewrite A3. replace (length (ternaryCell new c)) with 3%nat by (rewrite ternary_verts, map_length, turn_length; destruct (T c Hc) as (_ & x & y & z & Ec & _); rewrite Ec; reflexivity). rewrite (proj2 (pts_old_cell m m' c (V3 0 0 0) (T c Hc) P)). replace (INR 3) with 3 by (cbn; ring). reflexivity.
    + intros p Hp. apply (proj1 (pts_old_cell m m' c p (T c Hc) P)). apply St. exists d. auto.
Qed.
Lemma ternary_steps : forall k m, triangulated m -> exists m', steps_of TERNARY k m = Some m' /\ triangulated m' /\ length (m_cells m') = (3 ^ k * length (m_cells m))%nat /\ (m_next m <= m_next m')%nat /\ same_surface m m' /\
  (forall d, In d (m_cells m') -> exists c, In c (m_cells m) /\ c_pid d = c_pid c /\ cell_area (m_pts m') d = vscale (/ 3 ^ k) (cell_area (m_pts m) c) /\ forall p, in_cell (m_pts m') d p -> in_cell (m_pts m) c p).
Proof.
  induction k as [|k IH]; intros m T.
  - exists m. cbn [steps_of]. split; [reflexivity|]. split; [exact T|]. split; [cbn; lia|]. split; [lia|]. split; [split; [auto|split; [tauto|auto]]|]. intros d Hd. exists d. repeat split; auto. cbn. generalize (cell_area (m_pts m) d). intros q. vecs. f_equal; field.
  - destruct (ternary_step m T) as (T1 & L1 & N1 & (P1 & Q1 & C1) & D1). destruct (IH _ T1) as (m2 & E2 & T2 & L2 & N2 & (P2 & Q2 & C2) & D2). exists m2. cbn [steps_of]. split; [exact E2|]. split; [exact T2|]. split; [rewrite L2, L1; cbn; lia|]. split; [lia|]. split.
    + split; [intros i Hi; rewrite P2 by lia; apply P1; exact Hi|]. split; [intros p; rewrite Q1; apply Q2|auto].
    + intros d Hd. destruct (D2 d Hd) as (c & Hc & A1 & A2 & A3). destruct (D1 c Hc) as (b & Hb & B1 & B2 & B3). exists b. split; [exact Hb|]. split; [congruence|]. split; [|auto]. rewrite A2, B2. cbn [pow]. assert (F : 3 ^ k <> 0) by (apply pow_nonzero; lra). generalize (cell_area (m_pts m) b). intros q. vecs. f_equal; field; exact F.
Qed.

(* ---------------------------------------------------------- smoothing *)
Section Smooth.
  Variable near : nat -> list nat.
  Lemma shift_mean : forall w pts i, shift near w pts i = match near i with [] => V3 0 0 0 | l => vscale w (vsub (mean l pts) (pts i)) end.
  Proof.
    intros w pts i. unfold shift. destruct (near i) as [|j l] eqn:E; [cbn [length INR map]; destruct (Rlt_dec 0 0) as [H|H]; [exfalso; lra|reflexivity]|]. assert (Hn : 0 < INR (length (j :: l))) by (apply lt_0_INR; cbn; lia). destruct (Rlt_dec 0 (INR (length (j :: l)))) as [H|H]; [|contradiction]. rewrite sum_right. unfold mean.
    assert (G : forall l', vsum (map (fun k => vscale (w * 1) (vsub (pts k) (pts i))) l') = vscale w (vsub (vsum (map pts l')) (vscale (INR (length l')) (pts i)))).
    { clear. unfold vsum. induction l' as [|x l' IH]; [cbn; unfold vscale, vsub; cbn; f_equal; ring|]. cbn [map fold_right length]. rewrite IH, S_INR. generalize (fold_right vadd (V3 0 0 0) (map pts l')). intros q. generalize (pts x) (pts i). intros a b. vecs. f_equal; ring. }
    rewrite G. fold (vsum (map pts (j :: l))). generalize (vsum (map pts (j :: l))) (pts i). intros q b. vecs. f_equal; field; lra.
  Qed.
  (** [t] is linear over means *)
  Lemma dot_vsum : forall n l, dot n (vsum l) = fold_right Rplus 0 (map (dot n) l).
  Proof. intros n l. unfold vsum. induction l as [|x l IH]; [cbn [fold_right map]; unfold dot; vecs; ring|]. cbn [fold_right map]. rewrite <- IH. generalize (fold_right vadd (V3 0 0 0) l). intros q. unfold dot. vecs. ring. Qed.
  Lemma mean_le : forall n h l pts, l <> [] -> (forall j, In j l -> dot n (pts j) <= h) -> dot n (mean l pts) <= h.
  Proof.
    intros n h l pts Ne H. assert (Hn : 0 < INR (length l)) by (apply lt_0_INR; destruct l; [contradiction|cbn; lia]). unfold mean. fold (vsum (map pts l)). replace (dot n (vscale (/ INR (length l)) (vsum (map pts l)))) with (/ INR (length l) * dot n (vsum (map pts l))) by (generalize (vsum (map pts l)); intros q; unfold dot; vecs; ring).
    rewrite dot_vsum, map_map. assert (G : fold_right Rplus 0 (map (fun k => dot n (pts k)) l) <= INR (length l) * h).
    { clear Ne Hn. induction l as [|x l IH]; [cbn; lra|]. cbn [map fold_right length]. rewrite S_INR. pose proof (H x (or_introl eq_refl)). assert (fold_right Rplus 0 (map (fun k => dot n (pts k)) l) <= INR (length l) * h) by (apply IH; intros j Hj; apply H; right; exact Hj). lra. }
    apply Rmult_le_reg_l with (INR (length l)); [exact Hn|]. rewrite <- Rmult_assoc, Rinv_r, Rmult_1_l by lra. exact G.
  Qed.
  Lemma positive_right : forall pts i, positive near None pts i = match near i with [] => pts i | l => vadd (vscale (4 / 10) (pts i)) (vscale (6 / 10) (mean l pts)) end.
  Proof.
    intros pts i. unfold positive. rewrite shift_mean. destruct (near i) as [|j l]; [generalize (pts i); intros q; vecs; f_equal; ring|]. generalize (mean (j :: l) pts) (pts i). intros a b. unfold lambda. vecs. f_equal; field.
  Qed.
  Lemma negative_none : forall pts i, negative near None pts i = pts i.
  Proof. intros pts i. unfold negative. generalize (pts i). intros q. vecs. f_equal; ring. Qed.
  Lemma positive_le : forall (V : nat -> Prop) n h pts, (forall i j, V i -> In j (near i) -> V j) -> (forall i, V i -> dot n (pts i) <= h) -> forall i, V i -> dot n (positive near None pts i) <= h.
  Proof.
    intros V n h pts C H i Vi. rewrite positive_right. pose proof (H i Vi) as Hi. destruct (near i) as [|j l] eqn:E; [exact Hi|]. assert (M : dot n (mean (j :: l) pts) <= h) by (apply mean_le; [discriminate|]; intros k Hk; apply H; apply (C i k Vi); rewrite E; exact Hk). replace (dot n (vadd (vscale (4 / 10) (pts i)) (vscale (6 / 10) (mean (j :: l) pts)))) with (4 / 10 * dot n (pts i) + 6 / 10 * dot n (mean (j :: l) pts)) by (generalize (mean (j :: l) pts) (pts i); intros a b; unfold dot; vecs; ring). lra.
  Qed.
  Lemma smoothing_le : forall (V : nat -> Prop) n h, (forall i j, V i -> In j (near i) -> V j) -> forall k pts, (forall i, V i -> dot n (pts i) <= h) -> forall i, V i -> dot n (smoothing near None k pts i) <= h.
  Proof. intros V n h C. induction k as [|k IH]; intros pts H i Vi; [apply H; exact Vi|]. cbn [smoothing]. apply IH; [|exact Vi]. intros j Vj. rewrite negative_none. apply (positive_le V); assumption. Qed.
  Lemma fixed_stay : forall l i, In i l -> forall k pts, smoothing near (Some l) k pts i = pts i.
  Proof.
    intros l i Hi. assert (E : existsb (Nat.eqb i) l = true) by (apply existsb_exists; exists i; split; [exact Hi|apply Nat.eqb_refl]). induction k as [|k IH]; intros pts; [reflexivity|]. cbn [smoothing]. rewrite IH. unfold negative, positive. rewrite E. generalize (pts i). intros q. vecs. f_equal; ring.
  Qed.
End Smooth.

(* ---------------------------------------------------------- checks for examples *)
Definition all_faces (cs : list cell) : list key := flat_map (fun c => [face c 0; face c 1; face c 2]) cs.
Lemma manifold_check : forall m, triangulated m -> forallb (fun e => Nat.leb (length (faces_on (m_cells m) e)) 2) (all_faces (m_cells m)) = true -> manifold m.
Proof.
  intros m T H a b i f j g k h ci cj ck Ni Nj Nk Hi Hj Hk. rewrite forallb_forall in H.
  assert (X : forall n p c, nth_error (m_cells m) n = Some c -> has_edge c p a b -> In (n, p) (faces_on (m_cells m) (edge a b)) /\ In (edge a b) (all_faces (m_cells m))).
  { intros n p c Nn Hc. destruct (T c (nth_error_In _ _ Nn)) as (_ & x & y & z & E & _). apply (has_edge_face _ _ _ _ _ _ _ E) in Hc. destruct Hc as [L F]. split; [apply in_faces_on; split; [apply nth_error_Some; rewrite Nn; discriminate|split; [exact L|rewrite (at_nth _ _ _ Nn); exact F]]|]. apply in_flat_map. exists c. split; [apply (nth_error_In _ _ Nn)|]. rewrite <- F. destruct (three p L) as [-> |[-> | ->]]; cbn; auto. }
  destruct (X i f ci Ni Hi) as [A1 A2]. destruct (X j g cj Nj Hj) as [B1 _]. destruct (X k h ck Nk Hk) as [C1 _]. specialize (H _ A2). apply Nat.leb_le in H.
  assert (D : forall p q : nat * nat, p = q \/ p <> q) by (intros p q; destruct (key_dec p q); auto).
  destruct (D (i, f) (j, g)) as [|N1]; [auto|]. destruct (D (j, g) (k, h)) as [|N2]; [auto|]. destruct (D (i, f) (k, h)) as [|N3]; [auto|]. exfalso.
  assert (Y : (length [(i, f); (j, g); (k, h)] <= length (faces_on (m_cells m) (edge a b)))%nat); [|cbn in Y; lia]. apply NoDup_incl_length; [repeat constructor; cbn; intuition congruence|]. intros q [<- |[<- |[<- |[]]]]; assumption.
Qed.
Lemma closed_check : forall cs, forallb (fun e => Nat.eqb (count_occ pair_dec (dirs cs) e) (count_occ pair_dec (dirs cs) (snd e, fst e))) (dirs cs) = true -> closed cs.
Proof.
  intros cs H u v. unfold goes. fold (dirs cs). rewrite forallb_forall in H. destruct (in_dec pair_dec (u, v) (dirs cs)) as [I|I]; [apply H in I; apply Nat.eqb_eq in I; exact I|]. destruct (in_dec pair_dec (v, u) (dirs cs)) as [J|J]; [apply H in J; apply Nat.eqb_eq in J; symmetry; exact J|].
  rewrite (proj1 (count_occ_not_In pair_dec _ _) I), (proj1 (count_occ_not_In pair_dec _ _) J). reflexivity.
Qed.
