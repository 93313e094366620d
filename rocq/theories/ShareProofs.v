(** Proofs about the data that processes share. *)
From Coq Require Import List Arith NArith Bool Lia Sorted.
From Verif Require Import Mpi MpiSpec MpiProofs Stream Share ShareSpec.
From Verif Require StreamSpec StreamProofs.
Import ListNotations.
Open Scope nat_scope.

(** ** Buffers sent one after the other *)
Definition trip : Type := nat * nat * parcel.
Definition t_src (x : trip) : nat := fst (fst x).
Definition t_dst (x : trip) : nat := snd (fst x).
Definition pc (x : trip) : list (comm word) :=
  [Comm (t_src x) (t_dst x) (p_size (snd x)) (fun _ => [WSize (length (p_bytes (snd x)))]) (fun _ => 1);
   Comm (t_src x) (t_dst x) (p_content (snd x)) (fun _ => chars (p_bytes (snd x))) last_size].
Definition pentry (i : nat) (x : trip) : list (rcv word) :=
  if Nat.eqb (t_dst x) i then [(t_src x, p_size (snd x), [WSize (length (p_bytes (snd x)))]); (t_src x, p_content (snd x), chars (p_bytes (snd x)))] else [].

Lemma last_size_app : forall log a t n, last_size (log ++ [(a, t, [WSize n])]) = n.
Proof.
  induction log as [|((b, u), w) log IH]; intros a t n; [reflexivity|]. cbn [app]. specialize (IH a t n). destruct (log ++ [(a, t, [WSize n])]) as [|e r] eqn:Q; [destruct log; discriminate|].
  cbn [last_size]. rewrite <- IH. destruct w as [|[k|k] [|? ?]]; reflexivity.
Qed.
Lemma trips_play : forall ps log, (forall x, In x ps -> t_src x <> t_dst x) ->
  fits (flat_map pc ps) log /\ forall i, play (flat_map pc ps) log i = log i ++ flat_map (pentry i) ps.
Proof.
  induction ps as [|x ps IH]; intros log D; [split; [exact I|]; intros i; cbn; rewrite app_nil_r; reflexivity|].
  assert (Dx : t_src x <> t_dst x) by (apply D; left; reflexivity).
  cbn [flat_map pc app fits play c_src c_dst c_tag c_data c_room]. rewrite !Nat.eqb_refl.
  match goal with |- context [play _ ?f] => set (log' := f) end.
  destruct (IH log' (fun y Iy => D y (or_intror Iy))) as (F & P). split.
  - split; [exact Dx|]. split; [cbn; lia|]. split; [exact Dx|]. split; [rewrite last_size_app; unfold chars; rewrite map_length; lia|exact F].
  - intros i. rewrite P. unfold log', pentry. rewrite (Nat.eqb_sym (t_dst x) i). destruct (Nat.eqb i (t_dst x)); [|reflexivity]. rewrite <- !app_assoc. reflexivity.
Qed.
Lemma buffer_full : forall b, buffer [WSize (length b)] (chars b) = b.
Proof.
  intros b. unfold buffer, chars. rewrite map_map, map_length, Nat.sub_diag. cbn [repeat]. rewrite app_nil_r. apply map_id.
Qed.
Lemma buffers_trips : forall ps i, buffers (flat_map (pentry i) ps) = map (fun x => p_bytes (snd x)) (filter (fun x => Nat.eqb (t_dst x) i) ps).
Proof.
  induction ps as [|x ps IH]; intros i; [reflexivity|]. cbn [flat_map filter]. unfold pentry at 1. destruct (Nat.eqb (t_dst x) i); [|apply IH].
  cbn [app buffers map]. rewrite buffer_full, IH. reflexivity.
Qed.

Definition tags_of (ps : list parcel) : list (nat * nat) := map (fun p => (p_size p, p_content p)) ps.
Definition trips (a b : nat) (ps : list parcel) : list trip := map (fun p => (a, b, p)) ps.
Lemma side_trips : forall i a b ps, flat_map (side i) (flat_map pc (trips a b ps)) =
  if Nat.eqb a i then post b ps else if Nat.eqb b i then fetch a (tags_of ps) else [].
Proof.
  intros i a b ps. induction ps as [|p ps IH]; [cbn; destruct (Nat.eqb a i); [reflexivity|]; destruct (Nat.eqb b i); reflexivity|].
  unfold trips. cbn [map flat_map]. fold (trips a b ps). rewrite flat_map_app, IH. cbn [pc flat_map]. unfold side at 1 2. cbn [c_src c_dst c_tag c_data c_room t_src t_dst fst snd].
  destruct (Nat.eqb a i); [reflexivity|]. destruct (Nat.eqb b i); reflexivity.
Qed.
Lemma flat_map_flat : forall (X Y Z : Type) (f : Y -> list Z) (g : X -> list Y) l, flat_map f (flat_map g l) = flat_map (fun x => flat_map f (g x)) l.
Proof. intros X Y Z f g l. induction l as [|x l IH]; [reflexivity|]. cbn [flat_map]. rewrite flat_map_app, IH. reflexivity. Qed.
Lemma flat_map_same : forall (X Y : Type) (f g : X -> list Y) l, (forall x, In x l -> f x = g x) -> flat_map f l = flat_map g l.
Proof. intros X Y f g l H. induction l as [|x l IH]; [reflexivity|]. cbn [flat_map]. rewrite (H x) by (left; reflexivity). f_equal. apply IH. intros y I. apply H. right. exact I. Qed.
Lemma flat_map_one : forall (Y : Type) (g : nat -> list Y) l x, NoDup l -> In x l -> (forall y, In y l -> y <> x -> g y = []) -> flat_map g l = g x.
Proof.
  intros Y g l x. induction l as [|a l IH]; intros N I H; [destruct I|]. destruct (proj1 (NoDup_cons_iff a l) N) as (Na & N'). cbn [flat_map]. destruct (Nat.eq_dec a x) as [-> | D].
  - rewrite (flat_nil _ _ g l); [apply app_nil_r|]. intros y Iy. apply H; [right; exact Iy|]. intros ->. contradiction.
  - rewrite (H a) by (first [left; reflexivity|exact D]). cbn [app]. apply IH; [exact N'|destruct I as [I|I]; [contradiction|exact I]|]. intros y Iy. apply H. right. exact Iy.
Qed.

Lemma pc_length : forall ps, length (flat_map pc ps) = 2 * length ps.
Proof. induction ps as [|x ps IH]; [reflexivity|]. cbn [flat_map pc app length]. rewrite IH. lia. Qed.
(** processes whose calls are those of some buffers end with those buffers *)
Lemma trips_end : forall p ps bound (result : (nat -> list (rcv word)) -> Prop),
  (forall x, In x ps -> t_src x <> t_dst x) -> (forall i, p i = flat_map (side i) (flat_map pc ps)) -> 4 * length ps <= bound ->
  (forall log, (forall i, buffers (log i) = map (fun x => p_bytes (snd x)) (filter (fun x => Nat.eqb (t_dst x) i) ps)) -> result log) ->
  ends_with p bound result.
Proof.
  intros p ps bound result D P B R k s Hs. destruct (trips_play ps (fun _ => []) D) as (F & G). destruct (choreography _ p F P k s Hs) as (Hk & Hp & Hd).
  split; [rewrite pc_length in Hk; lia|]. split; [exact Hp|]. intros A. apply R. intros i. rewrite (Hd A i), G. cbn [app]. apply buffers_trips.
Qed.
(** and there is an end *)
Lemma end_exists : forall (W : Type) (p : nat -> list (op W)) bound result, ends_with p bound result -> exists k s, steps k (start p) s /\ all_done s.
Proof.
  intros W p bound result H.
  assert (Q : forall n k s, bound < k + n -> steps k (start p) s -> exists k' s', steps k' (start p) s' /\ all_done s').
  { induction n as [|n IH]; intros k s L Hs; destruct (H k s Hs) as (Hk & [Hd | (s' & Hr)] & _).
    - lia.
    - lia.
    - exists k, s. auto.
    - apply (IH (S k) s'); [lia|]. apply (StepsS k _ s s' Hs). right. exact Hr. }
  apply (Q (S bound) 0 (start p)); [lia|]. constructor.
Qed.

(** ** From process 0 *)
Definition zero_trips (nprocs : nat) (ps : list parcel) : list trip := flat_map (fun r => trips 0 r ps) (seq 1 (nprocs - 1)).
Lemma from_zero_sides : forall nprocs ps me, from_zero nprocs ps me = flat_map (side me) (flat_map pc (zero_trips nprocs ps)).
Proof.
  intros nprocs ps me. unfold zero_trips. rewrite (flat_map_flat _ _ _ pc), flat_map_flat. unfold from_zero. destruct (Nat.eqb_spec me 0) as [-> | M].
  - apply flat_map_same. intros r I. rewrite side_trips. reflexivity.
  - destruct (Nat.ltb_spec me nprocs) as [L|L].
    + symmetry. etransitivity; [apply (flat_map_one _ _ _ me); [apply seq_NoDup|apply in_seq; lia|]|].
      * intros y _ D. rewrite side_trips. destruct (Nat.eqb_spec 0 me); [lia|]. destruct (Nat.eqb_spec y me); [contradiction|reflexivity].
      * rewrite side_trips. destruct (Nat.eqb_spec 0 me); [lia|]. rewrite Nat.eqb_refl. reflexivity.
    + symmetry. apply flat_nil. intros y I. apply in_seq in I. rewrite side_trips. destruct (Nat.eqb_spec 0 me); [lia|]. destruct (Nat.eqb_spec y me); [lia|reflexivity].
Qed.
Lemma filter_flat : forall (X Y : Type) (f : Y -> bool) (g : X -> list Y) l, filter f (flat_map g l) = flat_map (fun x => filter f (g x)) l.
Proof. intros X Y f g l. induction l as [|x l IH]; [reflexivity|]. cbn [flat_map]. rewrite filter_app, IH. reflexivity. Qed.
Lemma filter_trips : forall a b i ps, filter (fun x => Nat.eqb (t_dst x) i) (trips a b ps) = if Nat.eqb b i then trips a b ps else [].
Proof.
  intros a b i ps. induction ps as [|p ps IH]; [destruct (Nat.eqb b i); reflexivity|]. unfold trips. cbn [map filter]. fold (trips a b ps). rewrite IH. cbn [t_dst fst snd]. destruct (Nat.eqb b i); reflexivity.
Qed.
Lemma trips_bytes : forall a b ps, map (fun x => p_bytes (snd x)) (trips a b ps) = map p_bytes ps.
Proof. intros. unfold trips. rewrite map_map. reflexivity. Qed.
Lemma zero_buffers : forall nprocs ps me, 0 < me -> me < nprocs -> map (fun x => p_bytes (snd x)) (filter (fun x => Nat.eqb (t_dst x) me) (zero_trips nprocs ps)) = map p_bytes ps.
Proof.
  intros nprocs ps me P L. unfold zero_trips. rewrite filter_flat. rewrite (flat_map_one _ _ _ me); [|apply seq_NoDup|apply in_seq; lia|].
  - rewrite filter_trips, Nat.eqb_refl. apply trips_bytes.
  - intros y _ D. rewrite filter_trips. destruct (Nat.eqb_spec y me); [contradiction|reflexivity].
Qed.
Lemma flat_length : forall (X Y : Type) (f : X -> list Y) k l, (forall x, In x l -> length (f x) <= k) -> length (flat_map f l) <= k * length l.
Proof. intros X Y f k l. induction l as [|x l IH]; intros H; [cbn; lia|]. cbn [flat_map length]. rewrite app_length. pose proof (H x (or_introl eq_refl)). specialize (IH (fun y I => H y (or_intror I))). lia. Qed.
Lemma from_zero_end : forall nprocs ps (result : (nat -> list (rcv word)) -> Prop),
  (forall log, (forall me, 0 < me -> me < nprocs -> buffers (log me) = map p_bytes ps) -> result log) -> ends_with (from_zero nprocs ps) (4 * length ps * (nprocs - 1)) result.
Proof.
  intros nprocs ps result R. apply (trips_end _ (zero_trips nprocs ps)).
  - intros x I. unfold zero_trips in I. apply in_flat_map in I. destruct I as (r & Ir & I). apply in_seq in Ir. apply in_map_iff in I. destruct I as (p & <- & _). cbn. lia.
  - intros i. apply from_zero_sides.
  - assert (L : length (zero_trips nprocs ps) <= length ps * length (seq 1 (nprocs - 1))) by (apply flat_length; intros x _; unfold trips; rewrite map_length; lia). rewrite seq_length in L. nia.
  - intros log H. apply R. intros me P L. rewrite H. apply zero_buffers; assumption.
Qed.
Lemma read_back : forall t, StreamSpec.no_map_in_map t = true -> forall v, StreamSpec.valid t v -> read t (dflt t) (write t v) = Some (v, []).
Proof. intros t O v V. pose proof (proj1 (StreamProofs.read_write t O v V) []) as H. rewrite app_nil_r in H. exact H. Qed.

Lemma read_ends : forall nprocs t x, StreamSpec.no_map_in_map t = true -> StreamSpec.valid t x ->
  ends_with (sendReadDataToAllProcs nprocs t x) (4 * (nprocs - 1)) (fun log => forall me, me < nprocs -> data_read t x me (log me) = Some x).
Proof.
  intros nprocs t x O V. apply from_zero_end. intros log H me L. unfold data_read. destruct (Nat.eqb_spec me 0) as [-> | M]; [reflexivity|].
  rewrite (H me) by lia. cbn [map p_bytes]. rewrite (read_back t O x V). reflexivity.
Qed.

Lemma boundary_ends : forall nprocs b, bc_valid b ->
  ends_with (communicateAllProcsStoredBC nprocs b) (20 * (nprocs - 1)) (fun log => forall me, 0 < me -> me < nprocs ->
    exists c, bc_read b me (log me) = Some c /\ zonetobndpid c = zonetobndpid b /\ bcpidnames c = bcpidnames b /\ zonepidnames c = zonepidnames b /\ pidtolisttype c = [] /\
      forall pid, StreamSpec.value_of N.eq_dec pid (pidtobc c) = match StreamSpec.value_of N.eq_dec pid (pidtolisttype b) with Some y => Some y | None => StreamSpec.value_of N.eq_dec pid (pidtobc b) end).
Proof.
  intros nprocs b (V1 & V2 & V3 & V4 & V5). apply (from_zero_end nprocs (bc_parcels b)). intros log H me P L. unfold bc_read. destruct (Nat.eqb_spec me 0) as [-> | M]; [lia|].
  rewrite (H me P L). cbn [map bc_parcels p_bytes]. unfold into.
  pose proof (read_back t_pidtobc eq_refl _ V1) as R1. pose proof (read_back t_zonetobndpid eq_refl _ V2) as R2. pose proof (read_back t_names eq_refl _ V4) as R4. pose proof (read_back t_names eq_refl _ V5) as R5.
  change (dflt t_pidtobc) with (@nil (N * N)) in R1. change (dflt t_zonetobndpid) with (@nil (N * list N)) in R2. change (dflt t_names) with (@nil (N * list N)) in R4, R5.
  rewrite R1, R2, R4, R5.
  destruct (StreamProofs.read_map_merges (TNum 4) (TNum 4) eq_refl (pidtolisttype b) (pidtobc b) [] V3) as (r & R3 & _ & G); [apply V1|].
  rewrite app_nil_r in R3. change (TMap (TNum 4) (TNum 4)) with t_pidtobc in R3. change (write t_pidtobc (pidtolisttype b)) with (write t_pidtolisttype (pidtolisttype b)) in R3. rewrite R3.
  eexists. split; [reflexivity|]. repeat (split; [reflexivity|]). exact G.
Qed.

(** ** To process 0 *)
Definition gather_trips (nprocs : nat) (ps : nat -> list parcel) : list trip := flat_map (fun r => trips r 0 (ps r)) (seq 1 (nprocs - 1)).
Lemma to_zero_sides : forall nprocs ps tags, (forall r, tags_of (ps r) = tags) -> forall me, to_zero nprocs ps tags me = flat_map (side me) (flat_map pc (gather_trips nprocs ps)).
Proof.
  intros nprocs ps tags T me. unfold gather_trips. rewrite (flat_map_flat _ _ _ pc), flat_map_flat. unfold to_zero. destruct (Nat.eqb_spec me 0) as [-> | M].
  - apply flat_map_same. intros r I. apply in_seq in I. rewrite side_trips. destruct (Nat.eqb_spec r 0); [lia|]. rewrite Nat.eqb_refl, T. reflexivity.
  - destruct (Nat.ltb_spec me nprocs) as [L|L].
    + symmetry. etransitivity; [apply (flat_map_one _ _ _ me); [apply seq_NoDup|apply in_seq; lia|]|].
      * intros y _ D. rewrite side_trips. destruct (Nat.eqb_spec y me); [contradiction|]. destruct (Nat.eqb_spec 0 me); [lia|reflexivity].
      * rewrite side_trips, Nat.eqb_refl. reflexivity.
    + symmetry. apply flat_nil. intros y I. apply in_seq in I. rewrite side_trips. destruct (Nat.eqb_spec y me); [lia|]. destruct (Nat.eqb_spec 0 me); [lia|reflexivity].
Qed.
Lemma map_flat : forall (X Y Z : Type) (f : Y -> Z) (g : X -> list Y) l, map f (flat_map g l) = flat_map (fun x => map f (g x)) l.
Proof. intros X Y Z f g l. induction l as [|x l IH]; [reflexivity|]. cbn [flat_map]. rewrite map_app, IH. reflexivity. Qed.
Lemma to_zero_end : forall nprocs ps tags (result : (nat -> list (rcv word)) -> Prop), (forall r, tags_of (ps r) = tags) ->
  (forall log, buffers (log 0) = flat_map (fun r => map p_bytes (ps r)) (seq 1 (nprocs - 1)) -> result log) ->
  ends_with (to_zero nprocs ps tags) (4 * length tags * (nprocs - 1)) result.
Proof.
  intros nprocs ps tags result T R. apply (trips_end _ (gather_trips nprocs ps)).
  - intros x I. unfold gather_trips in I. apply in_flat_map in I. destruct I as (r & Ir & I). apply in_seq in Ir. apply in_map_iff in I. destruct I as (p & <- & _). cbn. lia.
  - apply (to_zero_sides nprocs ps tags T).
  - assert (L : length (gather_trips nprocs ps) <= length tags * length (seq 1 (nprocs - 1))) by (apply flat_length; intros x _; unfold trips; rewrite map_length, <- (T x); unfold tags_of; rewrite map_length; lia). rewrite seq_length in L. nia.
  - intros log H. apply R. rewrite H. unfold gather_trips. rewrite filter_flat, map_flat. apply flat_map_same. intros r _. rewrite filter_trips, Nat.eqb_refl. apply trips_bytes.
Qed.

(** ** Merging *)
Lemma nodup_app : forall (A : Type) (a b : list A), NoDup a -> NoDup b -> (forall x, In x a -> ~ In x b) -> NoDup (a ++ b).
Proof.
  intros A a b. induction a as [|x a IH]; intros Na Nb D; [exact Nb|]. destruct (proj1 (NoDup_cons_iff x a) Na) as (Nx & Na'). cbn [app]. constructor.
  - intros I. apply in_app_or in I. destruct I as [I|I]; [contradiction|]. exact (D x (or_introl eq_refl) I).
  - apply IH; [exact Na'|exact Nb|]. intros y I. apply D. right. exact I.
Qed.
Lemma has_or_not : forall (A : Type) (l : list (N * A)) id, (exists x, gives l id x) \/ (forall x, ~ gives l id x).
Proof.
  intros A l id. induction l as [|(i, a) l IH]; [right; intros x []|]. destruct (N.eq_dec i id) as [-> | D]; [left; exists a; left; reflexivity|].
  destruct IH as [(x & G) | G]; [left; exists x; right; exact G|right]. intros x [H|H]; [injection H as H _; contradiction|exact (G x H)].
Qed.
Lemma gives_one : forall (A : Type) (l : list (N * A)) id x y, one_each l -> gives l id x -> gives l id y -> x = y.
Proof.
  intros A l id x y. induction l as [|(i, a) l IH]; intros N Hx Hy; [destruct Hx|]. unfold one_each in N; cbn [map fst] in N; destruct (proj1 (NoDup_cons_iff _ _) N) as (Ni & N'). destruct Hx as [Hx|Hx]; destruct Hy as [Hy|Hy].
  - congruence.
  - injection Hx as -> ->. exfalso. apply Ni. apply (in_map fst _ _ Hy).
  - injection Hy as -> ->. exfalso. apply Ni. apply (in_map fst _ _ Hx).
  - apply IH; assumption.
Qed.
(** a merge keeps what is there and adds the rest *)
Definition merges {A : Type} (new l r : list (N * A)) : Prop :=
  forall id x, gives r id x <-> gives l id x \/ (forall y, ~ gives l id y) /\ gives new id x.
Lemma merge_step : forall (A : Type) (e : N * A) (new l r r' : list (N * A)), one_each (e :: new) ->
  merges [e] l r -> merges new r r' -> merges (e :: new) l r'.
Proof.
  intros A e new l r r' N M1 M2 id x. rewrite (M2 id x), (M1 id x). unfold one_each in N. cbn [map] in N. destruct (proj1 (NoDup_cons_iff _ _) N) as (Ne & _). split.
  - intros [[G | (Z & [-> | []])] | (Z & G)]; [left; exact G|right; split; [exact Z|left; reflexivity]|].
    right. split; [|right; exact G]. intros y Gy. apply (Z y). apply M1. left. exact Gy.
  - intros [G | (Z & [-> | G])]; [left; left; exact G|left; right; split; [exact Z|left; reflexivity]|].
    right. split; [|exact G]. intros y Gy. apply M1 in Gy. destruct Gy as [Gy | (_ & [-> | []])]; [exact (Z y Gy)|]. apply Ne. apply (in_map fst _ _ G).
Qed.
Lemma merge_nil : forall (A : Type) (l : list (N * A)), merges [] l l.
Proof. intros A l id x. split; [intros G; left; exact G|]. intros [G | (_ & [])]. exact G. Qed.
Lemma from_first_start : forall (A : Type) (data : nat -> list (N * A)) r, from_first [r] data (data r).
Proof.
  intros A data r id x. split.
  - intros G. exists [], r, []. split; [reflexivity|]. split; [exact G|intros q y []].
  - intros ([|b before] & q & after & Q & G & _); cbn [app] in Q; injection Q as -> Q; [exact G|]. destruct before; discriminate.
Qed.
Lemma from_first_next : forall (A : Type) (data : nat -> list (N * A)) order r l l', from_first order data l -> merges (data r) l l' -> from_first (order ++ [r]) data l'.
Proof.
  intros A data order r l l' F M id x. rewrite (M id x). split.
  - intros [G | (Z & G)].
    + apply F in G. destruct G as (before & q & after & -> & G & B). exists before, q, (after ++ [r]). rewrite <- app_assoc. auto.
    + exists order, r, []. split; [reflexivity|]. split; [exact G|]. intros q y I Gy.
      (* the first of the order that has the id *)
      assert (H : forall l1 l2, order = l1 ++ l2 -> (forall p z, In p l1 -> ~ gives (data p) id z) -> forall p z, In p l2 -> ~ gives (data p) id z).
      { intros l1 l2. revert l1. induction l2 as [|p l2 IH]; intros l1 Q B p' z I' Gz; [destruct I'|].
        assert (Np : forall z, ~ gives (data p) id z) by (intros z' Gz'; apply (Z z'), F; exists l1, p, l2; auto).
        destruct I' as [-> | I']; [exact (Np z Gz)|]. apply (IH (l1 ++ [p])) with (p := p') (z := z); [rewrite <- app_assoc; exact Q| |exact I'|exact Gz].
        intros p2 z2 I2. apply in_app_or in I2. destruct I2 as [I2 | [<- | []]]; [apply B; exact I2|apply Np]. }
      exact (H [] order eq_refl (fun p z I => match I with end) q y I Gy).
  - intros (before & q & after & Q & G & B). destruct after as [|a after] using rev_ind.
    + apply app_inj_tail in Q. destruct Q as (-> & ->). destruct (has_or_not A l id) as [(y & Gy) | Z]; [|right; split; assumption].
      apply F in Gy. destruct Gy as (b & p & a & Q & Gp & _). exfalso. apply (B p y); [rewrite Q; apply in_or_app; right; left; reflexivity|exact Gp].
    + clear IHafter. left. apply F. rewrite app_comm_cons, app_assoc in Q. apply app_inj_tail in Q. destruct Q as (-> & _). exists before, q, after. auto.
Qed.

Lemma add_new_merges : forall (A : Type) (l : list (N * A)) e, merges [e] l (add_new l e).
Proof.
  intros A l e id x. unfold add_new. destruct (existsb (fun x => N.eqb (fst x) (fst e)) l) eqn:B.
  - apply existsb_exists in B. destruct B as ((i, a) & I & Q). apply N.eqb_eq in Q. cbn [fst] in Q. split; [left; assumption|]. intros [G | (Z & [-> | []])]; [exact G|]. cbn [fst] in Q. subst i. exfalso. exact (Z a I).
  - assert (Z : forall y, ~ gives l (fst e) y).
    { intros y G. assert (T : existsb (fun x => N.eqb (fst x) (fst e)) l = true) by (apply existsb_exists; exists (fst e, y); split; [exact G|apply N.eqb_refl]). congruence. }
    unfold gives. rewrite in_app_iff. split; [intros [G | [-> | []]]; [left; exact G|right; split; [exact Z|left; reflexivity]]|]. intros [G | (_ & [-> | []])]; [left; exact G|right; left; reflexivity].
Qed.
Lemma add_new_once : forall (A : Type) (l : list (N * A)) e, one_each l -> one_each (add_new l e).
Proof.
  intros A l e H. unfold add_new. destruct (existsb (fun x => N.eqb (fst x) (fst e)) l) eqn:B; [exact H|]. unfold one_each. rewrite map_app. cbn [map]. apply nodup_app; [exact H|constructor; [intros []|constructor]|].
  intros i I [<- | []]. apply in_map_iff in I. destruct I as ((i & a) & Q & I). cbn [fst] in Q. subst i.
  assert (T : existsb (fun x => N.eqb (fst x) (fst e)) l = true) by (apply existsb_exists; exists (fst e, a); split; [exact I|apply N.eqb_refl]). congruence.
Qed.
Lemma fold_add : forall (A : Type) (new l : list (N * A)), one_each new -> one_each l -> merges new l (fold_left add_new new l) /\ one_each (fold_left add_new new l).
Proof.
  intros A new. induction new as [|e new IH]; intros l N L; [split; [apply merge_nil|exact L]|]. cbn [fold_left].
  pose proof N as N0. unfold one_each in N0. cbn [map] in N0. destruct (proj1 (NoDup_cons_iff _ _) N0) as (_ & N').
  destruct (IH (add_new l e) N' (add_new_once _ _ _ L)) as (M & O). split; [|exact O]. apply (merge_step A e new l (add_new l e)); [exact N|apply add_new_merges|exact M].
Qed.

Section Collect.
  Variable memory : N -> bool.
  Variable t : ty.
  Variable loc : nat -> field (den t).
  Hypothesis plain : StreamSpec.no_map_in_map (TField t) = true.
  Lemma temp_reads : forall r, StreamSpec.valid (TField t) (loc r) -> temp_read memory t (write (TField t) (loc r)) =
    if N.eqb (snd (f_geo (loc r))) 0 || memory (snd (f_geo (loc r))) then Some (loc r) else None.
  Proof. intros r V. unfold temp_read. rewrite (read_back (TField t) plain (loc r) V). reflexivity. Qed.
  Lemma gather_first : forall ranks l order, (forall r, In r ranks -> StreamSpec.valid (TField t) (loc r) /\ (snd (f_geo (loc r)) = 0%N \/ memory (snd (f_geo (loc r))) = true)) ->
    one_each l -> from_first order (fun r => f_data (loc r)) l ->
    exists l', gather_all memory t (map (fun r => write (TField t) (loc r)) ranks) l = Some l' /\ one_each l' /\ from_first (order ++ ranks) (fun r => f_data (loc r)) l'.
  Proof.
    induction ranks as [|r ranks IH]; intros l order H O F; [exists l; rewrite app_nil_r; split; [reflexivity|split; assumption]|].
    destruct (H r (or_introl eq_refl)) as (V & G). cbn [map gather_all]. rewrite (temp_reads r V).
    assert (Q : N.eqb (snd (f_geo (loc r))) 0 || memory (snd (f_geo (loc r))) = true) by (destruct G as [-> | ->]; [reflexivity|apply orb_true_r]). rewrite Q.
    assert (U : one_each (f_data (loc r))) by apply V. destruct (fold_add _ _ _ U O) as (M & O').
    destruct (IH _ (order ++ [r]) (fun q I => H q (or_intror I)) O' (from_first_next _ (fun r => f_data (loc r)) order r l _ F M)) as (l' & E1 & E2 & E3).
    exists l'. split; [exact E1|]. split; [exact E2|]. rewrite <- app_assoc in E3. exact E3.
  Qed.
End Collect.

Lemma collect_ends : forall nprocs memory t (loc : nat -> field (den t)), 0 < nprocs -> StreamSpec.no_map_in_map (TField t) = true ->
  (forall r, r < nprocs -> StreamSpec.valid (TField t) (loc r)) -> (forall r, 0 < r < nprocs -> snd (f_geo (loc r)) = 0%N) ->
  ends_with (collectDataFromAllProcs nprocs t loc) (4 * (nprocs - 1)) (fun log => exists f, data_collected memory t loc (log 0) = Some f /\
    f_name f = f_name (loc 0) /\ f_loc f = f_loc (loc 0) /\ one_each (f_data f) /\ from_first (seq 0 nprocs) (fun r => f_data (loc r)) (f_data f)).
Proof.
  intros nprocs memory t loc P O V G. apply (to_zero_end nprocs (fun r => [Parcel 100 110 (write (TField t) (loc r))]) [(100, 110)]); [reflexivity|].
  intros log B. unfold data_collected. rewrite B.
  destruct (gather_first memory t loc O (seq 1 (nprocs - 1)) (f_data (loc 0)) [0]) as (l & E1 & E2 & E3).
  - intros r I. apply in_seq in I. split; [apply V; lia|left; apply G; lia].
  - apply (V 0 P).
  - apply (from_first_start _ (fun r => f_data (loc r))).
  - replace (flat_map (fun r => map p_bytes [Parcel 100 110 (write (TField t) (loc r))]) (seq 1 (nprocs - 1))) with (map (fun r => write (TField t) (loc r)) (seq 1 (nprocs - 1))).
    + rewrite E1. eexists. split; [reflexivity|]. cbn [f_name f_loc f_data]. split; [reflexivity|]. split; [reflexivity|]. split; [exact E2|]. replace nprocs with (S (nprocs - 1)) by lia. exact E3.
    + clear. generalize (seq 1 (nprocs - 1)) as l. induction l as [|a l IH]; [reflexivity|]. cbn [map flat_map app p_bytes]. rewrite IH. reflexivity.
Qed.
(** a geometry in another process *)
Lemma collect_foreign : forall nprocs memory t (loc : nat -> field (den t)) r, StreamSpec.no_map_in_map (TField t) = true -> (forall r, r < nprocs -> StreamSpec.valid (TField t) (loc r)) ->
  0 < r < nprocs -> snd (f_geo (loc r)) <> 0%N -> memory (snd (f_geo (loc r))) = false ->
  ends_with (collectDataFromAllProcs nprocs t loc) (4 * (nprocs - 1)) (fun log => data_collected memory t loc (log 0) = None).
Proof.
  intros nprocs memory t loc r O V L Z M. apply (to_zero_end nprocs (fun r => [Parcel 100 110 (write (TField t) (loc r))]) [(100, 110)]); [reflexivity|].
  intros log B. unfold data_collected. rewrite B.
  assert (H : forall ranks l, In r ranks -> (forall q, In q ranks -> q < nprocs) -> gather_all memory t (flat_map (fun r => map p_bytes [Parcel 100 110 (write (TField t) (loc r))]) ranks) l = None).
  { induction ranks as [|q ranks IH]; intros l I Lq; [destruct I|]. cbn [flat_map map p_bytes app gather_all]. rewrite (temp_reads memory t loc O q (V q (Lq q (or_introl eq_refl)))).
    destruct (N.eqb (snd (f_geo (loc q))) 0 || memory (snd (f_geo (loc q)))) eqn:T; [|reflexivity].
    destruct I as [-> | I]; [|apply IH; [exact I|intros p Ip; apply Lq; right; exact Ip]]. rewrite M, orb_false_r in T. apply N.eqb_eq in T. contradiction. }
  rewrite H; [reflexivity|apply in_seq; lia|]. intros q I. apply in_seq in I. lia.
Qed.

(** ** Every process to every other *)
Definition all_trips (nprocs : nat) (ps : nat -> list parcel) : list trip :=
  flat_map (fun a => flat_map (fun r => if Nat.eqb a r then [] else trips a r (ps a)) (seq 0 nprocs)) (seq 0 nprocs).
Lemma to_all_sides : forall nprocs ps tags, (forall r, tags_of (ps r) = tags) -> forall me, to_all nprocs ps tags me = flat_map (side me) (flat_map pc (all_trips nprocs ps)).
Proof.
  intros nprocs ps tags T me. unfold all_trips. rewrite (flat_map_flat _ _ _ pc), flat_map_flat. unfold to_all. destruct (Nat.ltb_spec me nprocs) as [L|L].
  - apply flat_map_same. intros a Ia. apply in_seq in Ia. rewrite (flat_map_flat _ _ _ pc), flat_map_flat. destruct (Nat.eqb_spec me a) as [<- | D].
    + apply flat_map_same. intros r _. destruct (Nat.eqb me r); [reflexivity|]. rewrite side_trips, Nat.eqb_refl. reflexivity.
    + symmetry. etransitivity; [apply (flat_map_one _ _ _ me); [apply seq_NoDup|apply in_seq; lia|]|].
      * intros y _ Dy. destruct (Nat.eqb a y); [reflexivity|]. rewrite side_trips. destruct (Nat.eqb_spec a me); [congruence|]. destruct (Nat.eqb_spec y me); [contradiction|reflexivity].
      * destruct (Nat.eqb_spec a me); [congruence|]. rewrite side_trips. destruct (Nat.eqb_spec a me); [congruence|]. rewrite Nat.eqb_refl, T. reflexivity.
  - symmetry. apply flat_nil. intros a Ia. apply in_seq in Ia. apply flat_nil. intros c Ic. rewrite (flat_map_flat _ _ _ pc) in Ic. apply in_flat_map in Ic. destruct Ic as (r & Ir & Ic). apply in_seq in Ir.
    assert (H : flat_map (side me) (flat_map pc (if Nat.eqb a r then [] else trips a r (ps a))) = []).
    { destruct (Nat.eqb a r); [reflexivity|]. rewrite side_trips. destruct (Nat.eqb_spec a me); [lia|]. destruct (Nat.eqb_spec r me); [lia|reflexivity]. }
    exact (flat_nil_inv _ _ _ _ H c Ic).
Qed.
Lemma to_all_end : forall nprocs ps tags (result : (nat -> list (rcv word)) -> Prop), (forall r, tags_of (ps r) = tags) ->
  (forall log, (forall me, me < nprocs -> buffers (log me) = flat_map (fun a => map p_bytes (ps a)) (other nprocs me)) -> result log) ->
  ends_with (to_all nprocs ps tags) (4 * length tags * nprocs * nprocs) result.
Proof.
  intros nprocs ps tags result T R. apply (trips_end _ (all_trips nprocs ps)).
  - intros x I. unfold all_trips in I. apply in_flat_map in I. destruct I as (a & _ & I). apply in_flat_map in I. destruct I as (r & _ & I). destruct (Nat.eqb_spec a r) as [E|E]; [destruct I|]. apply in_map_iff in I. destruct I as (p & <- & _). exact E.
  - apply (to_all_sides nprocs ps tags T).
  - assert (L : length (all_trips nprocs ps) <= (length tags * nprocs) * length (seq 0 nprocs)).
    { apply flat_length. intros a _. rewrite <- (seq_length nprocs 0) at 2. apply flat_length. intros r _. destruct (Nat.eqb a r); [cbn; lia|]. unfold trips. rewrite map_length, <- (T a). unfold tags_of. rewrite map_length. lia. }
    rewrite seq_length in L. nia.
  - intros log H. apply R. intros me L. rewrite H. unfold all_trips, other. rewrite filter_flat, map_flat.
    assert (Q : forall l, (forall a, In a l -> a < nprocs) ->
      flat_map (fun x => map (fun y => p_bytes (snd y)) (filter (fun y => Nat.eqb (t_dst y) me) (flat_map (fun r => if Nat.eqb x r then [] else trips x r (ps x)) (seq 0 nprocs)))) l =
      flat_map (fun a => map p_bytes (ps a)) (filter (fun a => negb (Nat.eqb a me)) l)).
    { induction l as [|a l IH]; intros La; [reflexivity|]. cbn [flat_map filter]. rewrite (IH (fun b I => La b (or_intror I))). rewrite filter_flat.
      rewrite (flat_map_one _ (fun x => filter (fun y => Nat.eqb (t_dst y) me) (if Nat.eqb a x then [] else trips a x (ps a))) _ me); [|apply seq_NoDup|apply in_seq; lia|].
      - destruct (Nat.eqb_spec a me) as [E|E]; cbn [negb]; [reflexivity|]. rewrite filter_trips, Nat.eqb_refl, trips_bytes. reflexivity.
      - intros y _ D. destruct (Nat.eqb a y); [reflexivity|]. rewrite filter_trips. destruct (Nat.eqb_spec y me); [contradiction|reflexivity]. }
    apply Q. intros a I. apply in_seq in I. lia.
Qed.

(** ** Maps by increasing id *)
Definition inc {A : Type} (l : list (N * A)) : Prop := StronglySorted (fun a b => (fst a < fst b)%N) l.
Lemma inc_by : forall (A : Type) (l : list (N * A)), inc l <-> by_increasing_id l.
Proof.
  intros A l. split.
  - intros H. induction H as [|e l S IH F]; intros i j a b L Na Nb; [destruct i; discriminate|]. destruct j as [|j]; [lia|]. cbn [nth_error] in Nb. destruct i as [|i]; cbn [nth_error] in Na.
    + injection Na as <-. apply nth_error_In in Nb. exact (proj1 (Forall_forall _ _) F b Nb).
    + apply (IH i j); [lia|exact Na|exact Nb].
  - induction l as [|e l IH]; intros H; [constructor|]. constructor.
    + apply IH. intros i j a b L Na Nb. apply (H (S i) (S j)); [lia|exact Na|exact Nb].
    + apply Forall_forall. intros b I. apply In_nth_error in I. destruct I as (j & Nb). apply (H 0 (S j)); [lia|reflexivity|exact Nb].
Qed.
Lemma inc_once : forall (A : Type) (l : list (N * A)), inc l -> one_each l.
Proof.
  intros A l H. induction H as [|e l S IH F]; [constructor|]. unfold one_each. cbn [map]. constructor; [|exact IH]. intros I. apply in_map_iff in I. destruct I as (b & Q & I). pose proof (proj1 (Forall_forall _ _) F b I) as X. cbn beta in X. rewrite Q in X. lia.
Qed.
Lemma inc_unique : forall (A : Type) (l r : list (N * A)), inc l -> inc r -> (forall id x, gives l id x <-> gives r id x) -> l = r.
Proof.
  intros A l r H. revert r. induction H as [|(i, a) l S IH F]; intros r R E.
  - destruct r as [|(j, b) r]; [reflexivity|]. exfalso. apply (proj2 (E j b)). left. reflexivity.
  - destruct R as [|(j, b) r R G]; [exfalso; apply (proj1 (E i a)); left; reflexivity|].
    assert (Q : (i, a) = (j, b)).
    { destruct (proj1 (E i a) (or_introl eq_refl)) as [X|X]; [symmetry; exact X|]. destruct (proj2 (E j b) (or_introl eq_refl)) as [Y|Y]; [exact Y|].
      pose proof (proj1 (Forall_forall _ _) G _ X) as X'. pose proof (proj1 (Forall_forall _ _) F _ Y) as Y'. cbn in X', Y'. lia. }
    injection Q as <- <-. f_equal. apply IH; [exact R|]. intros id x. split; intros X.
    + destruct (proj1 (E id x) (or_intror X)) as [Y|Y]; [|exact Y]. injection Y as <- <-. pose proof (proj1 (Forall_forall _ _) F _ X) as X'. cbn in X'. lia.
    + destruct (proj2 (E id x) (or_intror X)) as [Y|Y]; [|exact Y]. injection Y as <- <-. pose proof (proj1 (Forall_forall _ _) G _ X) as X'. cbn in X'. lia.
Qed.
Lemma insert_new_in : forall (A : Type) (e : N * A) l y, In y (insert_new e l) -> y = e \/ In y l.
Proof.
  intros A e l y. induction l as [|a l IH]; cbn [insert_new]; [intros [<- | []]; left; reflexivity|]. destruct (N.ltb (fst e) (fst a)); [intros [<- | I]; [left; reflexivity|right; exact I]|].
  destruct (N.eqb (fst e) (fst a)); [intros I; right; exact I|]. intros [<- | I]; [right; left; reflexivity|]. destruct (IH I) as [-> | I']; [left; reflexivity|right; right; exact I'].
Qed.
Lemma insert_new_inc : forall (A : Type) (e : N * A) l, inc l -> inc (insert_new e l).
Proof.
  intros A e l H. induction H as [|a l S IH F]; cbn [insert_new]; [constructor; constructor|]. destruct (N.ltb_spec (fst e) (fst a)) as [L|L].
  - constructor; [constructor; assumption|]. constructor; [exact L|]. apply Forall_forall. intros b I. pose proof (proj1 (Forall_forall _ _) F b I) as X. cbn beta in X. lia.
  - destruct (N.eqb_spec (fst e) (fst a)) as [Q|Q]; [constructor; assumption|]. constructor; [exact IH|]. apply Forall_forall. intros b I. apply insert_new_in in I. destruct I as [-> | I]; [lia|]. exact (proj1 (Forall_forall _ _) F b I).
Qed.
Lemma insert_new_merges : forall (A : Type) (l : list (N * A)) e, inc l -> merges [e] l (insert_new e l).
Proof.
  intros A l e H id x. induction H as [|a l S IH F].
  - cbn. split; [intros [G | []]; right; split; [intros y []|left; exact G]|]. intros [[] | (_ & G)]. exact G.
  - cbn [insert_new]. destruct (N.ltb_spec (fst e) (fst a)) as [L|L].
    + split; [|intros [G | (_ & [-> | []])]; [right; exact G|left; reflexivity]]. intros [-> | G]; [|left; exact G]. right. split; [|left; reflexivity]. cbn [fst] in L.
      intros y [-> | G]; [cbn [fst] in L; lia|]. pose proof (proj1 (Forall_forall _ _) F _ G) as X. cbn in X. lia.
    + destruct (N.eqb_spec (fst e) (fst a)) as [Q|Q].
      * split; [intros G; left; exact G|]. intros [G | (Z & [-> | []])]; [exact G|]. cbn [fst] in Q. exfalso. apply (Z (snd a)). left. destruct a as (j, b). cbn in *. congruence.
      * unfold gives in *. cbn [In]. rewrite IH. split.
        -- intros [G | [G | (Z & G)]]; [left; left; exact G|left; right; exact G|]. right. split; [|exact G]. destruct G as [-> | []]. cbn [fst] in Q. intros y [-> | G]; [cbn [fst] in Q; congruence|exact (Z y G)].
        -- intros [[G | G] | (Z & G)]; [left; exact G|right; left; exact G|]. right. right. split; [|exact G]. intros y Gy. apply (Z y). right. exact Gy.
Qed.
Lemma insert_all_right : forall (A : Type) (new l : list (N * A)), one_each new -> inc l -> merges new l (insert_all new l) /\ inc (insert_all new l).
Proof.
  intros A new. induction new as [|e new IH]; intros l N L; [split; [apply merge_nil|exact L]|]. unfold insert_all. cbn [fold_left]. fold (insert_all new (insert_new e l)).
  pose proof N as N0. unfold one_each in N0. cbn [map] in N0. destruct (proj1 (NoDup_cons_iff _ _) N0) as (_ & N').
  destruct (IH (insert_new e l) N' (insert_new_inc _ _ _ L)) as (M & O). split; [|exact O]. apply (merge_step A e new l (insert_new e l)); [exact N|apply insert_new_merges; exact L|exact M].
Qed.

Lemma absorb_first : forall (mine : nat -> rbf_maps) ranks order m, (forall r, In r ranks -> maps_valid (mine r)) -> maps_first order mine m ->
  exists m', absorb (flat_map (fun r => map p_bytes (rbf_parcels (mine r))) ranks) m = Some m' /\ maps_first (order ++ ranks) mine m'.
Proof.
  intros mine ranks. induction ranks as [|r ranks IH]; intros order m V F; [exists m; rewrite app_nil_r; split; [reflexivity|exact F]|].
  destruct (V r (or_introl eq_refl)) as (V1 & V2 & V3 & I1 & I2 & I3). cbn [flat_map rbf_parcels map p_bytes app absorb]. unfold into.
  pose proof (read_back t_points eq_refl _ V1) as R1. pose proof (read_back t_points eq_refl _ V2) as R2. pose proof (read_back t_radii eq_refl _ V3) as R3.
  change (dflt t_points) with (@nil (N * list N)) in R1, R2. change (dflt t_radii) with (@nil (N * N)) in R3. rewrite R1, R2, R3.
  destruct F as ((J1 & J2 & J3) & F1 & F2 & F3). apply inc_by in I1, I2, I3, J1, J2, J3.
  destruct (insert_all_right _ _ _ (inc_once _ _ I1) J1) as (M1 & K1). destruct (insert_all_right _ _ _ (inc_once _ _ I2) J2) as (M2 & K2). destruct (insert_all_right _ _ _ (inc_once _ _ I3) J3) as (M3 & K3).
  match goal with |- context [absorb _ ?x] => destruct (IH (order ++ [r]) x (fun q I => V q (or_intror I))) as (m' & E1 & E2) end.
  - split; [cbn; split; [apply inc_by; exact K1|split; [apply inc_by; exact K2|apply inc_by; exact K3]]|]. cbn [m_nodes m_displs m_radii].
    split; [apply (from_first_next _ (fun r => m_nodes (mine r)) order r _ _ F1 M1)|]. split; [apply (from_first_next _ (fun r => m_displs (mine r)) order r _ _ F2 M2)|apply (from_first_next _ (fun r => m_radii (mine r)) order r _ _ F3 M3)].
  - exists m'. split; [exact E1|]. rewrite <- app_assoc in E2. exact E2.
Qed.
Lemma exchange_ends : forall nprocs mine, (forall r, r < nprocs -> maps_valid (mine r)) ->
  ends_with (exchange nprocs mine) (12 * nprocs * nprocs) (fun log => forall me, me < nprocs ->
    exists m, maps_known mine me (log me) = Some m /\ maps_first (me :: other nprocs me) mine m).
Proof.
  intros nprocs mine V. apply (to_all_end nprocs (fun r => rbf_parcels (mine r)) [(900, 910); (920, 930); (920, 930)]); [reflexivity|].
  intros log H me L. unfold maps_known. rewrite (H me L). apply (absorb_first mine (other nprocs me) [me] (mine me)).
  - intros r I. apply filter_In in I. destruct I as (I & _). apply in_seq in I. apply V. lia.
  - destruct (V me L) as (_ & _ & _ & J). split; [exact J|]. split; [apply (from_first_start _ (fun r => m_nodes (mine r)))|]. split; [apply (from_first_start _ (fun r => m_displs (mine r)))|apply (from_first_start _ (fun r => m_radii (mine r)))].
Qed.
Lemma first_union : forall (A : Type) nprocs (data : nat -> list (N * A)) me l, me < nprocs -> agree nprocs data -> (forall r, r < nprocs -> one_each (data r)) ->
  from_first (me :: other nprocs me) data l -> union nprocs data l.
Proof.
  intros A nprocs data me l L G O F id x.
  assert (Ord : forall r, In r (me :: other nprocs me) <-> r < nprocs).
  { intros r. unfold other. cbn [In]. rewrite filter_In, in_seq, negb_true_iff, Nat.eqb_neq. split; [intros [<- | I]; lia|]. intros Lr. destruct (Nat.eq_dec me r); [left; assumption|right; lia]. }
  rewrite (F id x). split.
  - intros (b & r & a & Q & Gr & _). exists r. split; [|exact Gr]. apply Ord. rewrite Q. apply in_or_app. right. left. reflexivity.
  - intros (r & Lr & Gr).
    assert (H : forall l2 l1, me :: other nprocs me = l1 ++ l2 -> (forall q y, In q l1 -> ~ gives (data q) id y) -> In r l2 -> exists b r' a, me :: other nprocs me = b ++ r' :: a /\ gives (data r') id x /\ forall q y, In q b -> ~ gives (data q) id y).
    { induction l2 as [|p l2 IH]; intros l1 Q B I; [destruct I|]. destruct (has_or_not A (data p) id) as [(y & Gy) | Z].
      - assert (Lp : p < nprocs) by (apply Ord; rewrite Q; apply in_or_app; right; left; reflexivity). exists l1, p, l2. split; [exact Q|]. split; [|exact B]. rewrite <- (G p r id y x Lp Lr Gy Gr). exact Gy.
      - destruct I as [-> | I]; [exfalso; exact (Z x Gr)|]. apply (IH (l1 ++ [p])); [rewrite <- app_assoc; exact Q| |exact I]. intros q y Iq. apply in_app_or in Iq. destruct Iq as [Iq | [<- | []]]; [apply B; exact Iq|apply Z]. }
    apply (H (me :: other nprocs me) []); [reflexivity|intros q y []|apply Ord; exact Lr].
Qed.

(** ** The lists given to the RBF *)
Lemma put_at_length : forall (A : Type) (x y : A) pre l, put_at (length pre) x (pre ++ y :: l) = Some (pre ++ x :: l).
Proof. intros A x y pre l. induction pre as [|a pre IH]; [reflexivity|]. cbn [app length put_at]. rewrite IH. reflexivity. Qed.
Lemma entry_here : forall (A : Type) (m : list (N * A)) id x, one_each m -> gives m id x -> entry_of id m = Some x.
Proof.
  intros A m id x O G. induction m as [|(i, a) m IH]; [destruct G|]. cbn [entry_of]. destruct (N.eqb_spec i id) as [-> | D].
  - f_equal. apply (gives_one A ((id, a) :: m) id); [exact O|left; reflexivity|exact G].
  - destruct G as [G|G]; [injection G as G _; contradiction|]. unfold one_each in O. cbn [map] in O. apply IH; [apply (proj1 (NoDup_cons_iff _ _) O)|exact G].
Qed.
Lemma put_radii_all : forall (m : list (N * N)) rest pre, one_each m -> (forall id x, gives rest id x -> gives m id x) ->
  put_radii m (map fst rest) (length pre) (pre ++ repeat 0%N (length rest)) = Some (pre ++ map snd rest).
Proof.
  intros m rest. induction rest as [|(id, x) rest IH]; intros pre O H; [reflexivity|]. cbn [map fst snd put_radii length repeat].
  rewrite (entry_here _ m id x O) by (apply H; left; reflexivity). rewrite put_at_length. specialize (IH (pre ++ [x]) O (fun i y G => H i y (or_intror G))).
  rewrite app_length in IH. cbn [length] in IH. rewrite Nat.add_1_r in IH. rewrite <- !app_assoc in IH. exact IH.
Qed.
Lemma put_radii_none : forall ids count l, put_radii [] ids count l = Some l.
Proof. induction ids as [|id ids IH]; intros count l; [reflexivity|]. apply IH. Qed.
