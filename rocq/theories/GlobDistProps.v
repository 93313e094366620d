(** C100, C101: distances, location and projection on a surface spread over several processes. *)
From Coq Require Import List Arith Bool Lia Reals Lra.
From Verif Require Import Vec Mpi MpiSpec MpiProofs GlobDist GlobDistSpec GlobDistProofs.
Import ListNotations.
Open Scope nat_scope.

(** Points of every process, on a surface spread over several: whatever the schedule, and even if the
    library never copies a message, the processes do not block each other, end, and every point has the
    normal and the sign computed by the owner of its cell. *)
Theorem C100_signed : forall big pseudo nprocs queries dist k s, 1 < nprocs -> valid nprocs queries ->
  steps k (start (program vec reply nprocs queries vzero (signed_answers pseudo))) s ->
  k <= 10 * (nprocs * (nprocs - 1)) /\
  (all_done s \/ exists s', recv_step s s') /\
  (all_done s -> forall me ip q, me < nprocs -> nth_error (queries me) ip = Some q ->
     signedGlobalDistance big pseudo nprocs true queries dist me (got s me) ip = signed_right big pseudo q (dist me ip)).
Proof.
  intros big pseudo nprocs queries dist k s N V H. set (ans := signed_answers pseudo) in *.
  assert (Tg : NoDup (map fst ans)) by (cbn; repeat constructor; cbn; intuition discriminate).
  assert (Fr : forall a, In a ans -> fst a <> 0 /\ fst a <> 100 /\ fst a <> 101) by (intros a [<- | [<- | []]]; cbn; lia).
  destruct (exchange_ends vec reply nprocs queries vzero ans Tg Fr k s H) as (B & Pg & Rs). split; [unfold total_calls in B; cbn [ans signed_answers length] in B; lia|]. split; [exact Pg|]. intros Dn me ip q M Q.
  rewrite (Rs Dn me). set (log := play _ _ me). unfold signedGlobalDistance. destruct (Nat.ltb_spec 1 nprocs); [|lia]. cbn [andb].
  assert (L : ip < length (queries me)) by (apply nth_error_Some; congruence). assert (Nq : nth ip (queries me) (blank vec vzero) = q) by (apply nth_error_nth; exact Q). pose proof (V me q M (nth_error_In _ _ Q)) as Vq.
  destruct (fill_at vec nprocs queries vzero _ me (signed_put log) (signed_local big pseudo queries dist me) ip L) as (F1 & F2). rewrite Nq in F1, F2. unfold signed_right. destruct (q_rank q) as [r|] eqn:Qr.
  - destruct (Nat.eq_dec r me) as [-> | D].
    + rewrite F2 by (right; reflexivity). unfold signed_local, owned, the_query. rewrite Nq, Qr, Nat.eqb_refl. destruct Vq as (_ & Vi). destruct (q_id q); [|congruence]. destruct (pseudo me (q_point q) (Some n)); reflexivity.
    + destruct (F1 (proj1 Vq) D) as (jp & Lj & Nj & ->). unfold signed_put.
      pose proof (exchange_answers vec reply nprocs queries vzero ans Tg Fr me r (102, fun r p id => RNormal (snd (pseudo r p id))) jp M (proj1 Vq) D (or_introl eq_refl) Lj) as X2.
      pose proof (exchange_answers vec reply nprocs queries vzero ans Tg Fr me r (103, fun r p id => RSign (fst (pseudo r p id))) jp M (proj1 Vq) D (or_intror (or_introl eq_refl)) Lj) as X3.
      cbv zeta in X2, X3. rewrite Nj in X2, X3. cbn [snd fst] in X2, X3. fold log in X2, X3. rewrite X2, X3. unfold signed_local, owned, the_query. rewrite Nq, Qr. destruct (Nat.eqb_spec r me); [contradiction|]. reflexivity.
  - rewrite F2 by (left; reflexivity). unfold signed_local, owned, the_query. rewrite Nq, Qr. reflexivity.
Qed.

(** The same for the cells the points are on. *)
Theorem C100_located : forall belongs nprocs queries k s, 1 < nprocs -> valid nprocs queries ->
  steps k (start (program vec bool nprocs queries vzero (locate_answers belongs))) s ->
  k <= 8 * (nprocs * (nprocs - 1)) /\
  (all_done s \/ exists s', recv_step s s') /\
  (all_done s -> forall me ip q, me < nprocs -> nth_error (queries me) ip = Some q ->
     locatePointOnGlobalPatch belongs nprocs true queries me (got s me) ip = located_right belongs q).
Proof.
  intros belongs nprocs queries k s N V H. set (ans := locate_answers belongs) in *.
  assert (Tg : NoDup (map fst ans)) by (cbn; repeat constructor; cbn; intuition discriminate).
  assert (Fr : forall a, In a ans -> fst a <> 0 /\ fst a <> 100 /\ fst a <> 101) by (intros a [<- | []]; cbn; lia).
  destruct (exchange_ends vec bool nprocs queries vzero ans Tg Fr k s H) as (B & Pg & Rs). split; [unfold total_calls in B; cbn [ans locate_answers length] in B; lia|]. split; [exact Pg|]. intros Dn me ip q M Q.
  rewrite (Rs Dn me). set (log := play _ _ me). unfold locatePointOnGlobalPatch. destruct (Nat.ltb_spec 1 nprocs); [|lia]. cbn [andb].
  assert (L : ip < length (queries me)) by (apply nth_error_Some; congruence). assert (Nq : nth ip (queries me) (blank vec vzero) = q) by (apply nth_error_nth; exact Q). pose proof (V me q M (nth_error_In _ _ Q)) as Vq.
  destruct (fill_at vec nprocs queries vzero _ me (locate_put queries me log) (locate_local belongs queries me) ip L) as (F1 & F2). rewrite Nq in F1, F2. unfold located_right. destruct (q_rank q) as [r|] eqn:Qr.
  - destruct (Nat.eq_dec r me) as [-> | D].
    + rewrite F2 by (right; reflexivity). unfold locate_local, owned, the_query. rewrite Nq, Qr, Nat.eqb_refl. reflexivity.
    + destruct (F1 (proj1 Vq) D) as (jp & Lj & Nj & ->). unfold locate_put.
      pose proof (exchange_answers vec bool nprocs queries vzero ans Tg Fr me r (102, belongs) jp M (proj1 Vq) D (or_introl eq_refl) Lj) as X2.
      cbv zeta in X2. rewrite Nj in X2. cbn [snd fst] in X2. fold log in X2. rewrite X2, Nj. unfold locate_local, owned, the_query. rewrite Nq, Qr. destruct (Nat.eqb_spec r me); [contradiction|]. reflexivity.
  - rewrite F2 by (left; reflexivity). unfold locate_local, owned, the_query. rewrite Nq, Qr. reflexivity.
Qed.

(** A surface that every process has whole: nothing is sent. *)
Theorem C100_whole : forall big pseudo belongs nprocs queries dist me ip q log log', nth_error (queries me) ip = Some q -> q_rank q = Some me -> q_id q <> None ->
  signedGlobalDistance big pseudo nprocs false queries dist me log ip = signed_right big pseudo q (dist me ip) /\
  locatePointOnGlobalPatch belongs nprocs false queries me log' ip = located_right belongs q.
Proof.
  intros big pseudo belongs nprocs queries dist me ip q log log' Q Qr Qi. assert (Nq : nth ip (queries me) (blank vec vzero) = q) by (apply nth_error_nth; exact Q).
  unfold signedGlobalDistance, locatePointOnGlobalPatch. rewrite !andb_false_r. unfold signed_local, locate_local, owned, the_query, signed_right, located_right. rewrite Nq, Qr, Nat.eqb_refl. split; [|reflexivity].
  destruct (q_id q); [|congruence]. destruct (pseudo me (q_point q) (Some n)); reflexivity.
Qed.

(** Points shared by the processes. *)
Theorem C100_shared : forall big pseudo nprocs partitioned queries dist me ip q, valid nprocs queries -> same_queries nprocs queries -> (forall r p id, (fst (pseudo r p id) <= big)%R /\ (vx (snd (pseudo r p id)) <= big)%R /\ (vy (snd (pseudo r p id)) <= big)%R /\ (vz (snd (pseudo r p id)) <= big)%R) ->
  nprocs = 1 \/ partitioned = true -> me < nprocs -> nth_error (queries me) ip = Some q ->
  signedGlobalDistance_shared big pseudo nprocs partitioned queries dist me ip = signed_right big pseudo q (dist me ip).
Proof.
  intros big pseudo nprocs partitioned queries dist me ip q V Sq Bd One M Q.
  assert (Nq : forall r, r < nprocs -> nth ip (queries r) (blank vec vzero) = q) by (intros r R; rewrite (Sq r R), <- (Sq me M); apply nth_error_nth; exact Q). pose proof (V me q M (nth_error_In _ _ Q)) as Vq.
  unfold signedGlobalDistance_shared. cbv zeta. assert (Tq : the_query queries me ip = q) by (apply Nq; exact M). rewrite Tq. destruct (Nat.ltb_spec 1 nprocs) as [N1|N1]; cbn [andb].
  - destruct One as [O | ->]; [lia|]. unfold signed_right. destruct (q_rank q) as [k|] eqn:Qr.
    + destruct Vq as (K & Vi). specialize (Bd k (q_point q) (q_id q)). destruct Bd as (B0 & B1 & B2 & B3).
      assert (Nk : normal_local big pseudo queries k ip = snd (pseudo k (q_point q) (q_id q))) by (unfold normal_local, owned, the_query; rewrite (Nq k K), Qr, Nat.eqb_refl; reflexivity).
      assert (No : forall r, r < nprocs -> r <> k -> normal_local big pseudo queries r ip = bigvec big) by (intros r R D; unfold normal_local, owned, the_query; rewrite (Nq r R), Qr; destruct (Nat.eqb_spec k r); [congruence|reflexivity]).
      assert (Sk : sign_local big pseudo queries k ip = fst (pseudo k (q_point q) (q_id q))) by (unfold sign_local, owned, the_query; rewrite (Nq k K), Qr, Nat.eqb_refl; destruct (q_id q); [reflexivity|congruence]).
      assert (So : forall r, r < nprocs -> r <> k -> sign_local big pseudo queries r ip = big) by (intros r R D; unfold sign_local, owned, the_query; rewrite (Nq r R), Qr; destruct (Nat.eqb_spec k r); [congruence|reflexivity]).
      rewrite (least_one nprocs (fun r => vx (normal_local big pseudo queries r ip)) big k K), (least_one nprocs (fun r => vy (normal_local big pseudo queries r ip)) big k K), (least_one nprocs (fun r => vz (normal_local big pseudo queries r ip)) big k K), (least_one nprocs (fun r => sign_local big pseudo queries r ip) big k K);
        try (cbv beta; rewrite ?Nk, ?Sk; assumption); try (intros r R D; cbv beta; rewrite ?(No r R D), ?(So r R D); reflexivity).
      rewrite Nk, Sk. destruct (q_id q); [|congruence]. f_equal. destruct (snd (pseudo k (q_point q) (Some n))); reflexivity.
    + rewrite Vq. assert (No : forall r, r < nprocs -> normal_local big pseudo queries r ip = bigvec big) by (intros r R; unfold normal_local, owned, the_query; rewrite (Nq r R), Qr; reflexivity).
      rewrite !(least_none nprocs _ big) by (first [lia|intros r R; rewrite (No r R); reflexivity]). reflexivity.
  - assert (nprocs = 1) by lia. subst nprocs. assert (me = 0) by lia. subst me. rewrite Nat.eqb_refl. unfold signed_right, normal_local, sign_local, owned. rewrite Tq. destruct (q_rank q) as [k|] eqn:Qr.
    + destruct Vq as (K & Vi). assert (k = 0) by lia. subst k. cbn [Nat.eqb]. destruct (q_id q); [reflexivity|congruence].
    + rewrite Vq. reflexivity.
Qed.
Theorem C100_shared_located : forall belongs nprocs partitioned queries me ip q, valid nprocs queries -> same_queries nprocs queries -> nprocs = 1 \/ partitioned = true -> me < nprocs -> nth_error (queries me) ip = Some q ->
  locatePointOnGlobalPatch_shared belongs nprocs partitioned queries me ip = located_right belongs q.
Proof.
  intros belongs nprocs partitioned queries me ip q V Sq One M Q.
  assert (Nq : forall r, r < nprocs -> nth ip (queries r) (blank vec vzero) = q) by (intros r R; rewrite (Sq r R), <- (Sq me M); apply nth_error_nth; exact Q). pose proof (V me q M (nth_error_In _ _ Q)) as Vq.
  assert (Lo : forall r, r < nprocs -> locate_local belongs queries r ip = match q_rank q with Some k => if Nat.eqb k r then located_right belongs q else None | None => None end).
  { intros r R. unfold locate_local, owned, the_query, located_right. rewrite (Nq r R). destruct (q_rank q) as [k|]; [|reflexivity]. destruct (Nat.eqb_spec k r); [subst; reflexivity|reflexivity]. }
  unfold locatePointOnGlobalPatch_shared. destruct (Nat.ltb_spec 1 nprocs) as [N1|N1]; cbn [andb].
  - destruct One as [O | ->]; [lia|]. destruct (q_rank q) as [k|] eqn:Qr.
    + assert (F : forall l, (forall r, In r l -> r < nprocs) -> fold_right (fun r m => larger_id (locate_local belongs queries r ip) m) None l = if in_dec Nat.eq_dec k l then located_right belongs q else None).
      { induction l as [|r l IH]; intros B; [reflexivity|]. cbn [fold_right]. rewrite IH by (intros x I; apply B; right; exact I). rewrite Lo by (apply B; left; reflexivity). destruct (Nat.eqb_spec k r) as [<- | D].
        - destruct (in_dec Nat.eq_dec k (k :: l)) as [_|C]; [|destruct C; left; reflexivity]. destruct (in_dec Nat.eq_dec k l); destruct (located_right belongs q); cbn; try reflexivity. rewrite Nat.max_id. reflexivity.
        - destruct (in_dec Nat.eq_dec k l) as [I|I], (in_dec Nat.eq_dec k (r :: l)) as [J|J]; cbn [larger_id]; try reflexivity; [destruct J; right; exact I|destruct J as [J|J]; [congruence|contradiction]]. }
      rewrite F by (intros r I; apply in_seq in I; lia). destruct (in_dec Nat.eq_dec k (seq 0 nprocs)) as [_|C]; [reflexivity|]. destruct C. apply in_seq. lia.
    + unfold located_right. rewrite Qr. assert (F : forall l, (forall r, In r l -> r < nprocs) -> fold_right (fun r m => larger_id (locate_local belongs queries r ip) m) None l = None).
      { induction l as [|r l IH]; intros B; [reflexivity|]. cbn [fold_right]. rewrite IH by (intros x I; apply B; right; exact I). rewrite Lo by (apply B; left; reflexivity). reflexivity. }
      apply F. intros r I. apply in_seq in I. lia.
  - assert (nprocs = 1) by lia. subst nprocs. assert (me = 0) by lia. subst me. rewrite Lo by lia. unfold located_right. destruct (q_rank q) as [k|]; [|reflexivity]. assert (k = 0) by lia. subst k. reflexivity.
Qed.

(** Points shared, on a surface every process has whole: the distance has no sign. *)
Theorem C100_whole_shared_refuted : exists big pseudo nprocs queries dist me ip q, valid nprocs queries /\ (forall r q, r < nprocs -> In q (queries r) -> q_rank q = Some r) /\
  nth_error (queries me) ip = Some q /\ me < nprocs /\ snd (signedGlobalDistance_shared big pseudo nprocs false queries dist me ip) <> snd (signed_right big pseudo q (dist me ip)).
Proof.
  exists 1000%R, (fun _ _ _ => ((-1)%R, V3 0 0 1)), 2, (fun r => [Query vzero (Some 0) (Some r)]), (fun _ _ => 1%R), 0, 0, (Query vzero (Some 0) (Some 0)). split; [|split; [|split; [reflexivity|split; [lia|]]]].
  - intros r q R [<- | []]. cbn. split; [exact R|discriminate].
  - intros r q R [<- | []]. reflexivity.
  - unfold signedGlobalDistance_shared, signed_right. cbn. lra.
Qed.

(** The closest cell of a shared point: the same for every process, and the nearest of all. *)
Definition searches_right (on : nat -> nat -> vec -> Prop) (nearest_in : nat -> vec -> R -> option (nat * R)) : Prop :=
  forall r p m, match nearest_in r p m with
  | Some (id, h) => (exists x, on r id x /\ h = norm (vsub p x)) /\ (forall id' y, on r id' y -> h <= norm (vsub p y))%R
  | None => forall id y, on r id y -> (m < norm (vsub p y))%R
  end.
Definition bound_right (on : nat -> nat -> vec -> Prop) (nprocs : nat) (bound : vec -> R) : Prop :=
  forall p, (exists r id x, r < nprocs /\ on r id x) -> exists r id x, r < nprocs /\ on r id x /\ (norm (vsub p x) <= bound p)%R.
Definition pick_right (pick : candidate -> candidate -> candidate) : Prop :=
  forall a b : candidate, (pick a b = a \/ pick a b = b) /\ forall (r id : nat) (h : R), a = Some (r, id, h) \/ b = Some (r, id, h) -> exists r' id' h', pick a b = Some (r', id', h') /\ (h' <= h)%R.
Lemma reduce_in : forall pick (v : nat -> candidate) (d : nat) l, pick_right pick -> let w := fold_right (fun r m => pick (v r) m) (v d) l in
  (exists r, (r = d \/ In r l) /\ w = v r) /\ forall r, r = d \/ In r l -> forall k id h, v r = Some (k, id, h) -> exists k' id' h', w = Some (k', id', h') /\ (h' <= h)%R.
Proof.
  intros pick v d l Pk. induction l as [|r l IH]; cbn [fold_right].
  - split; [exists d; auto|]. intros r [-> | []] k id h E. exists k, id, h. split; [exact E|lra].
  - destruct IH as ((r0 & I0 & E0) & IH). set (m := fold_right (fun r m => pick (v r) m) (v d) l) in *. destruct (Pk (v r) m) as (Or & Le). split.
    + destruct Or as [-> | ->]; [exists r; split; [right; left; reflexivity|reflexivity]|]. exists r0. split; [destruct I0; auto; right; right; assumption|exact E0].
    + intros x Ix k id h E. assert (C : x = r \/ (x = d \/ In x l)) by (destruct Ix as [Ix | [Ix | Ix]]; auto). destruct C as [-> | C]; [apply Le with (r := k) (id := id); auto|]. destruct (IH x C k id h E) as (k1 & id1 & h1 & E1 & L1).
      destruct (Le k1 id1 h1 (or_intror E1)) as (k2 & id2 & h2 & E2 & L2). exists k2, id2, h2. split; [exact E2|lra].
Qed.
Lemma reduce_again : forall pick n k v r r', pick_right pick -> (forall a b, v a = v b) -> repeat_reduce n pick k v r = v r'.
Proof.
  intros pick n k. induction k as [|k IH]; intros v r r' Pk H; [apply H|]. cbn [repeat_reduce]. rewrite (IH _ r 0 Pk) by reflexivity. unfold allreduce. destruct (reduce_in pick v 0 (seq 0 n) Pk) as ((x & _ & ->) & _). apply H.
Qed.
Theorem C100_closest : forall on nearest_in nprocs bound pick p r me, 0 < nprocs -> searches_right on nearest_in -> bound_right on nprocs bound -> pick_right pick ->
  match findSharedPointClosestGlobalCell nearest_in nprocs bound pick p r me with
  | Some (k, id, h) => k < nprocs /\ (exists x, on k id x /\ h = norm (vsub p x)) /\ forall k' id' y, k' < nprocs -> on k' id' y -> (h <= norm (vsub p y))%R
  | None => forall k id y, k < nprocs -> ~ on k id y
  end /\ forall me', findSharedPointClosestGlobalCell nearest_in nprocs bound pick p r me' = findSharedPointClosestGlobalCell nearest_in nprocs bound pick p r me.
Proof.
  intros on nearest_in nprocs bound pick p r me N Sr Br Pk.
  assert (All : forall me', findSharedPointClosestGlobalCell nearest_in nprocs bound pick p r me' = allreduce nprocs pick (own_candidate nearest_in bound p) 0).
  { intros me'. unfold findSharedPointClosestGlobalCell. destruct nprocs as [|n]; [lia|]. cbn [repeat_reduce]. apply (reduce_again pick (S n) n _ me' 0 Pk). reflexivity. }
  split; [|intros me'; rewrite (All me'), (All me); reflexivity]. rewrite (All me). unfold allreduce. destruct (reduce_in pick (own_candidate nearest_in bound p) 0 (seq 0 nprocs) Pk) as ((x & Ix & E) & Le). cbv zeta in E, Le.
  assert (X : x < nprocs) by (destruct Ix as [-> | Ix]; [exact N|apply in_seq in Ix; lia]).
  (* every point of the surface is farther than the candidate *)
  assert (Far : forall k' id' y, k' < nprocs -> on k' id' y -> exists k id h, fold_right (fun r m => pick (own_candidate nearest_in bound p r) m) (own_candidate nearest_in bound p 0) (seq 0 nprocs) = Some (k, id, h) /\ (h <= norm (vsub p y))%R).
  { intros k' id' y K' O'. destruct (Br p (ex_intro _ k' (ex_intro _ id' (ex_intro _ y (conj K' O'))))) as (rb & ib & xb & Rb & Ob & Db).
    assert (Own : forall k0 y0 id0, k0 < nprocs -> on k0 id0 y0 -> (norm (vsub p y0) <= bound p)%R -> exists k id h, fold_right (fun r m => pick (own_candidate nearest_in bound p r) m) (own_candidate nearest_in bound p 0) (seq 0 nprocs) = Some (k, id, h) /\ (h <= norm (vsub p y0))%R).
    { intros k0 y0 id0 K0 O0 D0. pose proof (Sr k0 p (bound p)) as Q. destruct (nearest_in k0 p (bound p)) as [(id1, h1)|] eqn:E1; [|specialize (Q id0 y0 O0); lra]. destruct Q as (_ & Q). specialize (Q id0 y0 O0).
      destruct (Le k0 (or_intror (proj2 (in_seq _ _ _) (conj (Nat.le_0_l _) K0))) k0 id1 h1) as (k & id & h & E2 & L2); [unfold own_candidate; rewrite E1; reflexivity|]. exists k, id, h. split; [exact E2|lra]. }
    destruct (Rle_dec (norm (vsub p y)) (bound p)) as [D|D]; [apply (Own k' y id' K' O' D)|]. destruct (Own rb xb ib Rb Ob Db) as (k & id & h & E2 & L2). exists k, id, h. split; [exact E2|lra]. }
  destruct (fold_right _ _ _) as [((k, id), h)|] eqn:W.
  - unfold own_candidate in E. pose proof (Sr x p (bound p)) as Q. destruct (nearest_in x p (bound p)) as [(id1, h1)|]; [|discriminate]. injection E as -> -> ->. split; [exact X|]. split; [apply Q|]. intros k' id' y K' O'. destruct (Far k' id' y K' O') as (k2 & id2 & h2 & E2 & L2). injection E2 as -> -> ->. exact L2.
  - intros k id y K O. destruct (Far k id y K O) as (k2 & id2 & h2 & E2 & _). discriminate.
Qed.
(** The radius given is not used: a cell farther than it is found. *)
Definition nearer (a b : candidate) : candidate := match a, b with Some (r, i, h), Some (r', i', h') => if Rle_dec h h' then a else b | Some _, None => a | None, _ => b end.
Lemma nearer_right : pick_right nearer.
Proof.
  intros a b. destruct a as [((r, i), h)|], b as [((r', i'), h')|]; cbn [nearer].
  - destruct (Rle_dec h h') as [L|L]; (split; [auto|]); intros x y z [E|E]; injection E as <- <- <-; do 3 eexists; (split; [reflexivity|]); lra.
  - split; [auto|]. intros x y z [E|E]; [|discriminate]. injection E as <- <- <-. do 3 eexists. split; [reflexivity|lra].
  - split; [auto|]. intros x y z [E|E]; [discriminate|]. injection E as <- <- <-. do 3 eexists. split; [reflexivity|lra].
  - split; [auto|]. intros x y z [E|E]; discriminate.
Qed.
Definition one_point (r id : nat) (x : vec) : Prop := r = 0 /\ id = 0 /\ x = vzero.
Definition one_search (r : nat) (p : vec) (m : R) : option (nat * R) := match r with O => if Rle_dec (norm (vsub p vzero)) m then Some (0, norm (vsub p vzero)) else None | S _ => None end.
Lemma one_right : searches_right one_point one_search /\ bound_right one_point 1 (fun p => norm (vsub p vzero)).
Proof.
  split.
  - intros r p m. unfold one_search, one_point. destruct r as [|r]; [|intros id y (C & _); discriminate]. destruct (Rle_dec (norm (vsub p vzero)) m) as [L|L].
    + split; [exists vzero; auto|]. intros id y (_ & _ & ->). lra.
    + intros id y (_ & _ & ->). lra.
  - intros p _. exists 0, 0, vzero. split; [lia|]. split; [unfold one_point; auto|lra].
Qed.
Theorem C100_radius_refuted : exists on nearest_in nprocs bound pick p r k id h, 0 < nprocs /\ searches_right on nearest_in /\ bound_right on nprocs bound /\ pick_right pick /\
  findSharedPointClosestGlobalCell nearest_in nprocs bound pick p r 0 = Some (k, id, h) /\ (r < h)%R.
Proof.
  destruct one_right as (A & B). exists one_point, one_search, 1, (fun p => norm (vsub p vzero)), nearer, (V3 0 0 2), 1%R, 0, 0, (norm (vsub (V3 0 0 2) vzero)). split; [lia|]. split; [exact A|]. split; [exact B|]. split; [exact nearer_right|].
  assert (L : (1 < norm (vsub (V3 0 0 2) vzero))%R).
  { unfold norm. rewrite <- sqrt_1. apply sqrt_lt_1_alt. unfold dot, vsub, vzero. cbn. lra. }
  split; [|exact L]. unfold findSharedPointClosestGlobalCell. cbn [repeat_reduce]. unfold allreduce, own_candidate, one_search. cbn [seq fold_right]. destruct (Rle_dec (norm (vsub (V3 0 0 2) vzero)) (norm (vsub (V3 0 0 2) vzero))) as [_|C]; [|lra].
  cbn [nearer]. destruct (Rle_dec (norm (vsub (V3 0 0 2) vzero)) (norm (vsub (V3 0 0 2) vzero))); reflexivity.
Qed.

(** The projections: every point has the result of the first radius that finds the surface; the points
    of the other processes, and how long they take, do not matter. *)
Theorem C101_first : forall big tol nprocs kmax sd points radii me i p, 2 <= kmax -> me < nprocs -> nth_error (points me) i = Some p ->
  first_hit (fun k => sd me p (tried big (Rmax (radii me i) tol) kmax k)) kmax (projectPointGlobal_hits big tol nprocs kmax sd points radii me i).
Proof.
  intros big tol nprocs kmax sd points radii me i p K M Q. assert (L : i < length (points me)) by (apply nth_error_Some; congruence). assert (Np : nth i (points me) vzero = p) by (apply nth_error_nth; exact Q).
  set (w := Work i (nth i (points me) vzero) (Rmax (radii me i) tol)).
  assert (Iw : In w (work_list tol points radii me)) by (apply in_map_iff; exists i; split; [reflexivity|apply in_seq; lia]).
  assert (N : NoDup (map w_pos (work_list tol points radii me))) by (unfold work_list; rewrite map_map; cbn [w_pos]; rewrite map_id; apply seq_NoDup).
  unfold projectPointGlobal_hits. pose proof (rounds_in big nprocs kmax sd me M kmax 0 _ (fun _ _ => None) w N Iw) as R. cbn [w_pos w_point w_radius w] in R. rewrite R, Np.
  assert (T0 : tried big (Rmax (radii me i) tol) kmax 0 = Rmax (radii me i) tol) by (unfold tried; destruct (Nat.ltb_spec 0 (kmax - 1)); [cbn; ring|lia]).
  pose proof (seek_first big kmax sd me (Rmax (radii me i) tol) p K kmax 0 (Nat.add_0_r _) (fun j J => match Nat.nlt_0_r j J with end)) as F. rewrite T0 in F. destruct (seek big kmax sd me kmax 0 p (Rmax (radii me i) tol)); exact F.
Qed.
(** If the distances with sign lead to the nearest point, so do the projections, as far as the surface
    is not farther than the largest double; without a surface the point does not move. *)
Theorem C101_nearest : forall (on : nat -> nat -> vec -> Prop) big tol nprocs kmax sd points radii me i p, 2 <= kmax -> me < nprocs -> nth_error (points me) i = Some p ->
  (forall r, match sd me p r with
             | Some (id, k, d, n) => on k id (vsub p (vscale d n)) /\ forall k' id' y, on k' id' y -> (norm (vsub p (vsub p (vscale d n))) <= norm (vsub p y))%R
             | None => forall k id y, on k id y -> (r < norm (vsub p y))%R
             end) ->
  ((exists k id y, on k id y /\ (norm (vsub p y) <= big)%R) ->
     exists k id d n, projectPointGlobal_hits big tol nprocs kmax sd points radii me i = Some (id, k, d, n) /\ let x := projectPointGlobal big tol nprocs kmax sd points radii me i in on k id x /\ forall k' id' y, on k' id' y -> (norm (vsub p x) <= norm (vsub p y))%R) /\
  ((forall k id y, ~ on k id y) -> projectPointGlobal_hits big tol nprocs kmax sd points radii me i = None /\ projectPointGlobal big tol nprocs kmax sd points radii me i = p).
Proof.
  intros on big tol nprocs kmax sd points radii me i p K M Q Sd. pose proof (C101_first big tol nprocs kmax sd points radii me i p K M Q) as F. assert (Np : nth i (points me) vzero = p) by (apply nth_error_nth; exact Q).
  unfold projectPointGlobal. rewrite Np. destruct (projectPointGlobal_hits big tol nprocs kmax sd points radii me i) as [(((id, k), d), n)|]; cbn [first_hit] in F.
  - destruct F as (j & _ & E & _). pose proof (Sd (tried big (Rmax (radii me i) tol) kmax j)) as S1. rewrite E in S1. split; [intros _; exists k, id, d, n; split; [reflexivity|exact S1]|]. intros No. destruct (No _ _ _ (proj1 S1)).
  - split.
    + intros (k & id & y & O & L). specialize (F (kmax - 1) ltac:(lia)). pose proof (Sd (tried big (Rmax (radii me i) tol) kmax (kmax - 1))) as S1. rewrite F in S1. specialize (S1 k id y O). unfold tried in S1. rewrite Nat.ltb_irrefl in S1. lra.
    + intros _. split; [reflexivity|]. destruct p as [x y z]. unfold vsub, vscale, vzero. cbn. f_equal; ring.
Qed.

(** Two processes: a point of the first on a cell of the second and one on nothing, a point of the second on its cell. *)
Definition two (r : nat) : list (query vec) := match r with O => [Query (V3 1 0 0) (Some 7) (Some 1); Query vzero None None] | _ => [Query (V3 2 0 0) (Some 7) (Some 1)] end.
Example C100_nonvacuous : valid 2 two /\ exists s, steps 1 (start (program vec reply 2 two vzero (signed_answers (fun _ _ _ => ((-1)%R, V3 0 0 1))))) s /\ ~ all_done s.
Proof.
  split.
  - intros r q R I. destruct r as [|r]; cbn in I.
    + destruct I as [<- | [<- | []]]; cbn; [split; [lia|discriminate]|reflexivity].
    + destruct I as [<- | []]. cbn. split; [lia|discriminate].
  - eexists. split.
    + eapply StepsS; [apply Steps0|]. left. eapply (Buffered _ 1 0). reflexivity.
    + intros D. specialize (D 0). discriminate D.
Qed.
(** One point searched with radius one, at two from the surface: found at the third radius tried. *)
Definition far_sd (me : nat) (p : vec) (r : R) : option hit := if Rle_dec 2 r then Some (0, 0, 2%R, V3 0 0 1) else None.
Example C101_nonvacuous : projectPointGlobal 1000 (/ 10) 1 5 far_sd (fun _ => [V3 0 0 2]) (fun _ _ => 1%R) 0 0 = vzero.
Proof.
  assert (H : first_hit (fun k => far_sd 0 (V3 0 0 2) (tried 1000 (Rmax 1 (/ 10)) 5 k)) 5 (projectPointGlobal_hits 1000 (/ 10) 1 5 far_sd (fun _ => [V3 0 0 2]) (fun _ _ => 1%R) 0 0)) by (apply C101_first; [lia|lia|reflexivity]).
  unfold projectPointGlobal. destruct (projectPointGlobal_hits _ _ _ _ _ _ _ 0 0) as [(((id, k), d), n)|]; cbn [first_hit] in H.
  - destruct H as (j & _ & E & _). unfold far_sd in E. destruct (Rle_dec 2 _); [|discriminate]. injection E as <- <- <- <-. cbn [nth]. unfold vsub, vscale, vzero. cbn. f_equal; ring.
  - specialize (H 4 ltac:(lia)). unfold far_sd, tried in H. cbn [Nat.ltb Nat.leb Nat.sub] in H. destruct (Rle_dec 2 1000) as [_|C]; [discriminate|lra].
Qed.

Print Assumptions C100_signed.
Print Assumptions C100_located.
Print Assumptions C100_whole.
Print Assumptions C100_shared.
Print Assumptions C100_shared_located.
Print Assumptions C100_whole_shared_refuted.
Print Assumptions C100_closest.
Print Assumptions C100_radius_refuted.
Print Assumptions C101_first.
Print Assumptions C101_nearest.
