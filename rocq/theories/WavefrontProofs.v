(** Lemmas on the files of Wavefront.v. *)
From Coq Require Import Reals List Arith ZArith Bool Lia Permutation.
From Verif Require Import Vec Wavefront WavefrontSpec.
Import ListNotations.
Open Scope R_scope.

Lemma name_eqb_iff : forall a b, name_eqb a b = true <-> a = b.
Proof. intros a b. unfold name_eqb. destruct (list_eq_dec Nat.eq_dec a b); split; congruence. Qed.

(** ** The parts of a file *)
Definition ends (B : list line) : Prop := B = [] \/ exists n r, B = Lo n :: r.
Lemma objects_skip : forall A B, (forall l, In l A -> is_o l = false) -> objects (A ++ B) = objects B.
Proof. induction A as [|l A IH]; intros B H; [reflexivity|]. cbn. assert (O := H l (or_introl eq_refl)). destruct l; try discriminate; apply IH; intros x X; apply H; right; exact X. Qed.
Lemma to_next_app : forall A B, (forall l, In l A -> is_o l = false) -> ends B -> to_next (A ++ B) = A.
Proof.
  induction A as [|l A IH]; intros B H E; cbn [app].
  - destruct E as [-> |(n & r & ->)]; reflexivity.
  - assert (O := H l (or_introl eq_refl)). cbn. rewrite IH by (try exact E; intros x X; apply H; right; exact X). destruct l; try discriminate; reflexivity.
Qed.
Definition inner (p : part) : list line := map Lv (p_v p) ++ map (fun c => Lvt c false) (p_t p) ++ map Lvn (p_n p) ++ p_body p.
Lemma inner_no_o : forall p, (forall l, In l (p_body p) -> statement l) -> forall l, In l (inner p) -> is_o l = false.
Proof.
  intros p H l I. unfold inner in I. rewrite !in_app_iff, !in_map_iff in I. destruct I as [(x & <- & _)|[(x & <- & _)|[(x & <- & _)|I]]]; try reflexivity.
  specialize (H l I). destruct l; try reflexivity. destruct H.
Qed.
Lemma text_inner : forall p, text p = Lo (p_name p) :: inner p.
Proof. reflexivity. Qed.
Lemma ends_text : forall ps, ends (flat_map text ps).
Proof. intros [|p ps]; [left; reflexivity|right]. cbn. eexists _, _. reflexivity. Qed.
Lemma filter_all : forall A (f : A -> bool) l, (forall x, In x l -> f x = true) -> filter f l = l.
Proof. induction l as [|x l IH]; intro H; [reflexivity|]. cbn. rewrite (H x (or_introl eq_refl)), IH; [reflexivity|]. intros y Y. apply H. right. exact Y. Qed.
Lemma filter_none : forall A (f : A -> bool) l, (forall x, In x l -> f x = false) -> filter f l = [].
Proof. induction l as [|x l IH]; intro H; [reflexivity|]. cbn. rewrite (H x (or_introl eq_refl)), IH; [reflexivity|]. intros y Y. apply H. right. exact Y. Qed.
Lemma many_inner : forall p B, (forall l, In l (p_body p) -> statement l) -> ends B ->
  many is_v (inner p ++ B) = length (p_v p) /\ many is_vt (inner p ++ B) = length (p_t p) /\ many is_vn (inner p ++ B) = length (p_n p).
Proof.
  intros p B H E. unfold many. rewrite to_next_app by (try exact E; apply inner_no_o; exact H). unfold inner. rewrite !filter_app.
  assert (V : forall (f : line -> bool) (g : bool) (xs : list vec) h, (forall x, f (h x) = g) -> filter f (map h xs) = if g then map h xs else []).
  { intros f g xs h Q. destruct g; [apply filter_all|apply filter_none]; intros x I; apply in_map_iff in I; destruct I as (y & <- & _); apply Q. }
  assert (T : forall (f : line -> bool) (g : bool) (xs : list (list R)) h, (forall x, f (h x) = g) -> filter f (map h xs) = if g then map h xs else []).
  { intros f g xs h Q. destruct g; [apply filter_all|apply filter_none]; intros x I; apply in_map_iff in I; destruct I as (y & <- & _); apply Q. }
  assert (BD : forall f : line -> bool, (forall l, statement l -> f l = false) -> filter f (p_body p) = []) by (intros f Q; apply filter_none; intros l I; apply Q, H, I).
  rewrite (V is_v true), (V is_v false), (T is_v false), (BD is_v), (V is_vt false _ Lv), (V is_vt false _ Lvn), (T is_vt true), (BD is_vt), (V is_vn false _ Lv), (V is_vn true), (T is_vn false), (BD is_vn);
    try reflexivity; try (intros [] S; cbn in S; tauto || reflexivity).
  cbn. rewrite !app_nil_r, !map_length. auto.
Qed.

(** ** The blocks of vertices *)
Definition par (l : line) : Prop := l <> Lempty.
Lemma block_run : forall parse xs ps c r cur rest, cur :: rest = xs ++ c :: r -> map parse xs = map Some ps -> (forall x, In x xs -> x <> Lempty) -> c <> Lempty ->
  block parse (length xs) cur rest = Some (ps, c, r).
Proof.
  induction xs as [|x xs IH]; intros ps c r cur rest E M N C.
  - destruct ps; [|discriminate]. cbn in E. injection E as -> ->. reflexivity.
  - destruct ps as [|p ps]; [discriminate|]. cbn in M. injection M as P M. cbn in E. injection E as -> ->. cbn [length block]. rewrite P.
    destruct (xs ++ c :: r) as [|y ys] eqn:X; [destruct xs; discriminate|]. assert (Y : y <> Lempty). { destruct xs as [|z xs]; cbn in X; injection X as <- _; [exact C|]. apply N. right. left. reflexivity. }
    rewrite (IH ps c r y ys) by (auto; intros z Z; apply N; right; exact Z). destruct y; try reflexivity. congruence.
Qed.
Definition add_vertices (st : state) (v t n : list vec) : state :=
  State (s_v st ++ v) (s_t st ++ t) (s_n st ++ n) (s_cells st) (s_fd st) (s_mat st) (s_grp st) (s_smooth st).
Lemma add_nothing : forall st, add_vertices st [] [] [] = st.
Proof. intros []. unfold add_vertices. cbn. rewrite !app_nil_r. reflexivity. Qed.
Lemma blocks_other : forall counts l r st, is_v l = false -> is_vt l = false -> is_vn l = false -> blocks counts l r st = Some (l, r, st).
Proof. intros [[kv kt] kn] l r st V T N. unfold blocks. rewrite V, T, N. fold (add_vertices st [] [] []). rewrite add_nothing. reflexivity. Qed.
Lemma blocks_run : forall v t n c r cur rest st, (forall x, In x t -> (1 <= length x <= 3)%nat) -> c <> Lempty -> is_v c = false -> is_vt c = false -> is_vn c = false ->
  cur :: rest = map Lv v ++ map (fun x => Lvt x false) t ++ map Lvn n ++ c :: r ->
  blocks (length v, length t, length n) cur rest st = Some (c, r, add_vertices st v (map padded t) n).
Proof.
  intros v t n c r cur rest st T NE CV CT CN E. unfold blocks.
  assert (S1 : exists c1 r1, c1 :: r1 = map (fun x => Lvt x false) t ++ map Lvn n ++ c :: r /\ is_v c1 = false /\ c1 <> Lempty /\ (if is_v cur then block parse3 (length v) cur rest else Some ([], cur, rest)) = Some (v, c1, r1)).
  { destruct (map (fun x => Lvt x false) t ++ map Lvn n ++ c :: r) as [|c1 r1] eqn:X; [destruct t, n; discriminate|].
    assert (Q : is_v c1 = false /\ c1 <> Lempty). { destruct t; [destruct n|]; cbn in X; injection X as <- _; [tauto|split; [reflexivity|discriminate]..]. }
    exists c1, r1. split; [reflexivity|]. split; [apply Q|]. split; [apply Q|]. destruct v as [|p v]; cbn in E.
    - injection E as -> ->. destruct Q as (-> & _). reflexivity.
    - assert (cur = Lv p) by congruence. subst cur. cbn [is_v]. rewrite <- (map_length Lv (p :: v)). apply block_run; [exact E| |intros x I; apply in_map_iff in I; destruct I as (y & <- & _); discriminate|apply Q].
      rewrite map_map. reflexivity. }
  destruct S1 as (c1 & r1 & E1 & V1 & N1 & ->).
  assert (S2 : exists c2 r2, c2 :: r2 = map Lvn n ++ c :: r /\ is_vt c2 = false /\ c2 <> Lempty /\ (if is_vt c1 then block parse_vt (length t) c1 r1 else Some ([], c1, r1)) = Some (map padded t, c2, r2)).
  { destruct (map Lvn n ++ c :: r) as [|c2 r2] eqn:X; [destruct n; discriminate|].
    assert (Q : is_vt c2 = false /\ c2 <> Lempty). { destruct n; cbn in X; injection X as <- _; [tauto|split; [reflexivity|discriminate]]. }
    exists c2, r2. split; [reflexivity|]. split; [apply Q|]. split; [apply Q|]. destruct t as [|p t]; cbn in E1.
    - injection E1 as -> ->. destruct Q as (-> & _). reflexivity.
    - assert (c1 = Lvt p false) by congruence. subst c1. cbn [is_vt]. rewrite <- (map_length (fun x => Lvt x false) (p :: t)).
      apply block_run; [exact E1| |intros x I; apply in_map_iff in I; destruct I as (y & <- & _); discriminate|apply Q].
      rewrite !map_map. apply map_ext_in. intros x I. specialize (T x I). destruct x as [|a [|b [|d [|]]]]; cbn in T; try lia; reflexivity. }
  destruct S2 as (c2 & r2 & E2 & V2 & N2 & ->).
  assert (S3 : (if is_vn c2 then block parse3 (length n) c2 r2 else Some ([], c2, r2)) = Some (n, c, r)).
  { destruct n as [|p n]; cbn in E2.
    - injection E2 as -> ->. rewrite CN. reflexivity.
    - assert (c2 = Lvn p) by congruence. subst c2. cbn [is_vn]. rewrite <- (map_length Lvn (p :: n)). apply block_run; [exact E2| |intros x I; apply in_map_iff in I; destruct I as (y & <- & _); discriminate|exact NE].
      rewrite map_map. reflexivity. }
  rewrite S3. reflexivity.
Qed.

(** ** The rest of a part *)
Fixpoint run (ign : bool) (pid : nat) (default : name) (ls : list line) (st : state) : option state :=
  match ls with [] => Some st | l :: r => match switch ign pid default l st with Some st' => run ign pid default r st' | None => None end end.
Lemma read_body : forall ign pid n counts body B fuel st, (forall l, In l body -> statement l) -> ends B -> (length (body ++ B) < fuel)%nat ->
  read_object fuel ign pid n counts (body ++ B) st = run ign pid n body st.
Proof.
  induction body as [|l body IH]; intros B fuel st H E F.
  - cbn [app run] in *. destruct fuel as [|f]; [lia|]. destruct E as [-> |(m & r & ->)]; [reflexivity|]. cbn [read_object]. rewrite blocks_other by reflexivity. reflexivity.
  - destruct fuel as [|f]; [lia|]. assert (Q := H l (or_introl eq_refl)). cbn [app read_object run]. cbn in F.
    assert (R : forall st', read_object f ign pid n counts (body ++ B) st' = run ign pid n body st') by (intro st'; apply IH; [intros x X; apply H; right; exact X|exact E|lia]).
    destruct l; try destruct Q; try (rewrite blocks_other by reflexivity); cbn [switch is_o]; try apply R.
    + destruct (add_facet pid es blank st); [apply R|reflexivity].
    + destruct ign; apply R.
Qed.
Lemma read_part : forall ign pid p B st, (forall c, In c (p_t p) -> (1 <= length c <= 3)%nat) -> (forall l, In l (p_body p) -> statement l) ->
  ((p_v p = [] /\ p_t p = [] /\ p_n p = []) \/ exists l r, p_body p = l :: r /\ l <> Lempty) -> ends B ->
  read_object (S (length (inner p ++ B))) ign pid (p_name p) (length (p_v p), length (p_t p), length (p_n p)) (inner p ++ B) st =
  run ign pid (p_name p) (p_body p) (add_vertices st (p_v p) (map padded (p_t p)) (p_n p)).
Proof.
  intros ign pid p B st T ST L E. destruct L as [(V & T0 & N)|(l & r & BD & NE)].
  - unfold inner. rewrite V, T0, N. cbn [map app length]. rewrite add_nothing. apply read_body; [exact ST|exact E|lia].
  - destruct (inner p ++ B) as [|cur rest] eqn:X; [unfold inner in X; rewrite BD in X; destruct (p_v p), (p_t p), (p_n p); discriminate|].
    assert (X' : cur :: rest = map Lv (p_v p) ++ map (fun x => Lvt x false) (p_t p) ++ map Lvn (p_n p) ++ l :: (r ++ B)).
    { rewrite <- X. unfold inner. rewrite BD, <- !app_assoc. reflexivity. }
    assert (SL : statement l) by (apply ST; rewrite BD; left; reflexivity).
    pose proof (blocks_run (p_v p) (p_t p) (p_n p) l (r ++ B) cur rest st T NE ltac:(destruct l; cbn in *; tauto) ltac:(destruct l; cbn in *; tauto) ltac:(destruct l; cbn in *; tauto) X') as BL.
    assert (RB : forall f st', (length (r ++ B) < f)%nat -> read_object f ign pid (p_name p) (length (p_v p), length (p_t p), length (p_n p)) (r ++ B) st' = run ign pid (p_name p) r st').
    { intros f st' F. apply read_body; [intros x I; apply ST; rewrite BD; right; exact I|exact E|exact F]. }
    assert (LN : (length (r ++ B) < length (cur :: rest))%nat) by (rewrite X', !app_length; cbn; rewrite app_length; lia).
    rewrite BD. cbn [run]. remember (length (cur :: rest)) as f eqn:Ef. cbn [read_object].
    assert (G : (match blocks (length (p_v p), length (p_t p), length (p_n p)) cur rest st with
      | Some (cur, rest, st1) => match switch ign pid (p_name p) cur st1 with Some st2 => if is_o cur then Some st2 else read_object f ign pid (p_name p) (length (p_v p), length (p_t p), length (p_n p)) rest st2 | None => None end
      | None => None end) = match switch ign pid (p_name p) l (add_vertices st (p_v p) (map padded (p_t p)) (p_n p)) with Some st' => run ign pid (p_name p) r st' | None => None end).
    { rewrite BL. destruct (switch ign pid (p_name p) l _); [|reflexivity]. assert (is_o l = false) as -> by (destruct l; cbn in *; tauto). apply RB. exact LN. }
    destruct cur; try exact G.
    + destruct (p_v p) eqn:PV; [|cbn in X'; congruence]. destruct (p_t p) eqn:PT; [|cbn in X'; congruence]. destruct (p_n p) eqn:PN; [|cbn in X'; congruence]. cbn in X'. injection X' as <- ->.
      cbn [switch]. change (map padded []) with (@nil vec). rewrite add_nothing. apply RB. exact LN.
    + destruct (p_v p) eqn:PV; [|cbn in X'; congruence]. destruct (p_t p) eqn:PT; [|cbn in X'; congruence]. destruct (p_n p) eqn:PN; [|cbn in X'; congruence]. cbn in X'. congruence.
Qed.

(** ** Facets *)
Lemma resolve_counted : forall n k, resolve n k = counted n k.
Proof. intros n k. unfold resolve, counted. destruct (Z.ltb_spec k 0), (Z_lt_dec k 0); lia. Qed.
Definition vs (es : list entry) : list Z := map (fun e => fst (fst e)) es.
Definition ts (es : list entry) : list Z := flat_map (fun e : entry => match snd (fst e) with Some k => [k] | None => [] end) es.
Definition ns (es : list entry) : list Z := flat_map (fun e : entry => match snd e with Some k => [k] | None => [] end) es.
Definition def_of (sh : bool * bool) : nat := match sh with (false, false) => 0 | (true, false) => 1 | (true, true) => 2 | (false, true) => 3 end.
Lemma def_shape : forall e, definition e = def_of (shape e).
Proof. intros [[v [t|]] [n|]]; reflexivity. Qed.
Lemma plain_all : forall l, plain true l = l.
Proof. induction l as [|x [|y l] IH]; [reflexivity..|]. cbn [plain] in *. rewrite IH. reflexivity. Qed.
Lemma facet_run : forall sh es b, (forall e, In e es -> shape e = sh) -> (sh = (false, false) -> b = true) ->
  facet (def_of sh) b (flat_map tokens es) = Some (vs es, ts es, ns es).
Proof.
  intros sh es b H B.
  assert (P0 : sh = (false, false) -> flat_map tokens es = vs es /\ ts es = [] /\ ns es = []).
  { intro Q. clear B. induction es as [|[[v t] n] es IH]; [auto|]. assert (S0 := H _ (or_introl eq_refl)). rewrite Q in S0. unfold shape in S0. cbn in S0. destruct t, n; try discriminate.
    destruct IH as (E1 & E2 & E3); [intros e I; apply H; right; exact I|]. unfold vs, ts, ns in *. cbn. rewrite E1, E2, E3. auto. }
  assert (P1 : sh = (true, false) -> exists l, pairs (flat_map tokens es) = Some l /\ map fst l = vs es /\ map snd l = ts es /\ ns es = []).
  { intro Q. clear B P0. induction es as [|[[v t] n] es IH]; [exists []; auto|]. assert (S0 := H _ (or_introl eq_refl)). rewrite Q in S0. unfold shape in S0. cbn in S0. destruct t as [t|], n; try discriminate.
    destruct IH as (l & E1 & E2 & E3 & E4); [intros e I; apply H; right; exact I|]. exists ((v, t) :: l). unfold vs, ts, ns in *. cbn. rewrite E1, E2, E3, E4. auto. }
  assert (P3 : sh = (false, true) -> exists l, pairs (flat_map tokens es) = Some l /\ map fst l = vs es /\ map snd l = ns es /\ ts es = []).
  { intro Q. clear B P0 P1. induction es as [|[[v t] n] es IH]; [exists []; auto|]. assert (S0 := H _ (or_introl eq_refl)). rewrite Q in S0. unfold shape in S0. cbn in S0. destruct t as [t|], n as [n|]; try discriminate.
    destruct IH as (l & E1 & E2 & E3 & E4); [intros e I; apply H; right; exact I|]. exists ((v, n) :: l). unfold vs, ts, ns in *. cbn. rewrite E1, E2, E3, E4. auto. }
  assert (P2 : sh = (true, true) -> exists l, triples (flat_map tokens es) = Some l /\ map (fun e => fst (fst e)) l = vs es /\ map (fun e => snd (fst e)) l = ts es /\ map snd l = ns es).
  { intro Q. clear B P0 P1 P3. induction es as [|[[v t] n] es IH]; [exists []; auto|]. assert (S0 := H _ (or_introl eq_refl)). rewrite Q in S0. unfold shape in S0. cbn in S0. destruct t as [t|], n as [n|]; try discriminate.
    destruct IH as (l & E1 & E2 & E3 & E4); [intros e I; apply H; right; exact I|]. exists ((v, t, n) :: l). unfold vs, ts, ns in *. cbn. rewrite E1, E2, E3, E4. auto. }
  destruct sh as [[|] [|]]; cbn [def_of facet].
  - destruct (P2 eq_refl) as (l & -> & -> & -> & ->). reflexivity.
  - destruct (P1 eq_refl) as (l & -> & -> & -> & ->). reflexivity.
  - destruct (P3 eq_refl) as (l & -> & -> & -> & ->). reflexivity.
  - destruct (P0 eq_refl) as (-> & -> & ->). rewrite (B eq_refl), plain_all. reflexivity.
Qed.
(** the cell of a facet *)
Definition cell_of (pid nv nt nn : nat) (es : list entry) (m g : name) (s : Z) : list rcell :=
  if le_dec 3 (length es) then
    [RCell pid (map (fun e => counted nv (fst (fst e))) es)
           (flat_map (fun e : entry => match snd (fst e) with Some k => [counted nt k] | None => [] end) es)
           (flat_map (fun e : entry => match snd e with Some k => [counted nn k] | None => [] end) es) m g s]
  else [].
Lemma add_facet_run : forall pid es b sh st, es <> [] -> (forall e, In e es -> shape e = sh) -> (sh = (false, false) -> b = true) -> (s_fd st = None \/ s_fd st = Some (def_of sh)) ->
  add_facet pid es b st = Some (State (s_v st) (s_t st) (s_n st)
    (s_cells st ++ cell_of pid (length (s_v st)) (length (s_t st)) (length (s_n st)) es (s_mat st) (s_grp st) (s_smooth st)) (Some (def_of sh)) (s_mat st) (s_grp st) (s_smooth st)).
Proof.
  intros pid es b sh st NE H B F. destruct es as [|e es]; [congruence|]. cbn [add_facet]. set (l := e :: es) in *.
  assert (FD : match s_fd st with Some d => d | None => definition e end = def_of sh). { destruct F as [-> | ->]; [|reflexivity]. rewrite def_shape, (H e (or_introl eq_refl)). reflexivity. }
  rewrite FD, (facet_run sh l b H B).
  assert (SP : forall n, supported (map (resolve n) (vs l)) = if le_dec 3 (length l) then true else false).
  { intro n. unfold supported, vs. rewrite !map_length. destruct (le_dec 3 (length l)) as [Q|Q]; [apply Nat.leb_le; exact Q|apply Nat.leb_gt, Nat.nle_gt; exact Q]. }
  rewrite SP. f_equal. f_equal. unfold cell_of.
  assert (Q : forall (n : nat) (f : entry -> list Z) (l : list entry), map (resolve n) (flat_map f l) = flat_map (fun e => map (resolve n) (f e)) l).
  { intros n f l0. induction l0 as [|x l0 IH]; [reflexivity|]. cbn. rewrite map_app, IH. reflexivity. }
  destruct (le_dec 3 (length l)); [|rewrite app_nil_r; reflexivity]. f_equal. f_equal. unfold vs, ts, ns. rewrite map_map, !Q. f_equal.
  - apply map_ext. intro x. apply resolve_counted.
  - apply flat_map_ext. intros [[v [t|]] n]; cbn; [rewrite resolve_counted|]; reflexivity.
  - apply flat_map_ext. intros [[v t] [n|]]; cbn; [rewrite resolve_counted|]; reflexivity.
Qed.

(** ** What is active *)
Lemma last_app_one : forall A (l : list A) x d, last (l ++ [x]) d = x.
Proof. intros. apply last_last. Qed.
Lemma latest_snoc : forall A (say : line -> list A) d ls l, latest say d (ls ++ [l]) = match say l with [] => latest say d ls | _ => last (say l) d end.
Proof.
  intros A say d ls l. unfold latest. rewrite flat_map_app. cbn [flat_map]. rewrite app_nil_r. destruct (say l) as [|x r] eqn:E; [rewrite app_nil_r; reflexivity|].
  destruct (exists_last (l := x :: r) ltac:(discriminate)) as (r' & y & ->). rewrite app_assoc, !last_last. reflexivity.
Qed.
Lemma group_not_default : forall n ls, group_said n ls = n -> group_said n ls = [].
Proof.
  intros n ls. unfold group_said, latest. set (say := fun l => _). induction ls as [|l ls IH] using rev_ind; [intro; reflexivity|]. rewrite flat_map_app. cbn [flat_map]. rewrite app_nil_r.
  destruct l as [m|p|c b|p|es b|g|u|s| | | ]; cbn [say]; try (rewrite app_nil_r; exact IH). destruct g as [|w g]; [rewrite app_nil_r; exact IH|]. rewrite last_last.
  destruct (list_eq_dec Nat.eq_dec [w] n) as [D|D]; [reflexivity|]. intro Q. contradiction.
Qed.
Lemma run_said : forall (ign : bool) pid n sh nv nt nn (body pre : list line) st,
  (forall l, In l body -> statement l) ->
  (forall es b, In (Lf es b) body -> es <> [] /\ (forall e, In e es -> shape e = sh) /\ (sh = (false, false) -> b = true)) ->
  (s_fd st = None \/ s_fd st = Some (def_of sh)) ->
  length (s_v st) = nv -> length (s_t st) = nt -> length (s_n st) = nn ->
  s_mat st = material_said pre -> s_grp st = (if ign then [] else group_said n pre) -> s_smooth st = smooth_said pre ->
  exists st', run ign pid n body st = Some st' /\ s_v st' = s_v st /\ s_t st' = s_t st /\ s_n st' = s_n st /\
    s_cells st' = s_cells st ++ cells_said ign pid n nv nt nn pre body.
Proof.
  intros ign pid n sh nv nt nn. induction body as [|l body IH]; intros pre st HS HF FD LV LT LN HM HG HZ.
  - exists st. cbn. rewrite app_nil_r. auto.
  - assert (ST : statement l) by (apply HS; left; reflexivity).
    assert (K : forall st1 extra, switch ign pid n l st = Some st1 -> s_v st1 = s_v st -> s_t st1 = s_t st -> s_n st1 = s_n st -> s_cells st1 = s_cells st ++ extra ->
      (s_fd st1 = None \/ s_fd st1 = Some (def_of sh)) -> s_mat st1 = material_said (pre ++ [l]) -> s_grp st1 = (if ign then [] else group_said n (pre ++ [l])) -> s_smooth st1 = smooth_said (pre ++ [l]) ->
      extra = match l with Lf es _ => cell_of pid nv nt nn es (material_said pre) (if ign then [] else group_said n pre) (smooth_said pre) | _ => [] end ->
      exists st', run ign pid n (l :: body) st = Some st' /\ s_v st' = s_v st /\ s_t st' = s_t st /\ s_n st' = s_n st /\ s_cells st' = s_cells st ++ cells_said ign pid n nv nt nn pre (l :: body)).
    { intros st1 extra SW V T N C F M G Z X. destruct (IH (pre ++ [l]) st1) as (st' & R & V' & T' & N' & C'); try congruence.
      - intros x I. apply HS. right. exact I.
      - intros es b I. apply HF. right. exact I.
      - exists st'. cbn [run]. rewrite SW. split; [exact R|]. split; [congruence|]. split; [congruence|]. split; [congruence|]. rewrite C', C, <- app_assoc. f_equal. rewrite X. cbn [cells_said]. reflexivity. }
    destruct l as [m|p|c b|p|es b|g|u|s| | | ]; try destruct ST; cbn [switch] in K.
    + destruct (HF es b (or_introl eq_refl)) as (NE & H1 & H2). rewrite (add_facet_run pid es b sh st NE H1 H2 FD) in K. eapply K; cbn; try reflexivity; try (right; reflexivity).
      * rewrite HM. unfold material_said. rewrite latest_snoc. reflexivity.
      * rewrite HG. unfold group_said. destruct ign; [reflexivity|]. rewrite latest_snoc. reflexivity.
      * rewrite HZ. unfold smooth_said. rewrite latest_snoc. reflexivity.
      * rewrite LV, LT, LN, HM, HG, HZ. reflexivity.
    + destruct ign.
      * eapply K; try reflexivity; cbn; try rewrite app_nil_r; auto.
        -- rewrite HM. unfold material_said. rewrite latest_snoc. reflexivity.
        -- rewrite HZ. unfold smooth_said. rewrite latest_snoc. reflexivity.
      * eapply (K _ []); try reflexivity; cbn; try rewrite app_nil_r; auto.
        -- rewrite HM. unfold material_said. rewrite latest_snoc. reflexivity.
        -- unfold name_eqb. unfold group_said at 1. rewrite latest_snoc. destruct g as [|w g]; cbn [take_word].
           ++ rewrite HG. fold (group_said n pre). destruct (list_eq_dec Nat.eq_dec (group_said n pre) n) as [D|D]; [symmetry; apply group_not_default; exact D|reflexivity].
           ++ cbn [last]. destruct (list_eq_dec Nat.eq_dec [w] n); reflexivity.
        -- rewrite HZ. unfold smooth_said. rewrite latest_snoc. reflexivity.
    + eapply (K _ []); try reflexivity; cbn; try rewrite app_nil_r; auto.
      * unfold material_said. rewrite latest_snoc. destruct u; cbn; [rewrite HM|]; reflexivity.
      * rewrite HG. unfold group_said. destruct ign; [reflexivity|]. rewrite latest_snoc. reflexivity.
      * rewrite HZ. unfold smooth_said. rewrite latest_snoc. reflexivity.
    + eapply (K _ []); try reflexivity; cbn; try rewrite app_nil_r; auto.
      * rewrite HM. unfold material_said. rewrite latest_snoc. reflexivity.
      * rewrite HG. unfold group_said. destruct ign; [reflexivity|]. rewrite latest_snoc. reflexivity.
      * unfold smooth_said. rewrite latest_snoc. destruct s; reflexivity.
    + eapply (K _ []); try reflexivity; cbn; try rewrite app_nil_r; auto; [rewrite HM; unfold material_said|rewrite HG; unfold group_said; destruct ign; [reflexivity|]|rewrite HZ; unfold smooth_said]; rewrite latest_snoc; reflexivity.
    + eapply (K _ []); try reflexivity; cbn; try rewrite app_nil_r; auto; [rewrite HM; unfold material_said|rewrite HG; unfold group_said; destruct ign; [reflexivity|]|rewrite HZ; unfold smooth_said]; rewrite latest_snoc; reflexivity.
    + eapply (K _ []); try reflexivity; cbn; try rewrite app_nil_r; auto; [rewrite HM; unfold material_said|rewrite HG; unfold group_said; destruct ign; [reflexivity|]|rewrite HZ; unfold smooth_said]; rewrite latest_snoc; reflexivity.
Qed.

(** ** Files *)
Lemma reads_all : forall (ign : bool) parts pid st, Forall laid_out parts ->
  exists st', read_objects ign pid (objects (flat_map text parts)) st = Some st' /\ s_v st' = s_v st ++ flat_map p_v parts /\ s_t st' = s_t st ++ map padded (flat_map p_t parts) /\
    s_n st' = s_n st ++ flat_map p_n parts /\ s_cells st' = s_cells st ++ cells_of ign pid (length (s_v st)) (length (s_t st)) (length (s_n st)) parts.
Proof.
  intros ign. induction parts as [|p parts IH]; intros pid st F.
  - exists st. cbn. rewrite !app_nil_r. auto.
  - inversion F as [|? ? L F']; subst. cbn [flat_map]. rewrite text_inner. cbn [app objects]. rewrite objects_skip by (apply inner_no_o; apply L).
    cbn [read_objects]. set (T := flat_map text parts). destruct (many_inner p T (proj1 (proj2 L)) (ends_text parts)) as (-> & -> & ->). rewrite read_part by (try apply ends_text; apply L).
    set (st0 := add_vertices _ _ _ _). destruct L as (LT & LS & LB & sh & LF).
    destruct (run_said ign pid (p_name p) sh (length (s_v st0)) (length (s_t st0)) (length (s_n st0)) (p_body p) [] st0 LS LF) as (st1 & R & V & T1 & N & C); try reflexivity; try (left; reflexivity); try (destruct ign; reflexivity).
    rewrite R. destruct (IH (S pid) st1 F') as (st' & R' & V' & T' & N' & C'). exists st'. split; [exact R'|].
    rewrite V', T', N', C', V, T1, N, C. cbn [st0 add_vertices s_v s_t s_n s_cells flat_map cells_of]. rewrite !app_length, !map_length, map_app, <- !app_assoc. auto.
Qed.
Lemma objects_lines : forall ls n r, In (n, r) (objects ls) -> incl r ls.
Proof.
  induction ls as [|l ls IH]; intros n r H; [destruct H|]. assert (Q : In (n, r) (objects ls) -> incl r (l :: ls)) by (intros I x X; right; exact (IH n r I x X)).
  destruct l; cbn in H; auto. destruct H as [H|H]; [|auto]. injection H as <- <-. intros x X. right. exact X.
Qed.
Lemma block_lines : forall parse k cur rest ps c r, block parse k cur rest = Some (ps, c, r) -> incl (c :: r) (cur :: rest).
Proof.
  induction k as [|k IH]; intros cur rest ps c r H; cbn in H; [injection H as _ <- <-; apply incl_refl|].
  destruct (parse cur); [|discriminate]. destruct rest as [|y rest]; [discriminate|].
  assert (Q : match block parse k y rest with Some (ps, c', r') => Some (v :: ps, c', r') | None => None end = Some (ps, c, r)) by (destruct y; try discriminate; exact H).
  destruct (block parse k y rest) as [[[ps' c'] r']|] eqn:E; [|discriminate]. injection Q as _ <- <-. intros x X. right. exact (IH y rest ps' c' r' E x X).
Qed.
Lemma step_lines : forall (b : bool) parse k cur rest ps c r, (if b then block parse k cur rest else Some ([], cur, rest)) = Some (ps, c, r) -> incl (c :: r) (cur :: rest).
Proof. intros [|] parse k cur rest ps c r H; [exact (block_lines _ _ _ _ _ _ _ H)|]. injection H as _ <- <-. apply incl_refl. Qed.
Lemma switch_vertices : forall ign pid n l st st', switch ign pid n l st = Some st' -> s_v st' = s_v st /\ s_t st' = s_t st /\ s_n st' = s_n st.
Proof.
  intros ign pid n l st st' H. destruct l; cbn in H; try (injection H as <-; auto).
  - unfold add_facet in H. destruct es as [|e es]; [injection H as <-; auto|]. destruct (facet _ blank _) as [[[v t] m]|]; [|discriminate]. injection H as <-. auto.
  - destruct ign; injection H as <-; auto.
Qed.
Section NoKind.
  (** files without textures, or without normals *)
  Variable kind : line -> bool.
  Variable field : state -> list vec.
  Hypothesis Hf : forall st st', s_v st' = s_v st -> s_t st' = s_t st -> s_n st' = s_n st -> field st' = field st.
  Hypothesis Hk : (kind = is_vt /\ field = s_t) \/ (kind = is_vn /\ field = s_n).
  Lemma blocks_none : forall counts cur rest st c r st', (forall l, In l (cur :: rest) -> kind l = false) -> blocks counts cur rest st = Some (c, r, st') -> field st' = field st /\ incl (c :: r) (cur :: rest).
  Proof.
    intros [[kv kt] kn] cur rest st c r st' H E. unfold blocks in E.
    destruct (if is_v cur then block parse3 kv cur rest else Some ([], cur, rest)) as [[[pv c1] r1]|] eqn:E1; [|discriminate]. pose proof (step_lines _ _ _ _ _ _ _ _ E1) as I1.
    destruct (if is_vt c1 then block parse_vt kt c1 r1 else Some ([], c1, r1)) as [[[pt c2] r2]|] eqn:E2; [|discriminate]. pose proof (step_lines _ _ _ _ _ _ _ _ E2) as I2.
    destruct (if is_vn c2 then block parse3 kn c2 r2 else Some ([], c2, r2)) as [[[pn c3] r3]|] eqn:E3; [|discriminate]. pose proof (step_lines _ _ _ _ _ _ _ _ E3) as I3.
    injection E as -> -> <-. split; [|intros x X; apply I1, I2, I3, X]. destruct Hk as [(-> & ->)|(-> & ->)].
    - rewrite (H c1 (I1 c1 (or_introl eq_refl))) in E2. injection E2 as <- _ _. cbn. apply app_nil_r.
    - rewrite (H c2 (I1 c2 (I2 c2 (or_introl eq_refl)))) in E3. injection E3 as <- _ _. cbn. apply app_nil_r.
  Qed.
  Lemma read_object_none : forall fuel ign pid n counts ls st st', (forall l, In l ls -> kind l = false) -> read_object fuel ign pid n counts ls st = Some st' -> field st' = field st.
  Proof.
    induction fuel as [|f IH]; intros ign pid n counts ls st st' H E; [discriminate|]. cbn [read_object] in E. destruct ls as [|l r]; [injection E as <-; reflexivity|].
    assert (HR : forall x, In x r -> kind x = false) by (intros x X; apply H; right; exact X).
    assert (Q : match blocks counts l r st with Some (cur, rest, st1) => match switch ign pid n cur st1 with Some st2 => if is_o cur then Some st2 else read_object f ign pid n counts rest st2 | None => None end | None => None end = Some st' -> field st' = field st).
    { clear E. intro E. destruct (blocks counts l r st) as [[[cur rest] st1]|] eqn:B; [|discriminate]. destruct (blocks_none _ _ _ _ _ _ _ H B) as (F1 & I1).
      destruct (switch ign pid n cur st1) as [st2|] eqn:W; [|discriminate]. destruct (switch_vertices _ _ _ _ _ _ W) as (A1 & A2 & A3). pose proof (Hf st1 st2 A1 A2 A3) as F2.
      destruct (is_o cur); [injection E as <-; congruence|]. rewrite (IH _ _ _ _ _ _ _ (fun x X => H x (I1 x (or_intror X))) E). congruence. }
    destruct l; try exact (Q E); exact (IH _ _ _ _ _ _ _ HR E).
  Qed.
  Lemma read_objects_none : forall ign os pid st st', (forall n r, In (n, r) os -> forall l, In l r -> kind l = false) -> read_objects ign pid os st = Some st' -> field st' = field st.
  Proof.
    intros ign. induction os as [|[n ls] os IH]; intros pid st st' H E; [injection E as <-; reflexivity|]. cbn [read_objects] in E.
    destruct (read_object _ _ _ _ _ _ _) as [st1|] eqn:R; [|discriminate]. rewrite (IH _ _ _ (fun m r I => H m r (or_intror I)) E).
    rewrite (read_object_none _ _ _ _ _ _ _ _ (H n ls (or_introl eq_refl)) R). apply Hf; reflexivity.
  Qed.
End NoKind.
