(** The consecutive numbering of vertices and cells (C39, C66). *)
From Coq Require Import List ZArith Bool Lia.
From Verif Require Import Ghost GhostSpec GhostProofs GhostWitness.
Import ListNotations.
Open Scope Z_scope.

(** * C39 *)

(** The update ends without error on every rank, whatever the order the messages arrive in: each
    vertex is given the number of its point, which depends on the point only, the numbers of
    different points are different, and they are 0..N-1. *)
Theorem C39_numbering : forall {P} (w : list part) (point : nat -> Z -> P) (arrivals : nat -> list nat),
  partitioned w point -> (forall r, (r < length w)%nat -> arrive w r (arrivals r)) ->
  exists ids : nat -> list (Z * Z),
    (forall r, (r < length w)%nat -> updatePointGhostExchangeInfo w r (arrivals r) = Some (ids r)) /\
    (forall r v, vertex_of w r v -> exists c, zget (ids r) v = Some c /\ 0 <= c < nglobal w) /\
    (forall r v s u, vertex_of w r v -> vertex_of w s u -> (zget (ids r) v = zget (ids s) u <-> point r v = point s u)) /\
    (forall c, 0 <= c < nglobal w -> exists r v, interior_of w r v /\ zget (ids r) v = Some c) /\
    interior_count w (nglobal w).
Proof.
  intros P w point arrivals H A.
  exists (fun r => match updatePointGhostExchangeInfo w r (arrivals r) with Some m => m | None => [] end).
  assert (forall r, (r < length w)%nat -> exists m, updatePointGhostExchangeInfo w r (arrivals r) = Some m /\
      forall v o u, vertex_of w r v -> interior_of w o u -> point o u = point r v -> zget m v = own w o u) as U.
  { intros r L. apply (update_good w point H r (arrivals r) L (A r L)). }
  assert (forall r v, vertex_of w r v -> (r < length w)%nat) as VL.
  { intros r v [p [E _]]. apply nth_error_Some. congruence. }
  assert (forall r v, interior_of w r v -> vertex_of w r v) as IV.
  { intros r v [p [E [B _]]]. exists p. split; assumption. }
  split; [|split; [|split; [|split]]].
  - intros r L. destruct (U r L) as [m [E _]]. rewrite E. reflexivity.
  - intros r v V. destruct (U r (VL r v V)) as [m [E G]]. rewrite E.
    destruct (owned w point H r v V) as [o [u [I Q]]]. rewrite (G v o u V I Q).
    destruct (own_some w point H o u I) as [p [i [_ [_ X]]]]. exists (globaloffset w o + Z.of_nat i). split; [exact X|].
    apply (own_lt_nglobal w point H o u). exact X.
  - intros r v s u V V'. destruct (U r (VL r v V)) as [m [E G]]. destruct (U s (VL s u V')) as [m' [E' G']]. rewrite E, E'.
    destruct (owned w point H r v V) as [o [a [I Q]]]. destruct (owned w point H s u V') as [o' [a' [I' Q']]].
    rewrite (G v o a V I Q), (G' u o' a' V' I' Q').
    destruct (own_some w point H o a I) as [p [i [_ [_ X]]]].
    split; intros K.
    + assert (own w o' a' = Some (globaloffset w o + Z.of_nat i)) as X' by congruence.
      destruct (own_inj w point H o a o' a' _ X X') as [-> ->]. congruence.
    + assert (o = o') as <- by (apply (owned_once w point H o a o' a' I I'); congruence).
      assert (a = a') as <- by (apply (points_unique w point H o a a' (IV _ _ I) (IV _ _ I')); congruence). reflexivity.
  - intros c L. destruct (own_onto w point H c L) as [r [v [I O]]]. exists r, v. split; [exact I|].
    destruct (U r (VL r v (IV r v I))) as [m [E G]]. rewrite E, (G v r v (IV r v I) I eq_refl). exact O.
  - apply (interior_count_nglobal w point H).
Qed.
Print Assumptions C39_numbering.

(** The numbers of the interior vertices of a rank follow the offset of the rank, in order. *)
Theorem C39_offset : forall {P} (w : list part) (point : nat -> Z -> P) r arrivals p i v ids,
  partitioned w point -> arrive w r arrivals -> updatePointGhostExchangeInfo w r arrivals = Some ids ->
  nth_error w r = Some p -> nth_error (filter (p_interior p) (p_verts p)) i = Some v ->
  zget ids v = Some (globaloffset w r + Z.of_nat i).
Proof.
  intros P w point r arrivals p i v ids H A U E N.
  assert (In v (filter (p_interior p) (p_verts p))) as I by (apply (nth_error_In _ _ N)). apply filter_In in I.
  destruct (update_good w point H r arrivals ltac:(apply nth_error_Some; congruence) A) as [m [U' G]]. assert (m = ids) by congruence. subst m.
  rewrite (G v r v); [apply (own_interior w point H r p i v E N)|exists p; split; [exact E|apply I]|exists p; split; [exact E|exact I]|reflexivity].
Qed.
Print Assumptions C39_offset.

Example C39_nonvacuous : partitioned w2 point2 /\ arrive w2 0 [1%nat] /\ arrive w2 1 [0%nat] /\
  updatePointGhostExchangeInfo w2 0 [1%nat] = Some [(10, 0); (20, 1); (30, 2)] /\
  updatePointGhostExchangeInfo w2 1 [0%nat] = Some [(8, 2); (9, 3); (7, 1)] /\ nglobal w2 = 4.
Proof.
  split; [exact partitioned2|]. split; [apply arrive2|]. split; [apply arrive2|]. split; [reflexivity|]. split; reflexivity.
Qed.

(** * C66 *)

(** A geometry which is not distributed: the vertices are numbered 0..n-1 in order, and the two
    maps are the inverse of each other. *)
Theorem C66_vertices_serial : forall vs, NoDup vs ->
  (forall k v, nth_error vs k = Some v -> zget (getMapDataInv_serial vs) v = Some (Z.of_nat k)) /\
  (forall v, ~ In v vs -> zget (getMapDataInv_serial vs) v = None) /\
  inverse_maps (getMapData vs (getMapDataInv_serial vs) []) (getMapDataInv_serial vs).
Proof.
  intros vs N. assert (forall v, ~ In v vs -> zget (getMapDataInv_serial vs) v = None) as O.
  { intros v H. unfold getMapDataInv_serial. rewrite enumerate_other; [reflexivity|exact H]. }
  assert (forall k v, nth_error vs k = Some v -> zget (getMapDataInv_serial vs) v = Some (Z.of_nat k)) as K.
  { intros k v H. unfold getMapDataInv_serial. rewrite (enumerate_nth vs 0 [] k v N H). reflexivity. }
  split; [exact K|]. split; [exact O|]. apply getMapData_inverse.
  - intros v c H. destruct (in_dec Z.eq_dec v vs) as [I|I]; [exact I|]. rewrite (O v I) in H. discriminate.
  - intros a b x A B. destruct (in_dec Z.eq_dec a vs) as [I|I]; [|rewrite (O a I) in A; discriminate].
    destruct (in_dec Z.eq_dec b vs) as [J|J]; [|rewrite (O b J) in B; discriminate].
    destruct (In_nth_error _ _ I) as [i Hi]. destruct (In_nth_error _ _ J) as [j Hj].
    rewrite (K i a Hi) in A. rewrite (K j b Hj) in B. assert (i = j) by (injection A; injection B; lia). congruence.
Qed.
Print Assumptions C66_vertices_serial.

(** A distributed geometry: all the vertices, or the interior ones only, with their numbers, and
    the two maps are the inverse of each other. *)
Theorem C66_vertices_distributed : forall {P} (w : list part) (point : nat -> Z -> P) r arrivals p ids wg,
  partitioned w point -> arrive w r arrivals -> updatePointGhostExchangeInfo w r arrivals = Some ids -> nth_error w r = Some p ->
  (forall v c, zget (getMapDataInv_dist p ids wg) v = Some c <-> zget ids v = Some c /\ (wg = true \/ p_interior p v = true)) /\
  (forall v, vertex_of w r v -> exists c, zget ids v = Some c) /\
  inverse_maps (getMapData (p_verts p) (getMapDataInv_dist p ids wg) []) (getMapDataInv_dist p ids wg).
Proof.
  intros P w point r arrivals p ids wg H A U E.
  assert (forall v c, zget (getMapDataInv_dist p ids wg) v = Some c <-> zget ids v = Some c /\ (wg = true \/ p_interior p v = true)) as G.
  { intros v c. unfold getMapDataInv_dist. rewrite (zget_filter _ ids v (update_keys _ _ _ _ U)).
    destruct (zget ids v) as [d|]; [|split; [discriminate|intros [X _]; discriminate]]. cbn [fst].
    destruct (wg || p_interior p v) eqn:F.
    - apply orb_true_iff in F. split; [intros X; split; [exact X|exact F]|tauto].
    - split; [discriminate|]. intros [_ X]. apply orb_true_iff in X. congruence. }
  destruct (update_good w point H r arrivals ltac:(apply nth_error_Some; congruence) A) as [m [U' G']]. assert (m = ids) by congruence. subst m.
  split; [exact G|]. split.
  - intros v V. destruct (owned w point H r v V) as [o [u [I Q]]]. rewrite (G' v o u V I Q).
    destruct (own_some w point H o u I) as [q [i [_ [_ X]]]]. eexists. exact X.
  - apply getMapData_inverse.
    + intros v c K. apply G in K. destruct (update_known w point H r arrivals ids v c A U (proj1 K)) as [q [Q I]]. congruence.
    + intros a b x X Y. apply G in X. apply G in Y. destruct X as [X _]. destruct Y as [Y _].
      pose proof (update_known w point H r arrivals ids a x A U X) as Va. pose proof (update_known w point H r arrivals ids b x A U Y) as Vb.
      destruct (owned w point H r a Va) as [o [u [I Q]]]. destruct (owned w point H r b Vb) as [o' [u' [I' Q']]].
      rewrite (G' a o u Va I Q) in X. rewrite (G' b o' u' Vb I' Q') in Y.
      destruct (own_inj w point H o u o' u' x X Y) as [-> ->]. apply (points_unique w point H r a b Va Vb). congruence.
Qed.
Print Assumptions C66_vertices_distributed.

(** From the number to the cell: exactly the wanted cells, each under its number. *)
Theorem C66_cells : forall cells number_of wg,
  (forall a b, In a cells -> In b cells -> number_of (gc_id a) = number_of (gc_id b) -> gc_id a = gc_id b) ->
  forall n id, zget (getMapCell cells number_of wg []) n = Some id <->
    exists c, In c cells /\ (wg = true \/ gc_interior c = true) /\ gc_id c = id /\ number_of id = n.
Proof.
  intros cells number_of wg J n id. destruct (getMapCell_put cells number_of wg [] J n) as [A B]. split.
  - intros H. destruct (existsb (fun c => (wg || gc_interior c) && (number_of (gc_id c) =? n)) cells) eqn:X.
    + apply existsb_exists in X. destruct X as [c [I K]]. apply andb_true_iff in K. destruct K as [K1 K2].
      apply orb_true_iff in K1. apply Z.eqb_eq in K2. rewrite (A c I K1 K2) in H. injection H as <-. exists c. auto.
    + rewrite B in H; [discriminate|]. intros c I V Y.
      assert (existsb (fun c => (wg || gc_interior c) && (number_of (gc_id c) =? n)) cells = true); [|congruence].
      apply existsb_exists. exists c. split; [exact I|]. apply andb_true_iff. split; [apply orb_true_iff; exact V|apply Z.eqb_eq; exact Y].
  - intros [c [I [V [<- Y]]]]. apply A; assumption.
Qed.
Print Assumptions C66_cells.

(** From the cell to its number: with ghosts, the map kept by the patch.  Without ghosts the
    cells are looked up by their number instead of their id: a mesh of one interior cell, with id
    5, is an error, and with two cells the interior one is dropped instead of the ghost. *)
Theorem C66_cells_inverse_refuted :
  (exists cells all, (forall c, In c cells -> gc_interior c = true) /\ map gc_id cells = map fst all /\ map snd all = [0] /\
     getMapCellInv cells all false = None) /\
  (exists cells all m c, map gc_id cells = map fst all /\ map snd all = [0; 1] /\
     getMapCellInv cells all false = Some m /\ In c cells /\ gc_interior c = true /\ zget m (gc_id c) = None).
Proof.
  split.
  - exists [{| gc_id := 5; gc_interior := true |}], [(5, 0)]. split; [intros c [<-|[]]; reflexivity|]. split; [reflexivity|]. split; reflexivity.
  - exists [{| gc_id := 1; gc_interior := true |}; {| gc_id := 0; gc_interior := false |}], [(1, 0); (0, 1)], [(0, 1)], {| gc_id := 1; gc_interior := true |}.
    split; [reflexivity|]. split; [reflexivity|]. split; [reflexivity|]. split; [left; reflexivity|]. split; reflexivity.
Qed.
Print Assumptions C66_cells_inverse_refuted.

(** It is right when the numbers are the ids, and these fit in an [int]. *)
Theorem C66_cells_inverse_partial : forall cells all,
  NoDup (map fst all) -> NoDup (map gc_id cells) ->
  (forall k n, In (k, n) all -> k = n /\ -2 ^ 31 <= k < 2 ^ 31 /\ exists c, In c cells /\ gc_id c = k) ->
  exists m, getMapCellInv cells all false = Some m /\
    forall k n, zget m k = Some n <-> zget all k = Some n /\ exists c, In c cells /\ gc_id c = k /\ gc_interior c = true.
Proof.
  intros cells all NA NC H. unfold getMapCellInv.
  assert (forall c, In c cells -> cell_at cells (gc_id c) = Some c) as F.
  { clear H. induction cells as [|d cells IH]; intros c I; [contradiction|]. simpl in NC. apply NoDup_cons_iff in NC. destruct NC as [N1 N2].
    unfold cell_at. cbn [find]. destruct I as [->|I].
    - rewrite Z.eqb_refl. reflexivity.
    - destruct (gc_id d =? gc_id c) eqn:E; [apply Z.eqb_eq in E; exfalso; apply N1; rewrite E; apply in_map; assumption|].
      apply IH; assumption. }
  assert (exists l, todelete cells all = Some l /\ forall k, In k l <-> exists c, In c cells /\ gc_id c = k /\ gc_interior c = false /\ In k (map fst all)) as [l [T L]].
  { clear NA. induction all as [|[k n] all IH].
    - exists []. split; [reflexivity|]. intros k. split; [contradiction|]. intros [c [_ [_ [_ X]]]]. exact X.
    - destruct IH as [l [T L]]; [intros k' n' I; apply H; right; exact I|].
      destruct (H k n (or_introl eq_refl)) as [<- [_ [c [I <-]]]]. cbn [todelete fst snd]. rewrite (F c I), T.
      eexists. split; [reflexivity|]. intros k'. destruct (gc_interior c) eqn:G.
      + rewrite L. split; intros [c' [I' [E' [G' X]]]]; exists c'; (split; [exact I'|]); (split; [exact E'|]); (split; [exact G'|]).
        * right. exact X.
        * destruct X as [X|X]; [|exact X]. exfalso. assert (c' = c); [|congruence].
          assert (cell_at cells (gc_id c') = Some c') as Q by (apply F; exact I'). rewrite E', <- X in Q. cbn [fst] in Q. rewrite (F c I) in Q. congruence.
      + cbn [In]. rewrite L. split.
        * intros [<-|[c' [I' [E' [G' X]]]]].
          -- exists c. split; [exact I|]. split; [reflexivity|]. split; [exact G|]. left. reflexivity.
          -- exists c'. split; [exact I'|]. split; [exact E'|]. split; [exact G'|]. right. exact X.
        * intros [c' [I' [E' [G' [X|X]]]]]; [left; exact X|]. right. exists c'. auto. }
  rewrite T. eexists. split; [reflexivity|].
  assert (forall l m, NoDup (map fst m) -> (forall k, In k l -> -2 ^ 31 <= k < 2 ^ 31) ->
     forall k n, zget (fold_left (fun m id => zerase m (to_int id)) l m) k = Some n <-> zget m k = Some n /\ ~ In k l) as K.
  { clear. induction l as [|d l IH]; intros m N R k n; cbn [fold_left]; [simpl; tauto|].
    assert (to_int d = d) as TD. { unfold to_int. rewrite Z.mod_small; [lia|]. specialize (R d (or_introl eq_refl)). lia. }
    rewrite IH; [|apply NoDup_filter_fst_aux; exact N|intros z Hz; apply R; right; exact Hz].
    unfold zerase. rewrite (zget_filter _ m k N), TD. cbn [fst]. destruct (zget m k) as [c|]; [|split; intros [X _]; discriminate].
    destruct (k =? d) eqn:Q.
    - apply Z.eqb_eq in Q. subst d. cbn [negb]. split; [intros [X _]; discriminate|intros [_ X]; exfalso; apply X; left; reflexivity].
    - apply Z.eqb_neq in Q. cbn [negb In]. split; intros [X Y]; (split; [exact X|]); [intros [B|B]; [congruence|contradiction]|tauto]. }
  intros k n. rewrite K; [|exact NA|].
  - rewrite L. split; intros [X Y]; (split; [exact X|]).
    + pose proof (zget_In _ _ _ X) as I. destruct (H k n I) as [_ [_ [c [Ic Ec]]]]. exists c. split; [exact Ic|]. split; [exact Ec|].
      destruct (gc_interior c) eqn:G; [reflexivity|]. exfalso. apply Y. exists c. split; [exact Ic|]. split; [exact Ec|]. split; [exact G|].
      apply in_map_iff. exists (k, n). split; [reflexivity|exact I].
    + intros [c [Ic [Ec [G _]]]]. destruct Y as [c' [Ic' [Ec' G']]]. assert (c' = c); [|congruence].
      assert (Some c' = Some c) as Q by (rewrite <- (F c Ic), <- (F c' Ic'); congruence). congruence.
  - intros z Hz. apply L in Hz. destruct Hz as [c [_ [_ [_ I]]]]. apply in_map_iff in I. destruct I as [[a b] [<- I]]. apply (H a b I).
Qed.
Print Assumptions C66_cells_inverse_partial.

Example C66_nonvacuous :
  NoDup [7; 3; 9] /\ getMapDataInv_serial [7; 3; 9] = [(7, 0); (3, 1); (9, 2)] /\
  getMapData [7; 3; 9] (getMapDataInv_serial [7; 3; 9]) [] = [(0, 7); (1, 3); (2, 9)] /\
  getMapCell [{| gc_id := 4; gc_interior := true |}; {| gc_id := 6; gc_interior := false |}] (fun i => i - 4) false [] = [(0, 4)] /\
  getMapCellInv [{| gc_id := 0; gc_interior := true |}; {| gc_id := 1; gc_interior := false |}] [(0, 0); (1, 1)] false = Some [(0, 0)].
Proof. split; [repeat constructor; cbn; intuition lia|]. repeat split. Qed.
