(** C92: narrow bands around a surface.  C93: connectivities between vertices and cells. *)
From Coq Require Import List Arith Bool Lia Reals Lra ZArith.
From Verif Require Import Vec SharedPtr Obj ObjSpec ObjProofs PidProps Select SelectSpec SelectProofs SelectProps TriProofs DegProps Band BandSpec BandProofs.
Import ListNotations.
Open Scope list_scope.
Open Scope nat_scope.

(** From a list of seeds, each once: exactly the cells joined to a valid seed by neighbours inside the
    band, with their distances.  Seeds that are not cells are ignored. *)
Theorem C92_cells : forall t ids d maxdist measure neigh patch seeds valid,
  measured d maxdist measure -> (forall x y, In x ids -> In y (neigh x) -> In y ids) -> NoDup seeds -> t <> 3 ->
  (forall x, In x valid <-> In x seeds /\ In x ids) ->
  exists r, getCellsNarrowBand t 1 ids measure maxdist neigh patch (Some seeds) = Some r /\ band_of d (joined d maxdist neigh valid) r.
Proof.
  intros t ids d maxdist measure neigh patch seeds valid M K N T V. unfold getCellsNarrowBand. cbn [Nat.eqb negb]. rewrite (proj2 (Nat.eqb_neq t 3) T).
  destruct (band_ok d maxdist measure neigh ids (filter (fun id => nin id ids) seeds) M K) as (r & E & B).
  - apply NoDup_filter, N.
  - intros x Hx. apply filter_In in Hx. apply nin_iff, Hx.
  - exists r. split; [exact E|]. destruct B as (B1 & B2). split; [exact B1|]. intros id x. rewrite B2.
    assert (Q : forall l l', (forall x, In x l -> In x l') -> forall i, joined d maxdist neigh l i -> joined d maxdist neigh l' i).
    { intros l l' H i J. induction J as [i Hi Hd|i j Hi IH Hn Hd]; [apply joined_seed; [apply H, Hi|exact Hd]|apply (joined_next d maxdist neigh l' i j IH Hn Hd)]. }
    assert (S0 : forall x, In x (filter (fun id => nin id ids) seeds) <-> In x valid) by (intros y; rewrite V, filter_In, nin_iff; tauto).
    split; intros (A & C); (split; [|exact C]); revert A; apply Q; intros y Hy; apply S0, Hy.
Qed.
Print Assumptions C92_cells.

(** The same for vertices. *)
Theorem C92_vertices : forall ids d maxdist measure neigh seeds valid,
  measured d maxdist measure -> (forall x y, In x ids -> In y (neigh x) -> In y ids) -> NoDup seeds ->
  (forall x, In x valid <-> In x seeds /\ In x ids) ->
  exists r, getVerticesNarrowBand 1 ids measure maxdist neigh (Some seeds) = Some r /\ band_of d (joined d maxdist neigh valid) r.
Proof.
  intros ids d maxdist measure neigh seeds valid M K N V. exact (C92_cells 1 ids d maxdist measure neigh [] seeds valid M K N ltac:(discriminate) V).
Qed.
Print Assumptions C92_vertices.

(** Without seeds, when the search of the tree returns at least the cells of the band: all the cells
    whose centre is within the distance, with their distances. *)
Theorem C92_all : forall t ids d maxdist measure neigh patch,
  measured d maxdist measure -> (forall x y, In x ids -> In y (neigh x) -> In y ids) -> NoDup patch -> incl patch ids -> t <> 3 ->
  (forall x, In x ids -> (d x < maxdist)%R -> In x patch) ->
  exists r, getCellsNarrowBand t 1 ids measure maxdist neigh patch None = Some r /\ band_of d (fun x => In x ids /\ (d x < maxdist)%R) r.
Proof.
  intros t ids d maxdist measure neigh patch M K N I T C. unfold getCellsNarrowBand. cbn [Nat.eqb negb]. rewrite (proj2 (Nat.eqb_neq t 3) T).
  destruct (band_ok d maxdist measure neigh ids patch M K N I) as (r & E & B1 & B2). exists r. split; [exact E|]. split; [exact B1|]. intros id x. rewrite B2.
  assert (Q : joined d maxdist neigh patch id <-> In id ids /\ (d id < maxdist)%R); [|rewrite Q; reflexivity]. split.
  - intros J. induction J as [i Hi Hd|i j Hi IH Hn Hd]; [split; [apply I, Hi|exact Hd]|split; [apply (K i j (proj1 IH) Hn)|exact Hd]].
  - intros (H1 & H2). apply joined_seed; [apply (C id H1 H2)|exact H2].
Qed.
Print Assumptions C92_all.

(** Nothing for a target that is not a surface, nor for the cells of a cloud. *)
Theorem C92_nothing : forall t s ids measure maxdist neigh patch seeds, s <> 1 ->
  getCellsNarrowBand t s ids measure maxdist neigh patch seeds = Some [] /\ getVerticesNarrowBand s ids measure maxdist neigh seeds = Some [] /\
  getCellsNarrowBand 3 1 ids measure maxdist neigh patch seeds = Some [].
Proof.
  intros t s ids measure maxdist neigh patch seeds H. unfold getCellsNarrowBand, getVerticesNarrowBand. rewrite (proj2 (Nat.eqb_neq s 1) H). repeat split.
Qed.
Print Assumptions C92_nothing.

(** Without seeds the band of vertices is always empty, whatever the distances: all the vertices may lie
    on the surface. *)
Theorem C92_vertices_refuted : forall ids d maxdist measure neigh, measured d maxdist measure ->
  getVerticesNarrowBand 1 ids measure maxdist neigh None = Some [] /\
  (forall id, In id ids -> (d id < maxdist)%R -> ~ band_of d (fun x => In x ids /\ (d x < maxdist)%R) []).
Proof.
  intros ids d maxdist measure neigh M. split; [reflexivity|]. intros id H1 H2 (_ & B). destruct (proj2 (B id (d id)) (conj (conj H1 H2) eq_refl)).
Qed.
Print Assumptions C92_vertices_refuted.

(** A cell of the band given twice among the seeds makes the call throw. *)
Theorem C92_twice_refuted : forall ids d maxdist measure neigh patch id, measured d maxdist measure -> In id ids -> (d id < maxdist)%R ->
  getCellsNarrowBand 1 1 ids measure maxdist neigh patch (Some [id; id]) = None.
Proof.
  intros ids d maxdist measure neigh patch id M H1 H2. unfold getCellsNarrowBand, band_from. cbn [Nat.eqb negb filter]. rewrite (proj2 (nin_iff id ids) H1).
  cbn [band_seeds]. rewrite (proj2 (near_iff d maxdist measure id M) H2). unfold has. cbn [find List.app]. rewrite Nat.eqb_refl. reflexivity.
Qed.
Print Assumptions C92_twice_refuted.

(** A row of five cells, all in the band but the fourth. *)
Definition row (x : nat) : list nat := match x with 0 => [1] | 1 => [0; 2] | 2 => [1; 3] | 3 => [2; 4] | _ => [3] end.
Definition row_d (x : nat) : R := if Nat.eqb x 3 then 2 else / 2.
Example C92_nonvacuous :
  measured row_d 1 row_d /\ (forall x y, In x [0; 1; 2; 3; 4] -> In y (row x) -> In y [0; 1; 2; 3; 4]) /\
  joined row_d 1 row [1] 2 /\ ~ joined row_d 1 row [1] 4 /\
  exists r, getCellsNarrowBand 2 1 [0; 1; 2; 3; 4] row_d 1 row [] (Some [1; 3; 7]) = Some r /\ In (2, (/ 2)%R) r /\ ~ In 4 (map fst r).
Proof.
  assert (L : forall x, (row_d x < 1)%R <-> x <> 3) by (intros x; unfold row_d; destruct (Nat.eqb_spec x 3); split; intros; try lra; try congruence; lia).
  split; [intros x; split; intros H; [reflexivity|exact H]|]. split.
  { intros x y Hx Hy. cbn [In] in Hx. destruct Hx as [<- | [<- | [<- | [<- | [<- | []]]]]]; cbn [row In] in Hy |- *; lia. }
  split; [apply (joined_next _ _ _ _ 1); [apply joined_seed; [left; reflexivity|apply L; lia]|right; left; reflexivity|apply L; lia]|]. split.
  { assert (Q : forall x, joined row_d 1 row [1] x -> x < 3).
    { intros x J. induction J as [x [<- | []] Hd|x y J IH Hn Hd]; [lia|]. apply L in Hd. destruct x as [|[|[|x]]]; cbn [row In] in Hn; lia. }
    intros J. apply Q in J. lia. }
  destruct (C92_cells 2 [0; 1; 2; 3; 4] row_d 1 row_d row [] [1; 3; 7] [1; 3]) as (r & E & B1 & B2).
  - intros x; split; intros H; [reflexivity|exact H].
  - intros x y Hx Hy. cbn [In] in Hx. destruct Hx as [<- | [<- | [<- | [<- | [<- | []]]]]]; cbn [row In] in Hy |- *; lia.
  - repeat constructor; cbn [In]; lia.
  - discriminate.
  - intros x. cbn [In]. lia.
  - exists r. split; [exact E|]. assert (Q : forall x, joined row_d 1 row [1; 3] x -> x < 3).
    { intros x J. induction J as [x Hs Hd|x y J IH Hn Hd]; apply L in Hd; [cbn [In] in Hs; lia|]. destruct x as [|[|[|x]]]; cbn [row In] in Hn; lia. }
    split.
    + apply B2. split; [|unfold row_d; reflexivity]. apply (joined_next _ _ _ _ 1); [apply joined_seed; [left; reflexivity|apply L; lia]|right; left; reflexivity|apply L; lia].
    + intros F. apply in_map_iff in F. destruct F as ((y, z) & Ey & F). cbn [fst] in Ey. subst y. apply B2 in F. destruct F as (F & _). apply Q in F. lia.
Qed.

(** * Connectivities *)
Lemma mput_find : forall v c m w, find w (mput v c m) = if Nat.eqb v w then Some c else find w m.
Proof.
  intros v c. induction m as [|(x, d) m IH]; intros w; cbn [mput find].
  - destruct (Nat.eqb v w); reflexivity.
  - destruct (Nat.eqb_spec x v) as [->|E]; cbn [find].
    + destruct (Nat.eqb v w); reflexivity.
    + rewrite IH. destruct (Nat.eqb_spec x w) as [->|F]; [|reflexivity]. destruct (Nat.eqb_spec v w) as [->|G]; [contradiction|reflexivity].
Qed.
Lemma mput_keys : forall v c m, NoDup (map fst m) -> NoDup (map fst (mput v c m)) /\ forall w, In w (map fst (mput v c m)) <-> w = v \/ In w (map fst m).
Proof.
  intros v c. induction m as [|(x, d) m IH]; intros N; cbn [mput map fst].
  - split; [constructor; [intros []|constructor]|]. intros w. cbn [In]. split; [intros [-> | []]; left; reflexivity|intros [-> | []]; left; reflexivity].
  - destruct (proj1 (NoDup_cons_iff x (map fst m)) N) as (Hx & Hm). destruct (Nat.eqb_spec x v) as [->|E]; cbn [map fst].
    + split; [exact N|]. intros w. cbn [In]. split; [tauto|]. intros [-> | H]; [left; reflexivity|exact H].
    + destruct (IH Hm) as (A & B). split; [constructor; [|exact A]; rewrite B; intros [-> | F]; [apply E; reflexivity|contradiction]|].
      intros w. cbn [In]. rewrite B. tauto.
Qed.
Lemma inverse_cell : forall c vs m w, find w (fold_left (fun m v => mput v c m) vs m) = if nin w vs then Some c else find w m.
Proof.
  intros c. induction vs as [|v vs IH]; intros m w; cbn [fold_left]; [reflexivity|]. rewrite IH, mput_find. unfold nin. cbn [existsb].
  rewrite (Nat.eqb_sym w v). destruct (existsb (Nat.eqb w) vs), (Nat.eqb v w); reflexivity.
Qed.
Lemma inverse_keys : forall c vs m, NoDup (map fst m) -> NoDup (map fst (fold_left (fun m v => mput v c m) vs m)).
Proof. intros c. induction vs as [|v vs IH]; intros m N; cbn [fold_left]; [exact N|]. apply IH, mput_keys, N. Qed.

(** Each vertex of a cell is mapped to the last cell that has it; no other vertex is mapped. *)
Theorem C93_inverse : forall g, sound g ->
  NoDup (map fst (getInverseConnectivity g)) /\
  (forall v c, In (v, c) (getInverseConnectivity g) <->
     exists before k after, o_cells g = before ++ (c, k) :: after /\ vertex_of k v /\ forall d j, In (d, j) after -> ~ vertex_of j v) /\
  (forall v, In v (map fst (getInverseConnectivity g)) <-> exists c k, In (c, k) (o_cells g) /\ vertex_of k v).
Proof.
  intros g Sd. unfold getInverseConnectivity.
  assert (Vs : forall c k v, In (c, k) (o_cells g) -> (nin v (cell_verts k) = true <-> vertex_of k v)) by (intros c k v H; rewrite nin_iff; apply cell_verts_in, (Sd c k H)).
  revert Vs. generalize (o_cells g) as cs. clear. intros cs Vs.
  assert (G : forall m, NoDup (map fst m) -> NoDup (map fst (fold_left (fun m e => fold_left (fun m v => mput v (fst e) m) (cell_verts (snd e)) m) cs m)) /\
    forall v c, find v (fold_left (fun m e => fold_left (fun m v => mput v (fst e) m) (cell_verts (snd e)) m) cs m) = Some c <->
      (exists before k after, cs = before ++ (c, k) :: after /\ vertex_of k v /\ forall d j, In (d, j) after -> ~ vertex_of j v) \/
      (find v m = Some c /\ forall d j, In (d, j) cs -> ~ vertex_of j v)).
  { revert Vs. induction cs as [|(i, k) cs IH]; intros Vs m N; cbn [fold_left fst snd].
    - split; [exact N|]. intros v c. split; [intros H; right; split; [exact H|intros d j []]|]. intros [(b & k & a & E & _)|(H & _)]; [destruct b; discriminate|exact H].
    - destruct (IH (fun c j v H => Vs c j v (or_intror H)) (fold_left (fun m v => mput v i m) (cell_verts k) m) (inverse_keys i (cell_verts k) m N)) as (A & B).
      split; [exact A|]. intros v c. rewrite B, inverse_cell. pose proof (Vs i k v (or_introl eq_refl)) as Vk. split.
      + intros [(b & j & a & E & H1 & H2)|(H1 & H2)].
        * left. exists ((i, k) :: b), j, a. rewrite E. split; [reflexivity|]. split; assumption.
        * destruct (nin v (cell_verts k)) eqn:Nv.
          -- injection H1 as <-. left. exists [], k, cs. split; [reflexivity|]. split; [apply Vk; reflexivity|exact H2].
          -- right. split; [exact H1|]. intros d j [F|F]; [|apply (H2 d j F)]. injection F as <- <-. intros F. apply Vk in F. discriminate.
      + intros [(b & j & a & E & H1 & H2)|(H1 & H2)].
        * destruct b as [|e b]; cbn [List.app] in E.
          -- injection E as E1 E2 E3. right. subst i k a. split; [|exact H2]. rewrite (proj2 Vk H1). reflexivity.
          -- left. exists b, j, a. split; [congruence|]. split; assumption.
        * right. split; [|intros d j F; apply (H2 d j (or_intror F))]. destruct (nin v (cell_verts k)) eqn:Nv; [|exact H1]. exfalso. apply (H2 i k (or_introl eq_refl)), Vk. reflexivity. }
  destruct (G [] (NoDup_nil nat)) as (A & B). split; [exact A|].
  assert (C : forall v c, In (v, c) (fold_left (fun m e => fold_left (fun m v => mput v (fst e) m) (cell_verts (snd e)) m) cs []) <->
     exists before k after, cs = before ++ (c, k) :: after /\ vertex_of k v /\ forall d j, In (d, j) after -> ~ vertex_of j v).
  { intros v c. split.
    - intros H. apply (in_find _ v _ c A), B in H. destruct H as [H|(H & _)]; [exact H|discriminate].
    - intros H. apply find_in, B. left. exact H. }
  split; [exact C|]. intros v. split.
  - intros H. apply in_map_iff in H. destruct H as ((w, c) & E & H). cbn [fst] in E. subst w. apply C in H. destruct H as (b & k & a & E & H & _). exists c, k. split; [|exact H]. rewrite E. apply in_elt.
  - intros (c & k & H & Hv). destruct (find v (fold_left (fun m e => fold_left (fun m v => mput v (fst e) m) (cell_verts (snd e)) m) cs [])) as [c'|] eqn:E.
    + apply find_in in E. apply (in_map fst) in E. exact E.
    + exfalso.
      assert (L : exists c' b k' a, cs = b ++ (c', k') :: a /\ vertex_of k' v /\ forall d j, In (d, j) a -> ~ vertex_of j v).
      { clear G A B C E. revert Vs H. induction cs as [|(i, j) cs IH]; intros Vs H; [destruct H|].
        destruct (existsb (fun e => nin v (cell_verts (snd e))) cs) eqn:X.
        - apply existsb_exists in X. destruct X as ((i', j') & X1 & X2). cbn [snd] in X2.
          assert (Last : exists c0 k0, In (c0, k0) cs /\ vertex_of k0 v) by (exists i', j'; split; [exact X1|apply (Vs i' j' v (or_intror X1)), X2]).
          destruct Last as (c0 & k0 & L1 & L2).
          assert (R0 : exists c' b k' a, cs = b ++ (c', k') :: a /\ vertex_of k' v /\ forall d j0, In (d, j0) a -> ~ vertex_of j0 v).
          { clear IH H X1 X2 Hv. revert c0 k0 L1 L2 Vs. clear. intros c0 k0 L1 L2 Vs. revert c0 k0 L1 L2. induction cs as [|(p, q) cs IH] using rev_ind; intros c0 k0 L1 L2; [destruct L1|].
            destruct (nin v (cell_verts q)) eqn:Y.
            - exists p, cs, q, []. split; [reflexivity|]. split; [|intros d j0 []]. apply (Vs p q v); [right; apply in_app_iff; right; left; reflexivity|exact Y].
            - apply in_app_iff in L1. destruct L1 as [L1|[L1|[]]].
              + destruct (IH (fun a b w Hw => Vs a b w ltac:(destruct Hw as [Hw|Hw]; [left; exact Hw|right; apply in_app_iff; left; exact Hw])) c0 k0 L1 L2) as (c' & b & k' & a & E & H1 & H2).
                exists c', b, k', (a ++ [(p, q)]). split; [rewrite E, <- app_assoc; reflexivity|]. split; [exact H1|]. intros d j0 F. apply in_app_iff in F. destruct F as [F|[F|[]]]; [apply (H2 d j0 F)|].
                injection F as <- <-. intros F. apply (Vs p q v) in F; [congruence|]. right. apply in_app_iff. right. left. reflexivity.
              + injection L1 as <- <-. apply (Vs p q v) in L2; [congruence|]. right. apply in_app_iff. right. left. reflexivity. }
          destruct R0 as (c' & b & k' & a & E & H1 & H2). exists c', ((i, j) :: b), k', a. split; [rewrite E; reflexivity|]. split; assumption.
        - assert (None' : forall d j0, In (d, j0) cs -> ~ vertex_of j0 v).
          { intros d j0 F F2. apply (Vs d j0 v (or_intror F)) in F2. assert (T : existsb (fun e => nin v (cell_verts (snd e))) cs = true) by (apply existsb_exists; exists (d, j0); split; assumption). congruence. }
          destruct H as [H|H]; [|exfalso; apply (None' c k H Hv)]. injection H as -> ->. exists c, [], k, cs. split; [reflexivity|]. split; [exact Hv|exact None']. }
      destruct L as (c' & L). assert (F : find v (fold_left (fun m e => fold_left (fun m v => mput v (fst e) m) (cell_verts (snd e)) m) cs []) = Some c') by (apply B; left; exact L). congruence.
Qed.
Print Assumptions C93_inverse.

Definition rel (m : list (nat * list nat)) (x y : nat) : Prop := exists l, In (x, l) m /\ In y l.
Definition tidy (m : list (nat * list nat)) : Prop := NoDup (map fst m) /\ forall x l, In (x, l) m -> NoDup l.
Lemma minsert_ok : forall a b m, tidy m -> tidy (minsert a b m) /\ (forall x, In x (map fst (minsert a b m)) <-> x = a \/ In x (map fst m)) /\
  forall x y, rel (minsert a b m) x y <-> rel m x y \/ (x = a /\ y = b).
Proof.
  intros a b. induction m as [|(k, l) m IH]; intros (N & D); cbn [minsert].
  - split; [split; [repeat constructor; intros []|intros x l [E|[]]; injection E as <- <-; repeat constructor; intros []]|]. split.
    + intros x. cbn [map fst In]. split; [intros [-> | []]; tauto|intros [-> | []]; tauto].
    + intros x y. unfold rel. split.
      * intros (l & [E|[]] & H). injection E as <- <-. destruct H as [<- | []]. right. split; reflexivity.
      * intros [(l & [] & _)|(-> & ->)]. exists [b]. split; left; reflexivity.
  - cbn [map fst] in N. destruct (proj1 (NoDup_cons_iff k (map fst m)) N) as (N1 & N2). destruct (Nat.eqb_spec k a) as [->|E].
    + assert (In0 : forall y, In y (if nin b l then l else l ++ [b]) <-> In y l \/ y = b).
      { intros y. destruct (nin b l) eqn:Q; [apply nin_iff in Q; split; [tauto|]; intros [H| ->]; assumption|]. rewrite in_app_iff. cbn [In]. intuition congruence. }
      split; [split; [exact N|]|split].
      * intros x l' [F|F]; [|apply (D x l' (or_intror F))]. injection F as <- <-. pose proof (D a l (or_introl eq_refl)) as Dl. destruct (nin b l) eqn:Q; [exact Dl|]. apply nodup_snoc; [exact Dl|apply nin_false, Q].
      * intros x. cbn [map fst In]. split; [tauto|]. intros [-> | H]; [left; reflexivity|exact H].
      * intros x y. unfold rel. split.
        -- intros (l' & [F|F] & H); [|left; exists l'; split; [right; exact F|exact H]]. injection F as <- <-. apply In0 in H. destruct H as [H| ->]; [left; exists l; split; [left; reflexivity|exact H]|right; split; reflexivity].
        -- intros [(l' & [F|F] & H)|(-> & ->)].
           ++ injection F as <- <-. eexists. split; [left; reflexivity|]. apply In0. left. exact H.
           ++ exists l'. split; [right; exact F|exact H].
           ++ eexists. split; [left; reflexivity|]. apply In0. right. reflexivity.
    + destruct (IH (conj N2 (fun x l' H => D x l' (or_intror H)))) as ((A1 & A2) & B & C). split; [split|split].
      * cbn [map fst]. constructor; [|exact A1]. rewrite B. intros [F|F]; [congruence|contradiction].
      * intros x l' [F|F]; [apply (D x l' (or_introl F))|apply (A2 x l' F)].
      * intros x. cbn [map fst In]. rewrite B. tauto.
      * intros x y. assert (Cons : forall m', rel ((k, l) :: m') x y <-> (x = k /\ In y l) \/ rel m' x y).
        { intros m'. unfold rel. split.
          - intros (l' & [F|F] & H); [injection F as <- <-; left; split; [reflexivity|exact H]|right; exists l'; split; assumption].
          - intros [(-> & H)|(l' & F & H)]; [exists l; split; [left; reflexivity|exact H]|exists l'; split; [right; exact F|exact H]]. }
        rewrite !Cons, C. tauto.
Qed.
Lemma pin_iff : forall p l, pin p l = true <-> In p l.
Proof.
  intros (a, b) l. unfold pin. rewrite existsb_exists. split.
  - intros ((c, d) & H & E). cbn [fst snd] in E. apply andb_true_iff in E. destruct E as (E1 & E2). apply Nat.eqb_eq in E1, E2. subst. exact H.
  - intros H. exists (a, b). split; [exact H|]. cbn [fst snd]. rewrite !Nat.eqb_refl. reflexivity.
Qed.
Lemma link_ok : forall es st done, tidy (snd st) ->
  (forall a b, In (a, b) (fst st) <-> a <= b /\ (In (a, b) done \/ In (b, a) done)) ->
  (forall a b, rel (snd st) a b <-> In (a, b) done \/ In (b, a) done) ->
  let st' := fold_left link es st in
  tidy (snd st') /\ forall a b, rel (snd st') a b <-> In (a, b) (done ++ es) \/ In (b, a) (done ++ es).
Proof.
  induction es as [|(p, q) es IH]; intros st done T F Rl; cbv zeta; cbn [fold_left].
  - rewrite app_nil_r. split; [exact T|exact Rl].
  - replace (done ++ (p, q) :: es) with ((done ++ [(p, q)]) ++ es) by (rewrite <- app_assoc; reflexivity).
    unfold link at 2 4. set (item := if p <? q then (p, q) else (q, p)).
    assert (It : forall a b, item = (a, b) <-> a <= b /\ ((p = a /\ q = b) \/ (p = b /\ q = a))).
    { intros a b. unfold item. destruct (Nat.ltb_spec p q) as [H|H]; split.
      - intros E. injection E as <- <-. lia.
      - intros (L & [(-> & ->)|(-> & ->)]); [reflexivity|lia].
      - intros E. injection E as <- <-. lia.
      - intros (L & [(-> & ->)|(-> & ->)]); [replace a with b by lia; reflexivity|reflexivity]. }
    assert (Mem : forall a b, In (a, b) (done ++ [(p, q)]) <-> In (a, b) done \/ (p = a /\ q = b)).
    { intros a b. rewrite in_app_iff. cbn [In]. split; [intros [H|[H|[]]]; [tauto|injection H as <- <-; tauto]|intros [H|(-> & ->)]; tauto]. }
    destruct (pin item (fst st)) eqn:P.
    + apply pin_iff in P. destruct item as (u, v) eqn:Ei. pose proof (proj1 (It u v) eq_refl) as I1. apply F in P.
      apply IH; [exact T| |]; intros a b; rewrite !Mem; [rewrite F|rewrite Rl].
      * split; [tauto|]. intros (L & [[H|(E1 & E2)]|[H|(E1 & E2)]]); (split; [exact L|]); try tauto; subst a b; destruct I1 as (_ & [(<- & <-)|(<- & <-)]); tauto.
      * split; [tauto|]. intros [[H|(E1 & E2)]|[H|(E1 & E2)]]; try tauto; subst a b; destruct I1 as (_ & [(<- & <-)|(<- & <-)]); tauto.
    + destruct (minsert_ok p q (snd st) T) as (T1 & _ & R1). destruct (minsert_ok q p (minsert p q (snd st)) T1) as (T2 & _ & R2).
      apply IH; cbn [fst snd]; [exact T2| |]; intros a b; rewrite !Mem.
      * cbn [In]. rewrite It, F. tauto.
      * rewrite R2, R1, Rl. split; [intros [[[H|H]|(-> & ->)]|(-> & ->)]; tauto|]. intros [[H|(<- & <-)]|[H|(<- & <-)]]; tauto.
Qed.

(** The vertices connected to a vertex are exactly the other ends of the edges of the cells at this
    vertex, each once, for surfaces, volumes and curves; so the relation is symmetric.  A cloud has none. *)
Theorem C93_points : forall t edges g, t = 1 \/ t = 2 \/ t = 4 ->
  let m := buildPointConnectivity t edges g in
  (forall a, (exists l, getPointConnectivity a m = Some l) <-> exists b, edge_of edges g a b) /\
  (forall a l, getPointConnectivity a m = Some l -> NoDup l /\ forall b, In b l <-> edge_of edges g a b) /\
  buildPointConnectivity 3 edges g = [].
Proof.
  intros t edges g Ht m. assert (E : m = snd (fold_left link (flat_map edges (o_cells g)) ([], []))) by (unfold m, buildPointConnectivity; destruct Ht as [-> | [-> | ->]]; reflexivity).
  destruct (link_ok (flat_map edges (o_cells g)) ([], []) []) as ((N & D) & Rl).
  - split; [constructor|intros x l []].
  - intros a b. cbn [fst In]. tauto.
  - intros a b. unfold rel. cbn [snd In]. split; [intros (l & [] & _)|tauto].
  - rewrite <- E in *. cbn [List.app] in Rl.
    assert (Ed : forall a b, rel m a b <-> edge_of edges g a b).
    { intros a b. rewrite Rl, !in_flat_map. unfold edge_of. split.
      - intros [(e & H1 & H2)|(e & H1 & H2)]; exists e; tauto.
      - intros (e & H1 & [H2|H2]); [left|right]; exists e; tauto. }
    (* no key without values *)
    assert (Ne : forall es st, (forall x, In x (map fst (snd st)) -> exists y, rel (snd st) x y) -> tidy (snd st) ->
                 forall x, In x (map fst (snd (fold_left link es st))) -> exists y, rel (snd (fold_left link es st)) x y).
    { induction es as [|(p, q) es IH]; intros st H T; cbn [fold_left]; [exact H|]. apply IH; unfold link; destruct (pin (if p <? q then (p, q) else (q, p)) (fst st)); try assumption; cbn [snd];
      destruct (minsert_ok p q (snd st) T) as (T1 & K1 & R1); destruct (minsert_ok q p (minsert p q (snd st)) T1) as (T2 & K2 & R2); [|exact T2].
      intros x Hx. apply K2 in Hx. rewrite K1 in Hx. destruct Hx as [-> | [-> | Hx]]; [exists p; apply R2; tauto|exists q; apply R2; left; apply R1; tauto|]. destruct (H x Hx) as (y & Hy). exists y. apply R2. left. apply R1. left. exact Hy. }
    split; [|split; [|reflexivity]].
    + intros a. split.
      * intros (l & H). apply find_in in H. destruct (Ne (flat_map edges (o_cells g)) ([], [])) with (x := a) as (y & Hy).
        -- intros x [].
        -- split; [constructor|intros x l' []].
        -- rewrite <- E. apply (in_map fst) in H. exact H.
        -- rewrite <- E in Hy. exists y. apply Ed, Hy.
      * intros (b & H). apply Ed in H. destruct H as (l & H & _). exists l. apply (in_find _ a m l N H).
    + intros a l H. apply find_in in H. split; [apply (D a l H)|]. intros b. rewrite <- Ed. split.
      * intros Hb. exists l. split; assumption.
      * intros (l' & H' & Hb). pose proof (in_find _ a m l N H) as Q1. pose proof (in_find _ a m l' N H') as Q2. replace l with l' by congruence. exact Hb.
Qed.
Print Assumptions C93_points.

(** Asking the connections of a vertex of the mesh that no cell uses does not give an empty list: the
    assertion fails. *)
Definition lonely : obj := snd (addConnectedCell fresh [0; 2] ELine 0 (Some 0) (points 4 [(0, 0, 0); (1, 0, 0); (2, 0, 0)]%Z)).
Definition line_edges (e : nat * cell) : list (nat * nat) := match c_conn (snd e) with [a; b] => [(a, b)] | _ => [] end.
Theorem C93_isolated_refuted : pid_history fresh lonely /\ usable lonely /\ In 1 (map fst (o_verts lonely)) /\
  getPointConnectivity 1 (buildPointConnectivity 4 line_edges lonely) = None.
Proof.
  split; [unfold lonely; eapply ph_call; [|apply pc_conn; unfold int_range; lia]; apply points_history|]. split; [apply usable_check; vm_compute; reflexivity|].
  split; [vm_compute; tauto|vm_compute; reflexivity].
Qed.
Print Assumptions C93_isolated_refuted.

(** A broken line with an edge drawn twice. *)
Definition zigzag : obj :=
  let g := points 4 [(0, 0, 0); (1, 0, 0); (2, 1, 0); (3, 1, 0)]%Z in
  let g := snd (addConnectedCell fresh [0; 1] ELine 0 (Some 3) g) in
  let g := snd (addConnectedCell fresh [2; 1] ELine 0 (Some 5) g) in
  snd (addConnectedCell fresh [1; 2] ELine 0 (Some 4) g).
Example C93_nonvacuous : sound zigzag /\ getInverseConnectivity zigzag = [(0, 3); (1, 4); (2, 4)] /\
  buildPointConnectivity 4 line_edges zigzag = [(0, [1]); (1, [0; 2]); (2, [1])].
Proof.
  assert (U : usable_b (map fst (o_verts zigzag)) (o_cells zigzag) = true) by (vm_compute; reflexivity). destruct (usable_check zigzag U) as (_ & Sd & _).
  split; [exact Sd|]. split; vm_compute; reflexivity.
Qed.
