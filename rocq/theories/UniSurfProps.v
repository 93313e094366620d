(** Properties of the union of surfaces. *)
From Coq Require Import Reals Lra.
From Coq Require Import List ZArith Bool Lia Permutation.
From Verif Require Import Vec UniSurf UniSurfSpec.
Import ListNotations.
Local Open Scope Z_scope.

(** adding elements with a key, those with a key in use are dropped *)
Section Add.
  Variable A : Type.
  Variable key : A -> Z.
  Definition add (l : list A) (a : A) : list A := if existsb (fun b => Z.eqb (key b) (key a)) l then l else l ++ [a].
  Lemma add_in : forall l a x, In x (add l a) -> In x l \/ x = a.
  Proof.
    intros l a x. unfold add. destruct (existsb _ l); [auto |]. intros H. apply in_app_or in H. destruct H as [H | [<- | []]]; auto.
  Qed.
  Lemma add_keep : forall l a x, In x l -> In x (add l a).
  Proof. intros l a x H. unfold add. destruct (existsb _ l); [exact H |]. apply in_or_app. now left. Qed.
  Lemma add_key : forall l a, exists b, In b (add l a) /\ key b = key a.
  Proof.
    intros l a. unfold add. destruct (existsb (fun b => key b =? key a) l) eqn:E.
    - apply existsb_exists in E. destruct E as (b & Hb & E). exists b. split; [exact Hb |]. now apply Z.eqb_eq.
    - exists a. split; [apply in_or_app; right; now left | reflexivity].
  Qed.
  Lemma NoDup_snoc : forall (l : list Z) z, NoDup l -> ~ In z l -> NoDup (l ++ [z]).
  Proof.
    intros l z Hl Hz. apply (Permutation_NoDup (l := z :: l)); [apply Permutation_cons_append |]. now constructor.
  Qed.
  Lemma add_nodup : forall l a, NoDup (map key l) -> NoDup (map key (add l a)).
  Proof.
    intros l a H. unfold add. destruct (existsb (fun b => key b =? key a) l) eqn:E; [exact H |].
    rewrite map_app. cbn. apply NoDup_snoc; [exact H |]. intros Hin. apply in_map_iff in Hin. destruct Hin as (b & Hk & Hb).
    assert (T : existsb (fun b => key b =? key a) l = true) by (apply existsb_exists; exists b; split; [exact Hb | now apply Z.eqb_eq]).
    congruence.
  Qed.
  Lemma adds_in : forall m l x, In x (fold_left add m l) -> In x l \/ In x m.
  Proof.
    induction m as [| a m IH]; intros l x H; cbn in H; [now left |]. destruct (IH _ _ H) as [H' | H']; [| right; now right].
    destruct (add_in _ _ _ H') as [H'' | ->]; [now left | right; now left].
  Qed.
  Lemma adds_keep : forall m l x, In x l -> In x (fold_left add m l).
  Proof. induction m as [| a m IH]; intros l x H; cbn; [exact H |]. apply IH. now apply add_keep. Qed.
  Lemma adds_key : forall m l a, In a m -> exists b, In b (fold_left add m l) /\ key b = key a.
  Proof.
    induction m as [| c m IH]; intros l a H; [destruct H |]. destruct H as [-> | H]; cbn; [| now apply IH].
    destruct (add_key l a) as (b & Hb & E). exists b. split; [now apply adds_keep | exact E].
  Qed.
  Lemma adds_nodup : forall m l, NoDup (map key l) -> NoDup (map key (fold_left add m l)).
  Proof. induction m as [| a m IH]; intros l H; cbn; [exact H |]. apply IH. now apply add_nodup. Qed.
End Add.
Lemma addVertex_add : forall l v, addVertex l v = add vert fst l v. Proof. reflexivity. Qed.
Lemma addCell_add : forall l c, addCell l c = add ucell u_id l c. Proof. reflexivity. Qed.

Lemma patches_in : forall patches s,
  let u := fold_left add_patch patches s in
  (forall v, In v (s_verts u) -> In v (s_verts s) \/ exists q, In q patches /\ In v (s_verts q)) /\
  (forall c, In c (s_cells u) -> In c (s_cells s) \/ exists q, In q patches /\ In c (s_cells q)) /\
  (forall v, In v (s_verts s) -> In v (s_verts u)) /\
  (forall c, In c (s_cells s) -> In c (s_cells u)) /\
  (forall q v, In q patches -> In v (s_verts q) -> exists w, In w (s_verts u) /\ fst w = fst v) /\
  (forall q c, In q patches -> In c (s_cells q) -> exists d, In d (s_cells u) /\ u_id d = u_id c) /\
  (a_surface s -> a_surface u).
Proof.
  induction patches as [| p patches IH]; intros s; cbn zeta; cbn [fold_left].
  - do 4 (split; [tauto |]). do 2 (split; [intros q ? [] |]). tauto.
  - destruct (IH (add_patch s p)) as (I1 & I2 & I3 & I4 & I5 & I6 & I7). cbn zeta in *.
    assert (V : s_verts (add_patch s p) = fold_left (add vert fst) (s_verts p) (s_verts s)) by reflexivity.
    assert (C : s_cells (add_patch s p) = fold_left (add ucell u_id) (s_cells p) (s_cells s)) by reflexivity.
    rewrite V in I1, I3. rewrite C in I2, I4.
    split; [| split; [| split; [| split; [| split; [| split]]]]].
    + intros v Hv. destruct (I1 v Hv) as [H | (q & Hq & H)]; [| right; exists q; split; [now right | exact H]].
      destruct (adds_in _ _ _ _ _ H) as [H' | H']; [now left |]. right. exists p. split; [now left | exact H'].
    + intros c Hc. destruct (I2 c Hc) as [H | (q & Hq & H)]; [| right; exists q; split; [now right | exact H]].
      destruct (adds_in _ _ _ _ _ H) as [H' | H']; [now left |]. right. exists p. split; [now left | exact H'].
    + intros v Hv. apply I3. now apply adds_keep.
    + intros c Hc. apply I4. now apply adds_keep.
    + intros q v [<- | Hq] Hv; [| now apply (I5 q)].
      destruct (adds_key _ fst (s_verts p) (s_verts s) v Hv) as (w & Hw & E). exists w. split; [now apply I3 | exact E].
    + intros q c [<- | Hq] Hc; [| now apply (I6 q)].
      destruct (adds_key _ u_id (s_cells p) (s_cells s) c Hc) as (d & Hd & E). exists d. split; [now apply I4 | exact E].
    + intros H. apply I7. split; [rewrite V | rewrite C]; apply adds_nodup; apply H.
Qed.

(** ** C171: the union of surfaces *)
(** with identifiers that are of one vertex and of one cell over all the surfaces, the union has the cells of all
    of them, with their pids, processes and places, and no other; it has no identifier twice *)
Theorem C171_union : forall patches, patches <> [] ->
  same_vertices patches -> same_cells patches -> (forall q, In q patches -> well_connected q) ->
  exists u, initializeUniqueSurface patches = Some u /\ a_surface u /\ well_connected u /\
    forall pid rank xs, has_cell u pid rank xs <-> exists q, In q patches /\ has_cell q pid rank xs.
Proof.
  intros patches Hne Hv Hc Hw. destruct patches as [| p0 patches0] eqn:Ep; [congruence |]. rewrite <- Ep in *. clear Hne.
  exists (fold_left add_patch patches (Surf [] [])). split; [now rewrite Ep |].
  destruct (patches_in patches (Surf [] [])) as (I1 & I2 & _ & _ & I5 & I6 & I7). cbn zeta in *.
  set (u := fold_left add_patch patches (Surf [] [])) in *.
  assert (V1 : forall v, In v (s_verts u) -> exists q, In q patches /\ In v (s_verts q)).
  { intros v H. destruct (I1 v H) as [[] | H']; exact H'. }
  assert (C1 : forall c, In c (s_cells u) -> exists q, In q patches /\ In c (s_cells q)).
  { intros c H. destruct (I2 c H) as [[] | H']; exact H'. }
  assert (V2 : forall q v, In q patches -> In v (s_verts q) -> In v (s_verts u)).
  { intros q [i x] Hq Hx. destruct (I5 q _ Hq Hx) as ([j y] & Hy & E). cbn in E. subst j.
    destruct (V1 _ Hy) as (q' & Hq' & Hy'). now rewrite (Hv q q' i x y Hq Hq' Hx Hy'). }
  assert (C2 : forall q c, In q patches -> In c (s_cells q) -> In c (s_cells u)).
  { intros q c Hq Hx. destruct (I6 q c Hq Hx) as (d & Hd & E). destruct (C1 _ Hd) as (q' & Hq' & Hd').
    now rewrite (Hc q q' c d Hq Hq' Hx Hd' (eq_sym E)). }
  split; [apply I7; split; constructor |]. split; [| intros pid rank xs; split].
  - intros c i Hcu Hi. destruct (C1 _ Hcu) as (q & Hq & Hcq). destruct (Hw q Hq c i Hcq Hi) as [x Hx].
    exists x. now apply (V2 q).
  - intros (c & Hcu & E1 & E2 & P). destruct (C1 _ Hcu) as (q & Hq & Hcq). exists q. split; [exact Hq |].
    exists c. split; [exact Hcq |]. split; [exact E1 |]. split; [exact E2 |].
    assert (K : forall i, In i (u_conn c) -> exists x, In (i, x) (s_verts q)) by (intros i Hi; now apply (Hw q Hq c)).
    clear E1 E2 Hcu Hcq. induction P as [| i x conn xs' Hx P IH]; constructor.
    + destruct (K i (or_introl eq_refl)) as [y Hy]. destruct (V1 _ Hx) as (q' & Hq' & Hx').
      now rewrite (Hv q' q i x y Hq' Hq Hx' Hy).
    + apply IH. intros j Hj. apply K. now right.
  - intros (q & Hq & c & Hcq & E1 & E2 & P). exists c. split; [now apply (C2 q) |]. split; [exact E1 |]. split; [exact E2 |].
    clear E1 E2 Hcq. induction P as [| i x conn xs' Hx P IH]; constructor; [now apply (V2 q) | exact IH].
Qed.

(** whatever the surfaces, the union has only cells and vertices of theirs, the first surface whole, and no identifier twice *)
Theorem C171_only : forall p patches u, a_surface p -> initializeUniqueSurface (p :: patches) = Some u ->
  a_surface u /\
  (forall v, In v (s_verts u) -> exists q, In q (p :: patches) /\ In v (s_verts q)) /\
  (forall c, In c (s_cells u) -> exists q, In q (p :: patches) /\ In c (s_cells q)) /\
  (forall v, In v (s_verts p) -> In v (s_verts u)) /\ (forall c, In c (s_cells p) -> In c (s_cells u)).
Proof.
  intros p patches u [Pv Pc] E. cbn [initializeUniqueSurface] in E. injection E as <-.
  destruct (patches_in (p :: patches) (Surf [] [])) as (I1 & I2 & _ & _ & _ & _ & I7). cbn zeta in *.
  split; [apply I7; split; constructor |].
  split; [intros v Hv; destruct (I1 v Hv) as [[] | H]; exact H |].
  split; [intros c Hc; destruct (I2 c Hc) as [[] | H]; exact H |].
  cbn [fold_left]. destruct (patches_in patches (add_patch (Surf [] []) p)) as (_ & _ & I3 & I4 & _). cbn zeta in *.
  assert (G : forall (A : Type) (key : A -> Z) (m l : list A), NoDup (map key l) -> NoDup (map key m) ->
    (forall a b, In a m -> In b l -> key b <> key a) -> fold_left (add A key) m l = l ++ m).
  { intros A key. induction m as [| a m IH]; intros l Hl Hm Hd; cbn; [now rewrite app_nil_r |].
    cbn in Hm. apply NoDup_cons_iff in Hm. destruct Hm as [Ha Hm].
    assert (Ea : add A key l a = l ++ [a]).
    { unfold add. destruct (existsb (fun b => key b =? key a) l) eqn:Ex; [| reflexivity].
      apply existsb_exists in Ex. destruct Ex as (b & Hb & Eb). apply Z.eqb_eq in Eb. exfalso. apply (Hd a b); [now left | exact Hb | exact Eb]. }
    rewrite Ea, IH, <- app_assoc; [reflexivity | rewrite <- Ea; now apply add_nodup | exact Hm |].
    intros c b Hc Hb. apply in_app_or in Hb. destruct Hb as [Hb | [<- | []]]; [apply Hd; [now right | exact Hb] |].
    intros Ek. apply Ha. rewrite Ek. now apply in_map. }
  split.
  - intros v Hv. apply I3. change (In v (fold_left (add vert fst) (s_verts p) [])). rewrite G; [exact Hv | constructor | exact Pv |]. intros a b _ [].
  - intros c Hc. apply I4. change (In c (fold_left (add ucell u_id) (s_cells p) [])). rewrite G; [exact Hc | constructor | exact Pc |]. intros a b _ [].
Qed.

(** no surface: no union *)
Theorem C171_none : forall patches, initializeUniqueSurface patches = None <-> patches = [].
Proof. intros [| p l]; cbn; split; congruence. Qed.

Ltac place := cbn [u_conn]; repeat (apply places_cons; [cbn; tauto |]); apply places_nil.
Definition pt (x : R) : vec := V3 x 0%R 0%R.
Definition patch_a : surf := Surf [(0, pt 0); (1, pt 1)] [UCell 0 7 [0; 1] 0].
Definition patch_b : surf := Surf [(2, pt 2); (3, pt 3)] [UCell 0 7 [2; 3] 0].
Definition patch_c : surf := Surf [(0, pt 2); (1, pt 3)] [UCell 1 7 [0; 1] 0].
Definition patch_d : surf := Surf [(1, pt 1); (3, pt 3)] [UCell 4 8 [1; 3] 1].
Lemma pt_inj : forall x y, pt x = pt y -> x = y. Proof. intros x y H. now injection H. Qed.

(** surfaces numbered each by itself: the cells of the second with identifiers of the first are lost *)
Theorem C171_lost_refuted : ~ (forall patches u, (forall q, In q patches -> a_surface q /\ well_connected q) ->
  same_vertices patches -> initializeUniqueSurface patches = Some u ->
  forall q pid rank xs, In q patches -> has_cell q pid rank xs -> has_cell u pid rank xs).
Proof.
  intros H.
  assert (K : has_cell (Surf [(0, pt 0); (1, pt 1); (2, pt 2); (3, pt 3)] [UCell 0 7 [0; 1] 0]) 7 0 [pt 2; pt 3]).
  { apply (H [patch_a; patch_b]) with (q := patch_b).
    - intros q [<- | [<- | []]]; (split; [split; cbn; repeat constructor; cbn; intuition lia |]);
        intros c i [<- | []] Hi; cbn in Hi; destruct Hi as [<- | [<- | []]]; eexists; cbn; eauto.
    - intros s t i x y Hs Ht Hx Hy. destruct Hs as [<- | [<- | []]]; destruct Ht as [<- | [<- | []]]; cbn in Hx, Hy;
        destruct Hx as [E | [E | []]]; destruct Hy as [F | [F | []]]; inversion E; subst; inversion F; subst; reflexivity.
    - reflexivity.
    - right. now left.
    - exists (UCell 0 7 [2; 3] 0). split; [now left |]. split; [reflexivity |]. split; [reflexivity |].
      place. }
  destruct K as (c & [<- | []] & _ & _ & P). cbn in P. inversion P as [| i x conn xs Hx _]; subst. cbn in Hx.
  destruct Hx as [E | [E | [E | [E | []]]]]; inversion E; lra.
Qed.

(** vertices too: the cells of the second surface are drawn in the places of the first *)
Theorem C171_places_refuted : ~ (forall patches u, (forall q, In q patches -> a_surface q /\ well_connected q) ->
  same_cells patches -> initializeUniqueSurface patches = Some u ->
  forall q pid rank xs, In q patches -> has_cell q pid rank xs -> has_cell u pid rank xs).
Proof.
  intros H.
  assert (K : has_cell (Surf [(0, pt 0); (1, pt 1)] [UCell 0 7 [0; 1] 0; UCell 1 7 [0; 1] 0]) 7 0 [pt 2; pt 3]).
  { apply (H [patch_a; patch_c]) with (q := patch_c).
    - intros q [<- | [<- | []]]; (split; [split; cbn; repeat constructor; cbn; intuition lia |]);
        intros c i [<- | []] Hi; cbn in Hi; destruct Hi as [<- | [<- | []]]; eexists; cbn; eauto.
    - intros s t c d Hs Ht Hx Hy. destruct Hs as [<- | [<- | []]]; destruct Ht as [<- | [<- | []]]; cbn in Hx, Hy;
        destruct Hx as [<- | []]; destruct Hy as [<- | []]; cbn; intros E; try discriminate E; reflexivity.
    - reflexivity.
    - right. now left.
    - exists (UCell 1 7 [0; 1] 0). split; [now left |]. split; [reflexivity |]. split; [reflexivity |].
      place. }
  destruct K as (c & Hc & _ & _ & P).
  assert (Ec : u_conn c = [0; 1]) by (destruct Hc as [<- | [<- | []]]; reflexivity). rewrite Ec in P.
  inversion P as [| i x conn xs Hx _]; subst. cbn in Hx. destruct Hx as [E | [E | []]]; inversion E; lra.
Qed.

(** the union depends on the order of the surfaces in their set *)
Theorem C171_order_refuted : ~ (forall p q u u', initializeUniqueSurface [p; q] = Some u -> initializeUniqueSurface [q; p] = Some u' ->
  forall pid rank xs, has_cell u pid rank xs -> has_cell u' pid rank xs).
Proof.
  intros H.
  assert (K : has_cell (Surf [(2, pt 2); (3, pt 3); (0, pt 0); (1, pt 1)] [UCell 0 7 [2; 3] 0]) 7 0 [pt 0; pt 1]).
  { apply (H patch_a patch_b _ _ eq_refl eq_refl).
    exists (UCell 0 7 [0; 1] 0). split; [now left |]. split; [reflexivity |]. split; [reflexivity |]. place. }
  destruct K as (c & [<- | []] & _ & _ & P). cbn in P. inversion P as [| i x conn xs Hx _]; subst. cbn in Hx.
  destruct Hx as [E | [E | [E | [E | []]]]]; inversion E; lra.
Qed.

Example C171_nonvacuous : same_vertices [patch_a; patch_d] /\ same_cells [patch_a; patch_d] /\
  (forall q, In q [patch_a; patch_d] -> well_connected q) /\ has_cell patch_d 8 1 [pt 1; pt 3] /\
  initializeUniqueSurface [patch_a; patch_d] = Some (Surf [(0, pt 0); (1, pt 1); (3, pt 3)] [UCell 0 7 [0; 1] 0; UCell 4 8 [1; 3] 1]).
Proof.
  split; [| split; [| split; [| split]]].
  - intros s t i x y Hs Ht Hx Hy. destruct Hs as [<- | [<- | []]]; destruct Ht as [<- | [<- | []]]; cbn in Hx, Hy;
      destruct Hx as [E | [E | []]]; destruct Hy as [F | [F | []]]; inversion E; subst; inversion F; subst; reflexivity.
  - intros s t c d Hs Ht Hx Hy. destruct Hs as [<- | [<- | []]]; destruct Ht as [<- | [<- | []]]; cbn in Hx, Hy;
      destruct Hx as [<- | []]; destruct Hy as [<- | []]; cbn; intros E; try discriminate E; reflexivity.
  - intros q [<- | [<- | []]]; intros c i [<- | []] Hi; cbn in Hi; destruct Hi as [<- | [<- | []]]; eexists; cbn; eauto.
  - exists (UCell 4 8 [1; 3] 1). split; [now left |]. split; [reflexivity |]. split; [reflexivity |]. place.
  - reflexivity.
Qed.

Print Assumptions C171_union.
Print Assumptions C171_only.
Print Assumptions C171_none.
Print Assumptions C171_lost_refuted.
Print Assumptions C171_places_refuted.
Print Assumptions C171_order_refuted.
