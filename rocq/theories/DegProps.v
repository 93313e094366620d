(** C89: degenerate elements. *)
From Coq Require Import String List Arith Bool ZArith Reals Lia Lra Permutation.
From Verif Require Import Vec SharedPtr Obj ObjSpec ObjProofs PidProps ObjProps Select SelectSpec SelectProofs SelectProps Tri TriSpec TriProofs TriProps DegProofs.
Import ListNotations.
Open Scope list_scope.
Open Scope nat_scope.

Lemma count_fixed t n e : by_count t n = Some e -> fixed_size e = Some n /\ e <> EUndefined /\ cell_verts (Cl e [] 0) = [].
Proof.
  destruct t as [|[|[|[|[|t]]]]]; cbn [by_count]; try discriminate;
  destruct n as [|[|[|[|[|[|[|[|[|n]]]]]]]]]; try discriminate; intros [= <-]; repeat split; discriminate.
Qed.
Lemma fixed_verts c n : fixed_size (c_type c) = Some n -> cell_verts c = c_conn c.
Proof. destruct c as [t l p]. unfold cell_verts. cbn [c_type c_conn]. destruct t; intros H; try reflexivity; discriminate. Qed.
Lemma fixed_renumber vm t l n : fixed_size t = Some n -> renumber_conn vm t l = map (renumber vm) l.
Proof. destruct t; intros H; try reflexivity; discriminate. Qed.
Lemma regular_conn g : usable g -> regular g -> forall id c, In (id, c) (o_cells g) -> cell_verts c = c_conn c /\ forall v, In v (cell_verts c) -> In v (map fst (o_verts g)).
Proof.
  intros [_ [Sd Cg]] Rg id c Hc. destruct (Rg id c Hc) as [_ F]. split; [exact (fixed_verts c _ F)|]. intros v Hv. apply (Cg id c v Hc). apply cell_verts_in; [exact (Sd id c Hc)|exact Hv].
Qed.
(** what becomes of one cell *)
Lemma cell_cases eqv g vm id c : exact eqv -> usable g -> regular g -> collapses (o_verts g) vm -> In (id, c) (o_cells g) ->
  (bad eqv g (id, c) = false -> degraded g c (snd (renumbered vm (id, c)))) /\
  (bad eqv g (id, c) = true -> good eqv g (id, c) = true -> degraded g c (snd (renumbered vm (id, remade eqv g c)))) /\
  (bad eqv g (id, c) = true -> good eqv g (id, c) = false -> forall l', thinned (places g c) l' -> by_count (o_type g) (length l') = None).
Proof.
  intros Ex U Rg Cv Hc. pose proof U as [[Dv Dc] [Sd Cg]]. destruct (Rg id c Hc) as [Ty Fx]. destruct (regular_conn g U Rg id c Hc) as [Ev Hv].
  destruct (thin_ok eqv Ex g c Dv Hv) as [Th Ht]. rewrite Ev in Th, Hv. set (l := thin eqv (o_verts g) c) in *.
  assert (Ln : length l <= length (c_conn c)) by (pose proof (proj1 (thinned_length _ _ _ Th)) as K; rewrite !map_length in K; exact K).
  destruct (regular_sizes _ _ _ Ty Fx) as [Sz Bc].
  assert (De : desumeElement (o_type g) l = match by_count (o_type g) (length l) with Some e => e | None => EUndefined end) by (apply desume_count; intuition lia).
  assert (Rp : forall k, (forall v, In v k -> In v (map fst (o_verts g))) -> map (place (o_verts g)) (map (renumber vm) k) = map (place (o_verts g)) k).
  { intros k Hk. rewrite map_map. apply map_ext_in. intros v Kv. apply renumber_place; [exact Cv|exact (Hk v Kv)]. }
  unfold bad, good. cbn [snd]. fold l. rewrite De. split; [|split].
  - intros B. apply negb_false_iff, elem_eqb_iff in B. destruct (by_count (o_type g) (length l)) as [e|] eqn:Eb; [|rewrite <- B in Fx; discriminate]. subst e.
    destruct (count_fixed _ _ _ Eb) as [F1 _]. assert (El : length l = length (c_conn c)) by congruence.
    assert (Es : map (place (o_verts g)) l = map (place (o_verts g)) (c_conn c)) by (apply (proj2 (thinned_length _ _ _ Th)); rewrite !map_length; exact El). rewrite Es in Th.
    unfold degraded, renumbered, places. cbn [fst snd c_type c_conn c_pid]. rewrite (fixed_renumber _ _ _ _ Fx). split; [reflexivity|]. split; [rewrite Rp by exact Hv; exact Th|]. rewrite map_length. exact Bc.
  - intros _ G. apply negb_true_iff in G. destruct (by_count (o_type g) (length l)) as [e|] eqn:Eb; [|discriminate]. destruct (count_fixed _ _ _ Eb) as [F1 _].
    unfold degraded, renumbered, remade, places. cbn [fst snd c_type c_conn c_pid]. fold l. rewrite De, (fixed_renumber _ _ _ _ F1). split; [reflexivity|]. split; [rewrite Rp by exact Ht; exact Th|]. rewrite map_length. exact Eb.
  - intros _ G l' K. apply negb_false_iff, elem_eqb_iff in G. unfold places in K. rewrite (thinned_fun _ _ _ _ K Th), map_length. destruct (by_count (o_type g) (length l)) as [e|] eqn:Eb; [|reflexivity].
    destruct (count_fixed _ _ _ Eb) as [_ [N _]]. destruct (N G).
Qed.

(** Each cell is replaced by the element made with its vertices that are not at the place of a
    previous one, with its id and its PID; it is deleted if there is no element with so many
    vertices; nothing else changes. *)
Theorem C89_degraded_partial : forall fr eqv g, new_ids fr -> pid_history fr g -> usable g -> regular g -> exact eqv ->
  let r := degrade eqv g in
  o_type r = o_type g /\ o_tol r = o_tol g /\ o_verts r = o_verts g /\ o_pids r = o_pids g /\ o_names r = o_names g /\ usable r /\ regular r /\
  (forall id c', In (id, c') (o_cells r) -> exists c, In (id, c) (o_cells g) /\ degraded g c c') /\
  (forall id c, In (id, c) (o_cells g) -> (exists c', In (id, c') (o_cells r) /\ degraded g c c') \/
     (~ In id (map fst (o_cells r)) /\ forall l', thinned (places g c) l' -> by_count (o_type g) (length l') = None)).
Proof.
  intros fr eqv g F H U Rg Ex. cbv zeta. pose proof U as [[Dv Dc] [Sd Cg]]. rewrite degrade_eq by (try exact Dc; apply (history_registered fr g F H)).
  set (vm := snd (degrade_loop eqv g (o_cells g) [])).
  assert (Cv : collapses (o_verts g) vm) by (apply degrade_loop_vm; [exact Ex|exact Dv|intros [i c] v Hc Hv; exact (proj2 (regular_conn g U Rg i c Hc) v Hv)|intros k w []]).
  cbn [with_cells o_type o_tol o_verts o_cells o_pids o_names].
  assert (P1 : forall id c', In (id, c') (map (renumbered vm) (between eqv g)) -> exists c, In (id, c) (o_cells g) /\ degraded g c c').
  { intros id c' K. apply in_map_iff in K. destruct K as [[j c2] [E K]]. assert (j = id) by (injection E as Ej _; exact Ej). subst j. apply between_in in K; [|exact Dc]. destruct K as [d [Hd K]].
    exists d. split; [exact Hd|]. destruct (cell_cases eqv g vm id d Ex U Rg Cv Hd) as [Q1 [Q2 _]]. assert (Es : c' = snd (renumbered vm (id, c2))) by (rewrite E; reflexivity). rewrite Es.
    destruct K as [[B ->]|[B [G ->]]]; [exact (Q1 B)|exact (Q2 B G)]. }
  assert (Cl' : forall id c' v, In (id, c') (map (renumbered vm) (between eqv g)) -> In v (c_conn c') -> In v (map fst (o_verts g))).
  { intros id c' v K Hv. apply in_map_iff in K. destruct K as [[j c2] [E K]]. injection E as -> E. subst c'. cbn [c_conn] in Hv. apply between_in in K; [|exact Dc]. destruct K as [d [Hd K]].
    destruct (Rg id d Hd) as [Ty Fx]. destruct (regular_conn g U Rg id d Hd) as [Ev Hv2]. destruct K as [[B ->]|[B [G ->]]].
    - rewrite (fixed_renumber _ _ _ _ Fx) in Hv. apply in_map_iff in Hv. destruct Hv as [w [<- Hw]]. apply renumber_place; [exact Cv|]. apply Hv2. rewrite Ev. exact Hw.
    - destruct (cell_cases eqv g vm id d Ex U Rg Cv Hd) as [_ [Q2 _]]. destruct (Q2 B G) as [_ [_ Q]]. destruct (count_fixed _ _ _ Q) as [F1 _]. unfold renumbered in F1. cbn [snd c_type] in F1.
      rewrite (fixed_renumber _ _ _ _ F1) in Hv. apply in_map_iff in Hv. destruct Hv as [w [<- Hw]]. apply renumber_place; [exact Cv|]. exact (proj2 (thin_ok eqv Ex g d Dv Hv2) w Hw). }
  repeat (split; [reflexivity|]). split; [|split; [|split; [exact P1|]]].
  - split; [split; [exact Dv|]|split].
    + cbn [with_cells o_cells]. unfold distinct. rewrite map_map. unfold renumbered. cbn [fst]. apply between_distinct, Dc.
    + intros id c' K. cbn [with_cells o_cells] in K. destruct (P1 id c' K) as [c [_ [_ [_ Q]]]]. destruct (count_fixed _ _ _ Q) as [F1 _]. exists [c_conn c']. apply (means_fixed _ _ _ F1). reflexivity.
    + intros id c' v K [fs [f [M [Hf Hv]]]]. cbn [with_cells o_cells o_verts] in *. destruct (P1 id c' K) as [c [_ [_ [_ Q]]]]. destruct (count_fixed _ _ _ Q) as [F1 _].
      rewrite (means_unique _ _ _ _ M (means_fixed _ _ _ F1 eq_refl)) in Hf. destruct Hf as [<-|[]]. exact (Cl' id c' v K Hv).
  - intros id c' K. cbn [with_cells o_cells o_type] in *. destruct (P1 id c' K) as [c [Hc [_ [_ Q]]]]. destruct (count_fixed _ _ _ Q) as [F1 _]. split; [|exact F1].
    clear -Q. destruct (o_type g) as [|[|[|[|[|t]]]]]; cbn [by_count of_type] in *; try discriminate; destruct (length (c_conn c')) as [|[|[|[|[|[|[|[|[|n]]]]]]]]]; try discriminate; injection Q as <-; tauto.
  - intros id c Hc. destruct (cell_cases eqv g vm id c Ex U Rg Cv Hc) as [Q1 [Q2 Q3]]. destruct (bad eqv g (id, c)) eqn:B; [destruct (good eqv g (id, c)) eqn:G|].
    + left. exists (snd (renumbered vm (id, remade eqv g c))). split; [|exact (Q2 eq_refl eq_refl)]. apply in_map_iff. exists (id, remade eqv g c). split; [reflexivity|]. apply between_in; [exact Dc|]. exists c. split; [exact Hc|]. right. repeat split; assumption.
    + right. split; [|exact (Q3 eq_refl eq_refl)]. intros K. apply in_map_iff in K. destruct K as [[j c'] [Ej K]]. cbn [fst] in Ej. subst j. apply in_map_iff in K. destruct K as [[j c2] [E K]]. injection E as -> _.
      apply between_in in K; [|exact Dc]. destruct K as [d [Hd K]]. pose proof (in_find _ id _ c Dc Hc) as X1. pose proof (in_find _ id _ d Dc Hd) as X2. rewrite X1 in X2. injection X2 as <-. destruct K as [[K _]|[_ [K _]]]; congruence.
    + left. exists (snd (renumbered vm (id, c))). split; [|exact (Q1 eq_refl)]. apply in_map_iff. exists (id, c). split; [reflexivity|]. apply between_in; [exact Dc|]. exists c. split; [exact Hc|]. left. split; [exact B|reflexivity].
Qed.
Print Assumptions C89_degraded_partial.

Lemma unique_fresh eqv vs : exact eqv -> forall l kept vm, (forall v, In v l -> In v (map fst vs)) -> NoDup (map snd kept ++ map (place vs) l) ->
  unique_verts eqv vs l kept vm = (kept ++ map (fun v => (v, place vs v)) l, vm).
Proof.
  intros Ex. induction l as [|v l IH]; intros kept vm H N; cbn [unique_verts map]; [rewrite app_nil_r; reflexivity|]. rewrite find_place by (apply H; left; reflexivity).
  destruct (first_equal eqv (place vs v) kept) as [w|] eqn:E.
  - exfalso. apply (first_equal_some eqv Ex) in E. cbn [map] in N. apply NoDup_remove_2 in N. apply N. apply in_app_iff. left. apply in_map_iff. exists (w, place vs v). split; [reflexivity|exact E].
  - rewrite IH; [rewrite <- app_assoc; reflexivity|intros w Hw; apply H; right; exact Hw|]. rewrite map_app, <- app_assoc. exact N.
Qed.
Lemma thin_fresh eqv g c : exact eqv -> (forall v, In v (cell_verts c) -> In v (map fst (o_verts g))) -> NoDup (map (place (o_verts g)) (cell_verts c)) -> thin eqv (o_verts g) c = cell_verts c.
Proof. intros Ex H N. unfold thin. rewrite unique_fresh; [|exact Ex|exact H|exact N]. cbn [fst List.app]. rewrite map_map. apply map_id. Qed.
(** A geometry without degenerate elements is left as it is. *)
Theorem C89_healthy : forall eqv g, usable g -> regular g -> exact eqv -> (forall id c, In (id, c) (o_cells g) -> healthy g c) -> degrade eqv g = g.
Proof.
  intros eqv g U Rg Ex Hh. unfold degrade.
  assert (E : forall cs, (forall e, In e cs -> In e (o_cells g)) -> degrade_loop eqv g cs [] = ([], [], [])).
  { induction cs as [|[id c] cs IH]; intros H; cbn [degrade_loop]; [reflexivity|]. assert (Hc : In (id, c) (o_cells g)) by (apply H; left; reflexivity).
    destruct (regular_conn g U Rg id c Hc) as [Ev Hv]. rewrite unique_fresh; [|exact Ex|exact Hv|cbn [map List.app]; rewrite Ev; exact (Hh id c Hc)]. cbn [List.app]. rewrite map_map. cbn [fst]. rewrite map_id, Ev.
    rewrite IH by (intros e He; apply H; right; exact He). destruct (Rg id c Hc) as [Ty Fx]. destruct (regular_sizes _ _ _ Ty Fx) as [Sz Bc]. rewrite desume_count by intuition lia. rewrite Bc.
    replace (elem_eqb (c_type c) (c_type c)) with true by (symmetry; apply elem_eqb_iff; reflexivity). reflexivity. }
  rewrite E by (intros e He; exact He). reflexivity.
Qed.
Print Assumptions C89_healthy.
(** No degenerate element is left: a second call changes nothing. *)
Theorem C89_once : forall fr eqv g, new_ids fr -> pid_history fr g -> usable g -> regular g -> exact eqv ->
  (forall id c, In (id, c) (o_cells (degrade eqv g)) -> healthy (degrade eqv g) c) /\ degrade eqv (degrade eqv g) = degrade eqv g.
Proof.
  intros fr eqv g F H U Rg Ex. destruct (C89_degraded_partial fr eqv g F H U Rg Ex) as [_ [_ [Ev [_ [_ [U' [R' [D' _]]]]]]]].
  assert (K : forall id c, In (id, c) (o_cells (degrade eqv g)) -> healthy (degrade eqv g) c).
  { intros id c Hc. destruct (D' id c Hc) as [c0 [_ [_ [Th _]]]]. unfold healthy, places. rewrite Ev. exact (thinned_nodup _ _ _ Th). }
  split; [exact K|]. apply C89_healthy; assumption.
Qed.
Print Assumptions C89_once.

(** ** Elements that are not degenerate and are changed *)
(** A polygon with five vertices or more, all at different places, is deleted: the element is guessed
    from the vertices without their number. *)
Theorem C89_polygon_refuted : forall fr eqv g id l p, new_ids fr -> pid_history fr g -> usable g -> exact eqv -> o_type g = 1 ->
  In (id, Cl EPolygon (length l :: l) p) (o_cells g) -> 5 <= length l -> NoDup (map (place (o_verts g)) l) -> hd 0 l + 1 <> length l -> ~ In id (map fst (o_cells (degrade eqv g))).
Proof.
  intros fr eqv g id l p F H [[Dv Dc] [Sd Cg]] Ex T Hc L N Hh. rewrite degrade_eq by (try exact Dc; apply (history_registered fr g F H)). cbn [with_cells o_cells]. rewrite map_map. unfold renumbered. cbn [fst].
  intros K. apply in_map_iff in K. destruct K as [[j c2] [Ej K]]. cbn [fst] in Ej. subst j. apply between_in in K; [|exact Dc]. destruct K as [d [Hd K]].
  pose proof (in_find _ id _ _ Dc Hc) as X1. pose proof (in_find _ id _ d Dc Hd) as X2. rewrite X1 in X2. injection X2 as <-.
  assert (Et : thin eqv (o_verts g) (Cl EPolygon (length l :: l) p) = l).
  { apply thin_fresh; [exact Ex|intros v Hv; apply (Cg _ _ v Hc), cell_verts_in; [exact (Sd _ _ Hc)|exact Hv]|exact N]. }
  assert (Ed : desumeElement (o_type g) l = EUndefined).
  { rewrite T. cbn [desumeElement]. rewrite (proj2 (Nat.eqb_neq (length l) (hd 0 l + 1))) by congruence. rewrite andb_false_r. destruct (length l) as [|[|[|[|[|n]]]]]; try lia; reflexivity. }
  unfold bad, good in K. cbn [snd] in K. rewrite Et, Ed in K. cbn [c_type elem_eqb negb] in K. destruct K as [[K _]|[_ [K _]]]; discriminate.
Qed.
Print Assumptions C89_polygon_refuted.
Lemma exact_Z eqv a b c a' b' c' : exact eqv -> eqv (V3 (IZR a) (IZR b) (IZR c)) (V3 (IZR a') (IZR b') (IZR c')) = (Z.eqb a a' && Z.eqb b b' && Z.eqb c c')%bool.
Proof.
  intros Ex. destruct (Z.eqb_spec a a') as [->|N]; [destruct (Z.eqb_spec b b') as [->|N]; [destruct (Z.eqb_spec c c') as [->|N]|]|]; cbn [andb]; [apply Ex; reflexivity|..];
  (destruct (eqv _ _) eqn:E; [|reflexivity]); apply Ex in E; injection E as; exfalso; apply N; apply eq_IZR; assumption.
Qed.
(** A square PIXEL becomes a QUAD with the same list of vertices, whose boundary crosses itself. *)
Theorem C89_pixel_refuted : forall eqv, exact eqv -> surface_area pixel = V3 0 0 2 /\ o_cells (degrade eqv pixel) = [(0, Cl EQuad [0; 1; 2; 3] 0)] /\ surface_area (degrade eqv pixel) = V3 0 0 0.
Proof.
  intros eqv Ex. destruct C88_pixel_refuted as [H [U [_ [_ [A _]]]]]. split; [exact A|].
  assert (Cs : o_cells pixel = [(0, Cl EPixel [0; 1; 2; 3] 0)]) by (vm_compute; reflexivity).
  assert (Vs : o_verts pixel = [(0, V3 0 0 0); (1, V3 1 0 0); (2, V3 0 1 0); (3, V3 1 1 0)]) by (cbv - [IZR]; reflexivity).
  assert (E : o_cells (degrade eqv pixel) = [(0, Cl EQuad [0; 1; 2; 3] 0)] /\ o_verts (degrade eqv pixel) = o_verts pixel).
  { unfold degrade. rewrite Cs. cbn [degrade_loop]. rewrite unique_fresh; [|exact Ex| |].
    - split; reflexivity.
    - rewrite Vs. cbn. tauto.
    - rewrite Vs. cbn. assert (Q : forall a b : Z, IZR a = IZR b -> a = b) by (intros a b; apply eq_IZR). repeat constructor; cbn [In]; intros K; repeat destruct K as [K|K]; try (injection K as; repeat match goal with X : IZR _ = IZR _ |- _ => apply eq_IZR in X end; congruence); exact K. }
  destruct E as [E1 E2]. split; [exact E1|]. unfold surface_area. rewrite E1, E2, Vs. unfold area, ring. cbn. unfold vadd, cross, vzero. cbn [vx vy vz]. apply vec_eq; ring.
Qed.
Print Assumptions C89_pixel_refuted.

Definition points (t : nat) (l : list (Z * Z * Z)) : obj :=
  fold_left (fun g e => snd (addVertex fresh (let '(a, b, c) := snd e in V3 (IZR a) (IZR b) (IZR c)) (Some (fst e)) g)) (combine (seq 0 (length l)) l) (new_obj t).
Lemma points_history t l : pid_history fresh (points t l).
Proof.
  unfold points. assert (K : forall es g, pid_history fresh g -> pid_history fresh (fold_left (fun g e => snd (addVertex fresh (let '(a, b, c) := snd e in V3 (IZR a) (IZR b) (IZR c)) (Some (fst e)) g)) es g)).
  { induction es as [|e es IH]; intros g H; cbn [fold_left]; [exact H|]. apply IH. eapply ph_call; [exact H|apply pc_vertex]. }
  apply K, ph_new.
Qed.
(** the vertices kept in a cell, step by step *)
Ltac uniq Ex := cbn [unique_verts find Nat.eqb first_equal List.app]; repeat (rewrite (exact_Z _ _ _ _ _ _ _ Ex); cbn [Z.eqb Pos.eqb andb]; cbn [unique_verts find Nat.eqb first_equal List.app]); reflexivity.

(** vertices 0 and 1 are at the same place, and belong to two quadrilaterals in opposite orders *)
Definition twin : obj :=
  let g := points 1 [(0, 0, 0); (0, 0, 0); (1, 0, 0); (0, 1, 0); (-1, 0, 0); (0, -1, 0)]%Z in
  let g := snd (addConnectedCell fresh [0; 1; 2; 3] EQuad 0 (Some 0) g) in
  snd (addConnectedCell fresh [1; 0; 4; 5] EQuad 5 (Some 1) g).
(** Two vertices collapsed in two cells in opposite orders are exchanged: the triangles left do not
    share a vertex. *)
Theorem C89_collapse_refuted : pid_history fresh twin /\ usable twin /\ regular twin /\ forall eqv, exact eqv ->
  place (o_verts twin) 0 = place (o_verts twin) 1 /\ o_cells (degrade eqv twin) = [(0, Cl ETriangle [1; 2; 3] 0); (1, Cl ETriangle [0; 4; 5] 5)].
Proof.
  assert (Cs : o_cells twin = [(0, Cl EQuad [0; 1; 2; 3] 0); (1, Cl EQuad [1; 0; 4; 5] 5)]) by (vm_compute; reflexivity).
  split; [unfold twin; cbv zeta; do 2 (eapply ph_call; [|apply pc_conn; unfold int_range; lia]); apply points_history|]. split; [apply usable_check; vm_compute; reflexivity|].
  split; [intros id c H; rewrite Cs in H; destruct H as [H|[H|[]]]; injection H as _ <-; split; [right; left; reflexivity|reflexivity|right; left; reflexivity|reflexivity]|].
  intros eqv Ex. split; [cbv - [IZR]; reflexivity|]. unfold degrade.
  assert (Vs : o_verts twin = [(0, V3 0 0 0); (1, V3 0 0 0); (2, V3 1 0 0); (3, V3 0 1 0); (4, V3 (-1) 0 0); (5, V3 0 (-1) 0)]) by (cbv - [IZR]; reflexivity).
  assert (U1 : unique_verts eqv (o_verts twin) [0; 1; 2; 3] [] [] = ([(0, V3 0 0 0); (2, V3 1 0 0); (3, V3 0 1 0)], [(1, 0)])) by (rewrite Vs; uniq Ex).
  assert (U2 : unique_verts eqv (o_verts twin) [1; 0; 4; 5] [] [(1, 0)] = ([(1, V3 0 0 0); (4, V3 (-1) 0 0); (5, V3 0 (-1) 0)], [(1, 0); (0, 1)])) by (rewrite Vs; uniq Ex).
  rewrite Cs. cbn [degrade_loop]. cbn [cell_verts c_type c_conn]. rewrite U1, U2. vm_compute. reflexivity.
Qed.
Print Assumptions C89_collapse_refuted.
(** The part of a cell that is deleted stays in the list of the parts. *)
Definition sliver : obj := snd (addConnectedCell fresh [0; 1; 2] ETriangle 5 (Some 0) (points 1 [(0, 0, 0); (0, 0, 0); (1, 0, 0)]%Z)).
Theorem C89_parts_refuted : pid_history fresh sliver /\ usable sliver /\ regular sliver /\ forall eqv, exact eqv -> o_cells (degrade eqv sliver) = [] /\ o_pids (degrade eqv sliver) = [5%Z].
Proof.
  assert (Cs : o_cells sliver = [(0, Cl ETriangle [0; 1; 2] 5)]) by (vm_compute; reflexivity).
  split; [unfold sliver; eapply ph_call; [|apply pc_conn; unfold int_range; lia]; apply points_history|]. split; [apply usable_check; vm_compute; reflexivity|].
  split; [intros id c H; rewrite Cs in H; destruct H as [H|[]]; injection H as _ <-; split; [left; reflexivity|reflexivity]|].
  intros eqv Ex. unfold degrade. assert (Vs : o_verts sliver = [(0, V3 0 0 0); (1, V3 0 0 0); (2, V3 1 0 0)]) by (cbv - [IZR]; reflexivity).
  assert (U1 : unique_verts eqv (o_verts sliver) [0; 1; 2] [] [] = ([(0, V3 0 0 0); (2, V3 1 0 0)], [(1, 0)])) by (rewrite Vs; uniq Ex).
  rewrite Cs. cbn [degrade_loop]. cbn [cell_verts c_type c_conn]. rewrite U1. split; vm_compute; reflexivity.
Qed.
Print Assumptions C89_parts_refuted.
(** A hexahedron whose edges 0-3 and 1-2 are collapsed is a prism; the WEDGE it becomes has edges that
    join vertices that were not joined. *)
Definition prism : obj := snd (addConnectedCell fresh [0; 1; 2; 3; 4; 5; 6; 7] EHexahedron 0 (Some 0)
  (points 2 [(0, 0, 0); (1, 0, 0); (1, 0, 0); (0, 0, 0); (0, 0, 1); (1, 0, 1); (1, 1, 1); (0, 1, 1)]%Z)).
Theorem C89_wedge_refuted : pid_history fresh prism /\ usable prism /\ regular prism /\ forall eqv, exact eqv -> exists c c' x y,
  o_cells prism = [(0, c)] /\ c_type c = EHexahedron /\ o_cells (degrade eqv prism) = [(0, c')] /\ c_type c' = EWedge /\
  edge_at wedge_edges (places prism c') x y /\ ~ edge_at hexahedron_edges (places prism c) x y.
Proof.
  assert (Cs : o_cells prism = [(0, Cl EHexahedron [0; 1; 2; 3; 4; 5; 6; 7] 0)]) by (vm_compute; reflexivity).
  split; [unfold prism; eapply ph_call; [|apply pc_conn; unfold int_range; lia]; apply points_history|]. split; [apply usable_check; vm_compute; reflexivity|].
  split; [intros id c H; rewrite Cs in H; destruct H as [H|[]]; injection H as _ <-; split; [right; right; right; left; reflexivity|reflexivity]|].
  intros eqv Ex. exists (Cl EHexahedron [0; 1; 2; 3; 4; 5; 6; 7] 0), (Cl EWedge [0; 1; 4; 5; 6; 7] 0), (V3 1 0 0), (V3 0 0 1).
  assert (Vs : o_verts prism = [(0, V3 0 0 0); (1, V3 1 0 0); (2, V3 1 0 0); (3, V3 0 0 0); (4, V3 0 0 1); (5, V3 1 0 1); (6, V3 1 1 1); (7, V3 0 1 1)]) by (cbv - [IZR]; reflexivity).
  split; [exact Cs|]. split; [reflexivity|]. split; [|split; [reflexivity|split]].
  - assert (U1 : unique_verts eqv (o_verts prism) [0; 1; 2; 3; 4; 5; 6; 7] [] [] = ([(0, V3 0 0 0); (1, V3 1 0 0); (4, V3 0 0 1); (5, V3 1 0 1); (6, V3 1 1 1); (7, V3 0 1 1)], [(2, 1); (3, 0)])) by (rewrite Vs; uniq Ex).
    unfold degrade. rewrite Cs. cbn [degrade_loop]. cbn [cell_verts c_type c_conn]. rewrite U1. vm_compute. reflexivity.
  - exists 1, 2. split; [left; cbn; tauto|]. unfold places. rewrite Vs. split; reflexivity.
  - intros [i [j [E [X Y]]]]. unfold places in X, Y. rewrite Vs in X, Y.
    unfold hexahedron_edges in E. destruct E as [E|E]; cbn [In] in E; repeat (destruct E as [E|E]; [injection E as <- <-; cbn in X, Y; first [injection X as; lra|injection Y as; lra]|]); exact E.
Qed.
Print Assumptions C89_wedge_refuted.
(** A polyhedron with six vertices at different places becomes a WEDGE: an octahedron loses three faces. *)
Definition octahedron : obj := snd (addConnectedCell fresh [8; 3; 0; 1; 4; 3; 1; 2; 4; 3; 2; 3; 4; 3; 3; 0; 4; 3; 1; 0; 5; 3; 2; 1; 5; 3; 3; 2; 5; 3; 0; 3; 5] EPolyhedron 0 (Some 0)
  (points 2 [(1, 0, 0); (0, 1, 0); (-1, 0, 0); (0, -1, 0); (0, 0, 1); (0, 0, -1)]%Z)).
Theorem C89_polyhedron_refuted : pid_history fresh octahedron /\ usable octahedron /\ forall eqv, exact eqv -> exists c l,
  o_cells octahedron = [(0, c)] /\ c_type c = EPolyhedron /\ NoDup (map snd (o_verts octahedron)) /\ o_cells (degrade eqv octahedron) = [(0, Cl EWedge l 0)].
Proof.
  split; [unfold octahedron; eapply ph_call; [|apply pc_conn; unfold int_range; lia]; apply points_history|]. split; [apply usable_check; vm_compute; reflexivity|].
  intros eqv Ex. assert (Vs : o_verts octahedron = [(0, V3 1 0 0); (1, V3 0 1 0); (2, V3 (-1) 0 0); (3, V3 0 (-1) 0); (4, V3 0 0 1); (5, V3 0 0 (-1))]) by (cbv - [IZR]; reflexivity).
  assert (Cs : o_cells octahedron = [(0, Cl EPolyhedron [8; 3; 0; 1; 4; 3; 1; 2; 4; 3; 2; 3; 4; 3; 3; 0; 4; 3; 1; 0; 5; 3; 2; 1; 5; 3; 3; 2; 5; 3; 0; 3; 5] 0)]) by (vm_compute; reflexivity).
  eexists. eexists. split; [exact Cs|]. split; [reflexivity|]. split.
  - rewrite Vs. cbn [map snd]. repeat constructor; cbn [In]; intros K; repeat destruct K as [K|K]; try (injection K as; lra); exact K.
  - unfold degrade. rewrite Cs. cbn [degrade_loop]. set (c := Cl EPolyhedron _ _). assert (Ec : cell_verts c = [4; 1; 2; 0; 3; 5]) by (vm_compute; reflexivity). rewrite Ec.
    assert (U1 : unique_verts eqv (o_verts octahedron) [4; 1; 2; 0; 3; 5] [] [] = ([(4, V3 0 0 1); (1, V3 0 1 0); (2, V3 (-1) 0 0); (0, V3 1 0 0); (3, V3 0 (-1) 0); (5, V3 0 0 (-1))], [])) by (rewrite Vs; uniq Ex).
    rewrite U1. vm_compute. reflexivity.
Qed.
Print Assumptions C89_polyhedron_refuted.

(** A pentagon at different places, for C89_polygon_refuted; and a surface with a quadrilateral with
    two coincident vertices, a healthy triangle and one to delete. *)
Definition pentagon : obj := snd (addConnectedCell fresh [5; 0; 1; 2; 3; 4] EPolygon 0 (Some 0) (points 1 [(0, 0, 0); (2, 0, 0); (3, 1, 0); (1, 2, 0); (0, 1, 0)]%Z)).
Definition patched : obj :=
  let g := points 1 [(0, 0, 0); (1, 0, 0); (1, 0, 0); (0, 1, 0); (2, 2, 0)]%Z in
  let g := snd (addConnectedCell fresh [0; 1; 2; 3] EQuad 3 (Some 4) g) in
  let g := snd (addConnectedCell fresh [2; 4; 3] ETriangle 5 (Some 2) g) in
  snd (addConnectedCell fresh [1; 2; 4] ETriangle 3 (Some 7) g).
Example C89_nonvacuous :
  (pid_history fresh pentagon /\ usable pentagon /\ o_type pentagon = 1 /\ o_cells pentagon = [(0, Cl EPolygon [5; 0; 1; 2; 3; 4] 0)] /\ NoDup (map (place (o_verts pentagon)) [0; 1; 2; 3; 4])) /\
  (pid_history fresh patched /\ usable patched /\ regular patched /\
   forall eqv, exact eqv -> o_cells (degrade eqv patched) = [(2, Cl ETriangle [1; 4; 3] 5); (4, Cl ETriangle [0; 1; 3] 3)]).
Proof.
  split.
  - split; [unfold pentagon; eapply ph_call; [|apply pc_conn; unfold int_range; lia]; apply points_history|]. split; [apply usable_check; vm_compute; reflexivity|]. split; [reflexivity|]. split; [vm_compute; reflexivity|].
    assert (Vs : o_verts pentagon = [(0, V3 0 0 0); (1, V3 2 0 0); (2, V3 3 1 0); (3, V3 1 2 0); (4, V3 0 1 0)]) by (cbv - [IZR]; reflexivity). rewrite Vs. cbn [map place Nat.eqb].
    repeat constructor; cbn [In]; intros K; repeat destruct K as [K|K]; try (injection K as; lra); exact K.
  - assert (Cs : o_cells patched = [(4, Cl EQuad [0; 1; 2; 3] 3); (2, Cl ETriangle [2; 4; 3] 5); (7, Cl ETriangle [1; 2; 4] 3)]) by (vm_compute; reflexivity).
    split; [unfold patched; cbv zeta; do 3 (eapply ph_call; [|apply pc_conn; unfold int_range; lia]); apply points_history|]. split; [apply usable_check; vm_compute; reflexivity|].
    split; [intros id c H; rewrite Cs in H; destruct H as [H|[H|[H|[]]]]; injection H as _ <-; (split; [cbn; tauto|reflexivity])|].
    intros eqv Ex. unfold degrade. assert (Vs : o_verts patched = [(0, V3 0 0 0); (1, V3 1 0 0); (2, V3 1 0 0); (3, V3 0 1 0); (4, V3 2 2 0)]) by (cbv - [IZR]; reflexivity).
    assert (U1 : unique_verts eqv (o_verts patched) [0; 1; 2; 3] [] [] = ([(0, V3 0 0 0); (1, V3 1 0 0); (3, V3 0 1 0)], [(2, 1)])) by (rewrite Vs; uniq Ex).
    assert (U2 : unique_verts eqv (o_verts patched) [2; 4; 3] [] [(2, 1)] = ([(2, V3 1 0 0); (4, V3 2 2 0); (3, V3 0 1 0)], [(2, 1)])) by (rewrite Vs; uniq Ex).
    assert (U3 : unique_verts eqv (o_verts patched) [1; 2; 4] [] [(2, 1)] = ([(1, V3 1 0 0); (4, V3 2 2 0)], [(2, 1)])) by (rewrite Vs; uniq Ex).
    rewrite Cs. cbn [degrade_loop]. cbn [cell_verts c_type c_conn]. rewrite U1, U2, U3. vm_compute. reflexivity.
Qed.
