(** C88: triangulation of a surface. *)
From Coq Require Import String List Arith Bool ZArith Reals Lia Lra Permutation.
From Verif Require Import Vec SharedPtr Obj ObjSpec ObjProofs PidProps ObjProps Select SelectSpec SelectProofs SelectProps Tri TriSpec TriProofs.
Import ListNotations.
Open Scope list_scope.
Open Scope nat_scope.

Lemma last_sorted l d : sorted l -> forall x, In x l -> x <= last l d.
Proof.
  intros H. induction H as [|y l Hy Hl IH]; intros x Hx; [destruct Hx|]. destruct l as [|z l]; [destruct Hx as [<-|[]]; cbn [last]; lia|]. change (last (y :: z :: l) d) with (last (z :: l) d).
  destruct Hx as [<-|Hx]; [|exact (IH x Hx)]. specialize (IH z (or_introl eq_refl)). specialize (Hy z (or_introl eq_refl)). lia.
Qed.
Lemma above_largest A (l : list (nat * A)) : distinct l -> above (largest (map fst l) + 1) l.
Proof. intros D i Hi. unfold largest. apply (proj2 (sort_in _ _)) in Hi. pose proof (last_sorted _ 0 (sort_sorted _ D) i Hi). lia. Qed.
Lemma history_registered fr g : new_ids fr -> pid_history fr g -> forall id c, In (id, c) (o_cells g) -> int_range (c_pid c) /\ registered (c_pid c) g.
Proof.
  intros F H id c Hc. destruct (history_ok fr g F H) as [[A [B [C D]]] _]. split; [exact (history_int fr g F H id c Hc)|]. split; [exact (A id c Hc)|]. apply D. exact (A id c Hc).
Qed.
Lemma in_forall2 A B (P : A -> B -> Prop) l l' y : Forall2 P l l' -> In y l' -> exists x, In x l /\ P x y.
Proof. intros H. induction H as [|a b l l' K H IH]; intros Hy; [destruct Hy|]. destruct Hy as [<-|Hy]; [exists a; split; [left; reflexivity|exact K]|]. destruct (IH Hy) as [x [Hx Px]]. exists x. split; [right; exact Hx|exact Px]. Qed.
Lemma sides_in a b l : In (a, b) (sides l) -> In a l /\ In b l.
Proof.
  destruct l as [|x r]; [intros []|]. cbn [sides]. intros H. split; [exact (in_combine_l _ _ _ _ H)|]. apply in_combine_r in H. apply in_app_iff in H. destruct H as [H|[<-|[]]]; [right; exact H|left; reflexivity].
Qed.
(** the vertices of the triangles that stand for a cell *)
Lemma split_verts g r at_ e es x v : split g r at_ e es -> In x es -> vertex_of (snd x) v -> vertex_of (snd e) v \/ In v (map fst (o_verts r)).
Proof.
  intros H. destruct H as [e F|i a b c d p e1 e2 T1 T2|i a b c d p e1 e2 T1 T2|i l p w es Nw Hw T]; intros Hx [fs [f [M [Hf Hv]]]].
  - destruct Hx as [<-|[]]. left. exists fs, f. repeat split; assumption.
  - left. exists [[a; b; c; d]], [a; b; c; d]. split; [econstructor; reflexivity|]. split; [left; reflexivity|].
    destruct Hx as [<-|[<-|[]]]; unfold triangle in T1, T2; rewrite ?T1, ?T2 in M; cbn [c_type c_conn] in M; inversion M; subst; destruct Hf as [<-|[]]; cbn [In] in Hv |- *; tauto.
  - left. exists [[a; b; c; d]], [a; b; c; d]. split; [econstructor; reflexivity|]. split; [left; reflexivity|].
    destruct Hx as [<-|[<-|[]]]; unfold triangle in T1, T2; rewrite ?T1, ?T2 in M; cbn [c_type c_conn] in M; inversion M; subst; destruct Hf as [<-|[]]; cbn [In] in Hv |- *; tauto.
  - destruct (in_forall2 _ _ _ _ _ x T Hx) as [[a b] [Hs Ht]]. unfold triangle in Ht. cbn [fst snd] in Ht. rewrite Ht in M. cbn [c_type c_conn] in M. inversion M; subst. destruct Hf as [<-|[]].
    destruct (sides_in a b l Hs) as [Ha Hb]. assert (K : In v l -> vertex_of (Cl EPolygon (length l :: l) p) v) by (intros K; exists [l], l; split; [constructor|split; [left; reflexivity|exact K]]).
    destruct Hv as [<-|[<-|[<-|[]]]]; [right; apply in_map_iff; eexists; split; [|exact Hw]; reflexivity|left; exact (K Ha)|left; exact (K Hb)].
Qed.

(** ** C88 *)

(** Each cell of the surface is replaced by its triangles, with its PID, and nothing else changes. *)
Theorem C88_triangulated : forall fr centroid g, new_ids fr -> pid_history fr g -> usable g -> local centroid -> o_type g = 1 ->
  (forall id c, In (id, c) (o_cells g) -> flat c /\ exists v, vertex_of c v) ->
  exists r, triangulate centroid g = Some r /\ triangulated (centroid (o_verts g)) g r.
Proof.
  intros fr centroid g F H [[Dv Dc] [Sd Cg]] L T Fl. unfold triangulate. rewrite T. cbn [Nat.eqb].
  destruct (Nat.eqb_spec (length (o_verts g)) 0) as [E0|E0].
  - assert (Ev : o_verts g = []) by (destruct (o_verts g); [reflexivity|discriminate]). cbn [orb]. exists g. split; [reflexivity|].
    assert (Ec : o_cells g = []).
    { destruct (o_cells g) as [|[i c] cs] eqn:E; [reflexivity|]. destruct (Fl i c (or_introl eq_refl)) as [_ [v Hv]]. specialize (Cg i c v). rewrite E, Ev in Cg. destruct (Cg (or_introl eq_refl) Hv). }
    split; [exists [], []; rewrite Ec; repeat split; constructor|]. split; [rewrite Ec; intros i []|]. split; [split; assumption|]. split; [exact Cg|].
    split; [exists []; rewrite app_nil_r; split; [reflexivity|unfold polygons; rewrite Ec; reflexivity]|repeat split].
  - cbn [orb]. destruct (Nat.eqb_spec (length (o_cells g)) 0) as [E1|E1].
    + assert (Ec : o_cells g = []) by (destruct (o_cells g); [reflexivity|discriminate]). exists g. split; [reflexivity|].
      split; [exists [], []; rewrite Ec; repeat split; constructor|]. split; [rewrite Ec; intros i []|]. split; [split; assumption|]. split; [exact Cg|].
      split; [exists []; rewrite app_nil_r; split; [reflexivity|unfold polygons; rewrite Ec; reflexivity]|repeat split].
    + destruct (tri_loop_ok centroid g L (sort (map fst (o_cells g))) (largest (map fst (o_cells g)) + 1) (largest (map fst (o_verts g)) + 1) g)
        as [r [E [cs [pieces [H1 [H2 [H3 [H4 [H5 [H6 [[new [H7 H8]] [H9 [T1 [T2 [T3 T4]]]]]]]]]]]]]]].
      * apply sorted_nodup, sort_sorted, Dc.
      * exact Dc.
      * exact Dv.
      * intros j Hj. apply (proj1 (sort_in _ _)) in Hj. apply in_map_iff in Hj. destruct Hj as [[i c] [<- Hc]]. exists c. destruct (history_registered fr g F H i c Hc) as [R1 R2].
        split; [exact Hc|]. split; [exact (proj1 (Fl i c Hc))|]. split; [exact (Sd i c Hc)|]. split; [exact R1|]. split; [exact R2|]. intros v Hv. exact (Cg i c v Hc Hv).
      * apply above_largest, Dc.
      * apply above_largest, Dv.
      * exists []. rewrite app_nil_r. reflexivity.
      * exists r. split; [exact E|].
        assert (Pc : Permutation cs (o_cells g)).
        { apply NoDup_Permutation.
          - apply NoDup_map_inv with (f := fst). rewrite H1. apply sorted_nodup, sort_sorted, Dc.
          - apply NoDup_map_inv with (f := fst). exact Dc.
          - intros [i c]. split; [apply H2|]. intros Hc. assert (K : In i (map fst cs)) by (rewrite H1; apply sort_in, in_map_iff; exists (i, c); split; [reflexivity|exact Hc]).
            apply in_map_iff in K. destruct K as [[j d] [Ej Kd]]. cbn [fst] in Ej. subst j. specialize (H2 _ Kd). pose proof (in_find _ i (o_cells g) d Dc H2) as Q1. pose proof (in_find _ i (o_cells g) c Dc Hc) as Q2. congruence. }
        rewrite (others_none _ (o_cells g)) in H4 by (intros i Hi; apply sort_in, Hi). rewrite app_nil_r in H4.
        split; [exists cs, pieces; split; [exact Pc|split; [exact H3|exact H4]]|]. split; [|split; [split; [exact H6|exact H5]|split; [|split; [|split; [congruence|split; [exact T2|split; [exact T3|exact T4]]]]]]].
        -- intros i Hi. destruct (H9 i Hi) as [K|K]; [left; exact K|right]. intros j Hj. apply (above_largest _ _ Dc) in Hj. lia.
        -- intros i c v Hc Hv. apply (Permutation_in _ H4) in Hc. apply in_concat in Hc. destruct Hc as [es [Hes Hc]]. destruct (in_forall2 _ _ _ _ _ es H3 Hes) as [[j d] [Hd Sp]].
           destruct (split_verts _ _ _ _ _ _ v Sp Hc Hv) as [K|K]; [|exact K]. rewrite H7, map_app, in_app_iff. left. apply (Cg j d v); [exact (H2 _ Hd)|exact K].
        -- exists new. split; [exact H7|]. rewrite H8. unfold polygons. apply Permutation_length. apply (perm_filter _ is_polygon). exact Pc.
Qed.
Print Assumptions C88_triangulated.

(** ** Vector area *)
Lemma vec_eq x y z x' y' z' : x = x' -> y = y' -> z = z' -> V3 x y z = V3 x' y' z'.
Proof. intros -> -> ->. reflexivity. Qed.
Lemma vadd_comm a b : vadd a b = vadd b a.
Proof. unfold vadd. apply vec_eq; ring. Qed.
Lemma vadd_assoc a b c : vadd a (vadd b c) = vadd (vadd a b) c.
Proof. unfold vadd. cbn [vx vy vz]. apply vec_eq; ring. Qed.
Lemma vadd_zero a : vadd vzero a = a.
Proof. destruct a as [x y z]. unfold vadd, vzero. cbn [vx vy vz]. apply vec_eq; ring. Qed.
Lemma vsum_app l l' : vsum (l ++ l') = vadd (vsum l) (vsum l').
Proof. induction l as [|a l IH]; cbn [List.app vsum fold_right]; [rewrite vadd_zero; reflexivity|]. fold (vsum (l ++ l')). rewrite IH, vadd_assoc. reflexivity. Qed.
Lemma vsum_perm l l' : Permutation l l' -> vsum l = vsum l'.
Proof.
  intros H. induction H as [|x l l' H IH|x y l|l l' l'' H1 IH1 H2 IH2]; cbn [vsum fold_right]; [reflexivity| | |congruence].
  - fold (vsum l) (vsum l'). rewrite IH. reflexivity.
  - fold (vsum l). rewrite !vadd_assoc, (vadd_comm y x). reflexivity.
Qed.
Lemma vsum_add A (f h : A -> vec) l : vsum (map (fun x => vadd (f x) (h x)) l) = vadd (vsum (map f l)) (vsum (map h l)).
Proof.
  induction l as [|a l IH]; cbn [map vsum fold_right]; [rewrite vadd_zero; reflexivity|]. fold (vsum (map f l)) (vsum (map h l)) (vsum (map (fun x => vadd (f x) (h x)) l)). rewrite IH.
  unfold vadd. cbn [vx vy vz]. apply vec_eq; ring.
Qed.
Lemma map_fst_combine' A B C (f : A -> C) (a : list A) (b : list B) : length a <= length b -> map (fun s => f (fst s)) (combine a b) = map f a.
Proof. revert b. induction a as [|x a IH]; intros [|y b] L; cbn [length combine map] in *; [reflexivity|reflexivity|lia|]. cbn [fst]. rewrite IH by lia. reflexivity. Qed.
Lemma map_snd_combine' A B C (f : B -> C) (a : list A) (b : list B) : length b <= length a -> map (fun s => f (snd s)) (combine a b) = map f b.
Proof. revert b. induction a as [|x a IH]; intros [|y b] L; cbn [length combine map] in *; [reflexivity|lia|reflexivity|]. cbn [snd]. rewrite IH by lia. reflexivity. Qed.
Lemma sides_fst f l : vsum (map (fun s => f (fst s)) (sides l)) = vsum (map f l).
Proof. destruct l as [|a r]; [reflexivity|]. unfold sides. rewrite map_fst_combine'; [reflexivity|rewrite app_length; cbn [length]; lia]. Qed.
Lemma sides_snd f l : vsum (map (fun s => f (snd s)) (sides l)) = vsum (map f l).
Proof.
  destruct l as [|a r]; [reflexivity|]. unfold sides. rewrite map_snd_combine' by (rewrite app_length; cbn [length]; lia). apply vsum_perm. rewrite map_app. cbn [map]. symmetry. apply Permutation_cons_append.
Qed.
Lemma place_old vs new v : In v (map fst vs) -> place (vs ++ new) v = place vs v.
Proof.
  induction vs as [|[w x] vs IH]; cbn [map In List.app place]; [intros []|]. intros H. destruct (Nat.eqb_spec w v) as [|N]; [reflexivity|]. apply IH. destruct H as [H|H]; [destruct (N H)|exact H].
Qed.
Lemma area_tri vs a b c : area vs [a; b; c] = vadd (cross (place vs a) (place vs b)) (vadd (cross (place vs b) (place vs c)) (cross (place vs c) (place vs a))).
Proof. unfold area. cbn [sides List.app combine map fst snd vsum fold_right]. rewrite (vadd_comm _ vzero), vadd_zero. reflexivity. Qed.
Lemma area_old vs new l : (forall v, In v l -> In v (map fst vs)) -> area (vs ++ new) l = area vs l.
Proof. intros H. unfold area. f_equal. apply map_ext_in. intros [a b] Hs. destruct (sides_in a b l Hs) as [Ha Hb]. cbn [fst snd]. rewrite !place_old by (apply H; assumption). reflexivity. Qed.
Lemma area_fan vs v l : vsum (map (fun s => area vs [v; fst s; snd s]) (sides l)) = area vs l.
Proof.
  set (p := place vs v). set (f := fun a => cross p (place vs a)). set (h := fun b => cross (place vs b) p).
  rewrite (map_ext (fun s => area vs [v; fst s; snd s]) (fun s => vadd (cross (place vs (fst s)) (place vs (snd s))) (vadd (f (fst s)) (h (snd s))))).
  - rewrite (vsum_add _ (fun s => cross (place vs (fst s)) (place vs (snd s)))), (vsum_add _ (fun s => f (fst s)) (fun s => h (snd s))), sides_fst, sides_snd, <- vsum_add.
    replace (vsum (map (fun x => vadd (f x) (h x)) l)) with vzero; [rewrite vadd_comm, vadd_zero; reflexivity|].
    induction l as [|a l IH]; cbn [map vsum fold_right]; [reflexivity|]. fold (vsum (map (fun x => vadd (f x) (h x)) l)). rewrite <- IH. unfold f, h, vadd, cross, vzero. cbn [vx vy vz]. apply vec_eq; ring.
  - intros [a b]. cbn [fst snd]. rewrite area_tri. fold p. unfold f, h, vadd. cbn [vx vy vz]. apply vec_eq; ring.
Qed.
Lemma ring_vertex c v : sound_cell c -> flat c -> In v (ring c) -> vertex_of c v.
Proof.
  intros [fs M] F Hv. exists fs. destruct c as [t l p]. unfold ring in Hv. cbn [c_type c_conn] in *. destruct F as [F|[F|[F|F]]]; cbn [c_type] in F; subst t.
  - inversion M; subst. exists l. split; [exact M|]. split; [left; reflexivity|exact Hv].
  - inversion M; subst. exists l. split; [exact M|]. split; [left; reflexivity|exact Hv].
  - inversion M as [t' l' n Fx Ln E1 E2 E3| |]; subst. injection Fx as Ln. destruct l as [|a [|b [|c [|d [|? ?]]]]]; try discriminate.
    exists [a; b; c; d]. split; [exact M|]. split; [left; reflexivity|]. cbn [In] in *. tauto.
  - inversion M as [t' l' n Fx|l' E1 E2|]; subst; [discriminate|]. exists l'. split; [exact M|]. split; [left; reflexivity|exact Hv].
Qed.
Lemma split_area g r at_ e es new : split g r at_ e es -> o_verts r = o_verts g ++ new -> c_type (snd e) <> EPixel -> (forall v, In v (ring (snd e)) -> In v (map fst (o_verts g))) ->
  vsum (map (fun x => area (o_verts r) (ring (snd x))) es) = area (o_verts g) (ring (snd e)).
Proof.
  intros H Er Np Hv. rewrite <- (area_old (o_verts g) new) by exact Hv. rewrite <- Er. clear Hv Er. destruct H as [e F|i a b c d p e1 e2 T1 T2|i a b c d p e1 e2 T1 T2|i l p w es Nw Hw T].
  - cbn [map vsum fold_right]. rewrite vadd_comm, vadd_zero. reflexivity.
  - unfold triangle in T1, T2. cbn [map vsum fold_right]. rewrite T1, T2. unfold ring. cbn [snd c_type c_conn]. rewrite !area_tri. unfold area. cbn [sides List.app combine map fst snd vsum fold_right].
    unfold vadd, cross, vzero. cbn [vx vy vz]. apply vec_eq; ring.
  - destruct Np. reflexivity.
  - unfold ring at 2. cbn [snd c_type c_conn tl]. rewrite <- (area_fan _ w). f_equal. clear Nw Hw Np. induction T as [|s e ss es Ht T IH]; [reflexivity|]. cbn [map]. unfold triangle in Ht. rewrite Ht, IH. reflexivity.
Qed.
Lemma triangulated_area at_ g r : usable g -> (forall id c, In (id, c) (o_cells g) -> flat c /\ c_type c <> EPixel) -> triangulated at_ g r -> surface_area r = surface_area g.
Proof.
  intros [_ [Sd Cg]] Fl [[cs [pieces [P1 [P2 P3]]]] [_ [_ [_ [[new [Ev _]] _]]]]]. unfold surface_area.
  rewrite (vsum_perm _ _ (Permutation_map (fun e => area (o_verts r) (ring (snd e))) P3)).
  rewrite <- (vsum_perm _ _ (Permutation_map (fun e => area (o_verts g) (ring (snd e))) P1)).
  assert (Q : forall e, In e cs -> c_type (snd e) <> EPixel /\ (forall v, In v (ring (snd e)) -> In v (map fst (o_verts g)))).
  { intros [i c] He. apply (Permutation_in _ P1) in He. destruct (Fl i c He) as [F N]. split; [exact N|]. intros v Hv. apply (Cg i c v He). apply ring_vertex; [exact (Sd i c He)|exact F|exact Hv]. }
  clear P1 P3. induction P2 as [|e es cs pieces Sp P2 IH]; [reflexivity|]. cbn [concat map]. rewrite map_app, vsum_app. cbn [vsum fold_right]. fold (vsum (map (fun e => area (o_verts g) (ring (snd e))) cs)).
  rewrite IH by (intros x Hx; apply Q; right; exact Hx). f_equal. destruct (Q e (or_introl eq_refl)) as [Q1 Q2]. exact (split_area g r at_ e es new Sp Ev Q1 Q2).
Qed.
(** The vector area of the surface - its area if it is flat - is the same, wherever the new vertices are. *)
Theorem C88_area_partial : forall fr centroid g, new_ids fr -> pid_history fr g -> usable g -> local centroid -> o_type g = 1 ->
  (forall id c, In (id, c) (o_cells g) -> (c_type c = ETriangle \/ c_type c = EQuad \/ c_type c = EPolygon) /\ exists v, vertex_of c v) ->
  exists r, triangulate centroid g = Some r /\ surface_area r = surface_area g.
Proof.
  intros fr centroid g F H U L T Fl. destruct (C88_triangulated fr centroid g F H U L T) as [r [E Q]].
  - intros id c Hc. destruct (Fl id c Hc) as [K V]. split; [unfold flat; tauto|exact V].
  - exists r. split; [exact E|]. apply triangulated_area with (centroid (o_verts g)); [exact U| |exact Q]. intros id c Hc. destruct (Fl id c Hc) as [K _]. split; [unfold flat; tauto|]. destruct K as [-> | [-> | ->]]; discriminate.
Qed.
Print Assumptions C88_area_partial.

(** ** What is refused *)
Lemma find_snoc id (cs : list (nat * cell)) c e : find id cs = Some c -> find id (cs ++ [e]) = Some c.
Proof. induction cs as [|[j d] cs IH]; cbn [find List.app]; [discriminate|]. destruct (Nat.eqb j id); [exact (fun H => H)|exact IH]. Qed.
Lemma find_addConn fr l t p n g id c : find id (o_cells g) = Some c -> find id (o_cells (snd (addConnectedCell fr l t p (Some n) g))) = Some c.
Proof.
  intros H. destruct (addConnectedCell_cases fr l t p (Some n) g) as [->|[i [-> [_ [_ [Hn ->]]]]]]; [exact H|]. cbn [snd pick_id]. rewrite add_cell_eq by (apply has_false, Hn). cbn [o_cells]. apply find_snoc, H.
Qed.
Lemma find_tri p id c : forall ts n g, find id (o_cells g) = Some c -> find id (o_cells (snd (tri_cells ts p n g))) = Some c.
Proof. induction ts as [|t ts IH]; intros n g H; cbn [tri_cells snd]; [exact H|]. apply IH, find_addConn, H. Qed.
Lemma find_delete id i c g : i <> id -> find id (o_cells g) = Some c -> find id (o_cells (deleteCell i g)) = Some c.
Proof.
  intros N. cbn [deleteCell with_cells o_cells]. induction (o_cells g) as [|[j d] cs IH]; cbn [find filter fst]; [discriminate|].
  destruct (Nat.eqb_spec j i) as [->|Nj]; cbn [negb find]; [rewrite (proj2 (Nat.eqb_neq i id) N); exact IH|]. destruct (Nat.eqb j id); [exact (fun H => H)|exact IH].
Qed.
Lemma tri_loop_refuses centroid id c : ~ flat c -> forall ids nid nvid g, In id ids -> find id (o_cells g) = Some c -> tri_loop centroid ids nid nvid g = None.
Proof.
  intros F. induction ids as [|i ids IH]; intros nid nvid g Hi Hc; [destruct Hi|]. cbn [tri_loop]. destruct (Nat.eq_dec i id) as [->|N].
  - rewrite Hc. unfold flat in F. destruct (c_type c); try reflexivity; exfalso; apply F; tauto.
  - assert (K : In id ids) by (destruct Hi as [Hi|Hi]; [destruct (N Hi)|exact Hi]). destruct (find i (o_cells g)) as [d|]; [|reflexivity].
    assert (Q : forall ts n h, find id (o_cells h) = Some c -> forall nv, (let '(nid, g) := tri_cells ts (c_pid d) n (deleteCell i h) in tri_loop centroid ids nid nv g) = None).
    { intros ts n h Hh nv. pose proof (find_tri (c_pid d) id c ts n (deleteCell i h) (find_delete id i c h N Hh)) as R1. destruct (tri_cells ts (c_pid d) n (deleteCell i h)) as [n' h']. cbn [snd] in R1. exact (IH n' nv h' K R1). }
    destruct (c_type d); try reflexivity; [exact (IH _ _ _ K Hc)|apply Q, Hc|apply Q, Hc|]. cbv zeta. apply Q.
    unfold addVertex. destruct (has nvid (o_verts g)); exact Hc.
Qed.
(** Geometries that are not surfaces, and surfaces with a cell that is not flat, are refused. *)
Theorem C88_refused : forall centroid g, well_formed g -> o_verts g <> [] -> o_type g <> 1 \/ (exists id c, In (id, c) (o_cells g) /\ ~ flat c) -> triangulate centroid g = None.
Proof.
  intros centroid g [Dv Dc] Nv H. unfold triangulate. destruct (Nat.eqb_spec (o_type g) 1) as [E|E]; [|reflexivity]. destruct H as [H|[id [c [Hc F]]]]; [destruct (H E)|].
  replace (Nat.eqb (length (o_verts g)) 0) with false by (destruct (o_verts g); [destruct (Nv eq_refl)|reflexivity]).
  replace (Nat.eqb (length (o_cells g)) 0) with false by (destruct (o_cells g); [destruct Hc|reflexivity]). cbn [orb].
  apply (tri_loop_refuses centroid id c F); [|exact (in_find _ id _ c Dc Hc)]. apply sort_in, in_map_iff. exists (id, c). split; [reflexivity|exact Hc].
Qed.
Print Assumptions C88_refused.

(** ** The block *)
(** Without setWorkOnTarget the target is left as it is, and the geometry returned is the
    triangulation of a copy; with it the target is what is triangulated. *)
Theorem C88_block : forall fr centroid g, new_ids fr -> pid_history fr g -> usable g -> local centroid -> o_type g = 1 ->
  (forall id c, In (id, c) (o_cells g) -> flat c /\ exists v, vertex_of c v) ->
  (exists r, surface_triangulator centroid true g = Some (r, r) /\ triangulated (centroid (o_verts g)) g r) /\
  (exists h r, surface_triangulator centroid false g = Some (g, r) /\ o_verts h = o_verts g /\ o_cells h = o_cells g /\ triangulated (centroid (o_verts g)) h r).
Proof.
  intros fr centroid g F H U L T Fl. split.
  - destruct (C88_triangulated fr centroid g F H U L T Fl) as [r [E K]]. exists r. unfold surface_triangulator. rewrite E. split; [reflexivity|exact K].
  - destruct (history_ok fr g F H) as [[_ [_ [Nk _]]] _]. destruct (clone_ok g Nk) as [_ Ec].
    assert (Ev : o_verts (clone g) = o_verts g /\ o_type (clone g) = o_type g) by (unfold clone; set (r0 := resyncPID _); destruct (clone_fold (o_names g) r0) as [F1 [F2 [F3 _]]]; rewrite F3, F1; split; reflexivity).
    destruct Ev as [Ev Et]. destruct (C88_triangulated fr centroid (clone g)) as [r [E K]].
    + exact F.
    + eapply ph_call; [exact H|apply pc_clone].
    + destruct U as [[Dv Dc] [Sd Cg]]. split; [split; [rewrite Ev; exact Dv|rewrite Ec; exact Dc]|]. split; [intros i c; rewrite Ec; apply Sd|intros i c v; rewrite Ec, Ev; apply Cg].
    + exact L.
    + congruence.
    + rewrite Ec. exact Fl.
    + exists (clone g), r. unfold surface_triangulator. rewrite E, <- Ev. repeat split; [exact Ec|exact (proj1 K)|..]; apply K.
Qed.
Print Assumptions C88_block.

(** ** Structured cells *)
Definition pixel : obj :=
  let g := new_obj 1 in
  let g := snd (addVertex fresh (V3 0 0 0) (Some 0) g) in
  let g := snd (addVertex fresh (V3 1 0 0) (Some 1) g) in
  let g := snd (addVertex fresh (V3 0 1 0) (Some 2) g) in
  let g := snd (addVertex fresh (V3 1 1 0) (Some 3) g) in
  snd (addConnectedCell fresh [0; 1; 2; 3] EPixel 0 (Some 0) g).
(** A square PIXEL, of (twice the) area 2, becomes two triangles of opposite sides that overlap: the
    vertices of a PIXEL are numbered by rows, not around the cell. *)
Theorem C88_pixel_refuted : pid_history fresh pixel /\ usable pixel /\ o_type pixel = 1 /\ (forall id c, In (id, c) (o_cells pixel) -> flat c /\ exists v, vertex_of c v) /\
  surface_area pixel = V3 0 0 2 /\ forall centroid, exists r, triangulate centroid pixel = Some r /\ surface_area r = V3 0 0 0.
Proof.
  split; [unfold pixel; cbv zeta; eapply ph_call; [|apply pc_conn; unfold int_range; lia]; do 4 (eapply ph_call; [|apply pc_vertex]); apply ph_new|].
  split; [apply usable_check; vm_compute; reflexivity|]. split; [reflexivity|].
  assert (Cs : o_cells pixel = [(0, Cl EPixel [0; 1; 2; 3] 0)]) by (vm_compute; reflexivity).
  assert (Vs : o_verts pixel = [(0, V3 0 0 0); (1, V3 1 0 0); (2, V3 0 1 0); (3, V3 1 1 0)]) by (cbv - [IZR]; reflexivity).
  split; [|split].
  - intros id c H. rewrite Cs in H. destruct H as [H|[]]. injection H as _ <-. split; [right; right; left; reflexivity|]. exists 0, [[0; 1; 2; 3]], [0; 1; 2; 3]. split; [apply (means_fixed EPixel _ 4); reflexivity|]. split; left; reflexivity.
  - unfold surface_area. rewrite Cs, Vs. unfold area, ring. cbn. unfold vadd, cross, vzero. cbn [vx vy vz]. apply vec_eq; ring.
  - intros centroid. assert (Er : exists r, triangulate centroid pixel = Some r /\ o_verts r = o_verts pixel /\ o_cells r = [(1, Cl ETriangle [0; 1; 2] 0); (2, Cl ETriangle [0; 2; 3] 0)]).
    { eexists. split; [reflexivity|]. split; reflexivity. }
    destruct Er as [r [E [E1 E2]]]. exists r. split; [exact E|]. unfold surface_area. rewrite E2, E1, Vs. unfold area, ring. cbn. unfold vadd, cross, vzero. cbn [vx vy vz]. apply vec_eq; ring.
Qed.
Print Assumptions C88_pixel_refuted.

Definition mixed : obj :=
  let g := new_obj 1 in
  let g := snd (addVertex fresh (V3 0 0 0) (Some 0) g) in
  let g := snd (addVertex fresh (V3 1 0 0) (Some 1) g) in
  let g := snd (addVertex fresh (V3 1 1 0) (Some 2) g) in
  let g := snd (addVertex fresh (V3 0 1 0) (Some 3) g) in
  let g := snd (addVertex fresh (V3 2 0 0) (Some 4) g) in
  let g := snd (addVertex fresh (V3 2 1 0) (Some 5) g) in
  let g := snd (addVertex fresh (V3 3 1 0) (Some 6) g) in
  let g := snd (addConnectedCell fresh [5; 1; 4; 6; 5; 2] EPolygon 3 (Some 9) g) in
  let g := snd (addConnectedCell fresh [0; 1; 2; 3] EQuad 5 (Some 7) g) in
  let g := snd (addConnectedCell fresh [2; 5; 3] ETriangle 0 (Some 2) g) in
  snd (setPIDName 5 "wing"%string g).
Example C88_nonvacuous : pid_history fresh mixed /\ usable mixed /\ o_type mixed = 1 /\
  (forall id c, In (id, c) (o_cells mixed) -> (c_type c = ETriangle \/ c_type c = EQuad \/ c_type c = EPolygon) /\ exists v, vertex_of c v) /\
  local (fun _ _ => V3 2 0 0) /\ option_map o_cells (triangulate (fun _ _ => V3 2 0 0) mixed) =
    Some [(2, Cl ETriangle [2; 5; 3] 0); (10, Cl ETriangle [0; 1; 2] 5); (11, Cl ETriangle [0; 2; 3] 5); (12, Cl ETriangle [7; 1; 4] 3); (13, Cl ETriangle [7; 4; 6] 3);
          (14, Cl ETriangle [7; 6; 5] 3); (15, Cl ETriangle [7; 5; 2] 3); (16, Cl ETriangle [7; 2; 1] 3)].
Proof.
  split; [unfold mixed; cbv zeta; eapply ph_call; [|apply pc_name]; do 3 (eapply ph_call; [|apply pc_conn; unfold int_range; lia]); do 7 (eapply ph_call; [|apply pc_vertex]); apply ph_new|].
  assert (U : usable mixed) by (apply usable_check; vm_compute; reflexivity). split; [exact U|]. split; [reflexivity|]. split; [|split; [intros vs more c _; reflexivity|vm_compute; reflexivity]].
  assert (Cs : o_cells mixed = [(9, Cl EPolygon [5; 1; 4; 6; 5; 2] 3); (7, Cl EQuad [0; 1; 2; 3] 5); (2, Cl ETriangle [2; 5; 3] 0)]) by (vm_compute; reflexivity).
  intros id c H. destruct U as [_ [Sd _]]. specialize (Sd id c H). rewrite Cs in H. destruct H as [H|[H|[H|[]]]]; injection H as _ <-; (split; [cbn [c_type]; tauto|]); [exists 1|exists 1|exists 2]; apply (cell_verts_in _ _ Sd); cbn; tauto.
Qed.
