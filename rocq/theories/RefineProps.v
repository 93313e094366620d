(** C109: refinement and smoothing of surfaces. *)
From Coq Require Import Reals List Arith Bool ZArith Lra Lia.
From Verif Require Import Vec Refine RefineSpec RefineProofs.
Import ListNotations.
Open Scope R_scope.

(** Red-green refinement of any cells: it ends, the mesh is of triangles, vertices stay where they were, each cell is
    replaced by cells with the same points, part, way round and total area.  The cells in four are the active ones and,
    again and again, those with two faces beside such cells, and no others; those in two are the others beside one. *)
Theorem C109_redgreen : forall m active, triangulated m -> manifold m -> NoDup active -> (forall n, In n active -> (n < length (m_cells m))%nat) ->
  exists m' gs (red : nat -> Prop), redgreenRefine m active = Some m' /\ triangulated m' /\ (forall i, (i < m_next m)%nat -> m_pts m' i = m_pts m i) /\ m_cells m' = concat gs /\ length gs = length (m_cells m) /\
    (forall n, red n <-> rule m active red n) /\ (forall P : nat -> Prop, (forall n, rule m active P n -> P n) -> forall n, red n -> P n) /\
    forall k c g, nth_error (m_cells m) k = Some c -> nth_error gs k = Some g -> stands (m_pts m') c g /\
      (red k -> length g = 4%nat) /\ (~ red k -> (exists f j, red j /\ beside m k f j) -> length g = 2%nat) /\ (~ red k -> ~ (exists f j, red j /\ beside m k f j) -> g = [c]).
Proof.
  intros m active T M N B. destruct (spread_start (m_cells m) active N B) as (s & W & E & I & Q & BW & Le). unfold redgreenRefine. rewrite E.
  destruct (step_groups m s (split_edges s) T) as (gs & EA & L & G0).
  - intros k f Hk Hf. rewrite <- (split_iff m active W s T I Q BW M k f Hk Hf). unfold split_edges. apply nodup_In.
  - intros k _ H. apply (green_face m active W s T I BW k H).
  - rewrite EA. eexists. exists gs, (fun n => In n W). split; [reflexivity|]. cbn [m_pts m_cells m_next].
    split; [apply (groups_triangulated m (split_edges s) s gs); intros k g Hk; apply G0; exact Hk|]. split; [intros i Hi; apply new_points_old; exact Hi|]. split; [reflexivity|]. split; [exact L|].
    split; [intros n; apply (red_rule m active W s T I Q BW M)|]. split.
    + intros P C n Hn. apply (Le P); [apply (closed_two m active W s P T M I Q BW C)|intros j Hj; apply C; left; exact Hj|exact Hn].
    + intros k c g Hk Hg. destruct (G0 k g Hg) as (R & (St & Lg & _)). rewrite (at_nth _ _ _ Hk) in St. assert (Lk : (k < length (m_cells m))%nat) by (apply nth_error_Some; rewrite Hk; discriminate). pose proof (red_in m active W s I Q k) as RI. pose proof (green_iff m active W s T I Q BW k Lk) as GI.
      split; [exact St|]. split; [intros H; apply RI in H; replace (Nat.min 2 (tag s k)) with 2%nat in Lg by lia; exact Lg|]. split.
      * intros H X. assert (T1 : tag s k = 1%nat) by (apply GI; auto). rewrite T1 in Lg. exact Lg.
      * intros H X. assert (T0 : tag s k = 0%nat). { destruct (tag s k) as [|[|t]] eqn:TK; [reflexivity| |]; exfalso; [apply X; apply GI; reflexivity|apply H; apply RI; lia]. }
        unfold refine_cell in R. rewrite T0 in R. cbn in R. rewrite (at_nth _ _ _ Hk) in R. congruence.
Qed.
Print Assumptions C109_redgreen.

(** No hanging vertices: a closed surface refined on any cells is closed. *)
Theorem C109_closed : forall m active m', triangulated m -> manifold m -> NoDup active -> (forall n, In n active -> (n < length (m_cells m))%nat) -> redgreenRefine m active = Some m' ->
  (closed (m_cells m) -> closed (m_cells m')) /\ forall p, in_cells (m_pts m) (m_cells m) p <-> in_cells (m_pts m') (m_cells m') p.
Proof.
  intros m active m' T M N B. destruct (spread_start (m_cells m) active N B) as (s & W & E & I & Q & BW & Le). unfold redgreenRefine. rewrite E.
  destruct (step_groups m s (split_edges s) T) as (gs & EA & L & G0).
  - intros k f Hk Hf. rewrite <- (split_iff m active W s T I Q BW M k f Hk Hf). unfold split_edges. apply nodup_In.
  - intros k _ H. apply (green_face m active W s T I BW k H).
  - assert (G : forall k g, nth_error gs k = Some g -> good m (split_edges s) s k g) by (intros k g Hk; apply G0; exact Hk). rewrite EA. intros X. injection X as <-. cbn [m_pts m_cells m_next].
    assert (C : closed (m_cells m) -> closed (concat gs)) by (intros C; apply (groups_closed m (split_edges s) s gs C L G)).
    split; [exact C|]. intros p. rewrite <- (groups_points m (split_edges s) s gs L G). symmetry. apply in_cells_old. exact T.
Qed.
Print Assumptions C109_closed.

(** Executing any number of refinements of a mesh of triangles, without smoothing: each triangle ends up in 4^k (or 3^k)
    triangles of equal area with its part, inside it; vertices stay; the points of the surface are the same; closed
    surfaces are still closed. *)
Theorem C109_steps : forall near t k m, triangulated m -> let n := match t with TERNARY => 3%nat | REDGREEN => 4%nat end in
  exists m', execute near t k 0 m = Some m' /\ triangulated m' /\ length (m_cells m') = (n ^ k * length (m_cells m))%nat /\ same_surface m m' /\
  forall d, In d (m_cells m') -> exists c, In c (m_cells m) /\ c_pid d = c_pid c /\ cell_area (m_pts m') d = vscale (/ INR n ^ k) (cell_area (m_pts m) c) /\ forall p, in_cell (m_pts m') d p -> in_cell (m_pts m) c p.
Proof.
  intros near t k m T n. unfold execute. destruct t; subst n.
  - destruct (ternary_steps k m T) as (m' & E & T' & L & _ & S1 & D). rewrite E. eexists. split; [reflexivity|]. cbn [smoothing]. destruct m' as [p x c]. cbn [m_pts m_next m_cells] in *. replace (INR 3) with 3 by (cbn; ring). auto.
  - assert (C : checkTriangulation m = true) by (unfold checkTriangulation; rewrite forallb_forall; intros c Hc; destruct (T c Hc) as [K _]; rewrite K; reflexivity). rewrite C. cbn [negb].
    destruct (red_steps k m T) as (m' & E & T' & L & _ & S1 & D). rewrite E. eexists. split; [reflexivity|]. cbn [smoothing]. destruct m' as [p x c]. cbn [m_pts m_next m_cells] in *. replace (INR 4) with 4 by (cbn; ring). auto.
Qed.
Print Assumptions C109_steps.

(** Ternary refinement of polygons of any number of vertices: each is replaced by the triangles of its edges with a new
    vertex, the mean of its own, with its part and its total area; closed surfaces stay closed. *)
Theorem C109_ternary : forall m, ids_ok m -> let m' := ternaryRefine m in
  (forall i, (i < m_next m)%nat -> m_pts m' i = m_pts m i) /\ (closed (m_cells m) -> closed (m_cells m')) /\
  exists gs, m_cells m' = concat gs /\ length gs = length (m_cells m) /\
    forall k c g, nth_error (m_cells m) k = Some c -> nth_error gs k = Some g ->
      (exists v, (m_next m <= v < m_next m')%nat /\ m_pts m' v = mean (c_verts c) (m_pts m) /\ g = map (fun e => Cell Triangle [v; fst e; snd e] (c_pid c)) (turn (c_verts c))) /\
      length g = length (c_verts c) /\ vsum (map (cell_area (m_pts m')) g) = polygon_area (m_pts m) (c_verts c).
Proof.
  intros m H m'. destruct (ternary_right m H) as (news & L & E & N & P & K). fold m' in E, N, P, K. split; [exact P|]. split; [intros C; rewrite E; apply fans_closed; [exact L|exact C]|].
  exists (map (fun nc => ternaryCell (fst nc) (snd nc)) (combine news (m_cells m))). split; [exact E|]. split; [rewrite map_length, combine_length, L; apply Nat.min_id|].
  intros k c g Hk Hg. rewrite nth_error_map, combine_nth_error in Hg. rewrite Hk in Hg. destruct (nth_error news k) as [v|] eqn:Q; [|discriminate]. cbn in Hg. injection Hg as <-. destruct (K k c v Hk Q) as [K1 K2].
  split; [exists v; split; [exact K1|split; [exact K2|apply ternary_verts]]|]. split; [rewrite ternary_verts, map_length, turn_length; reflexivity|]. rewrite ternary_areas. unfold polygon_area.
  destruct (H c (nth_error_In _ _ Hk)) as [_ Lt]. assert (TI : forall e, In e (turn (c_verts c)) -> (fst e < m_next m)%nat /\ (snd e < m_next m)%nat).
  { intros e He. rewrite turn_nth in He. apply in_map_iff in He. destruct He as (i & <- & Hi). apply in_seq in Hi. cbn [fst snd]. assert (NZ : length (c_verts c) <> 0%nat) by lia. split; apply Lt; apply nth_In; apply Nat.mod_upper_bound; exact NZ. }
  revert TI. generalize (turn (c_verts c)). induction l as [|e l IH]; intros TI; [reflexivity|]. cbn [fold_right]. rewrite IH by (intros x Hx; apply TI; right; exact Hx). destruct (TI e (or_introl eq_refl)) as [A B]. rewrite (P _ A), (P _ B). reflexivity.
Qed.
Print Assumptions C109_ternary.

(** Red-green refinement of a mesh with a cell that is not a triangle changes nothing, smoothing included. *)
Theorem C109_not_triangles : forall near k steps m c, In c (m_cells m) -> c_kind c <> Triangle -> execute near REDGREEN k steps m = Some m.
Proof.
  intros near k steps m c Hc K. unfold execute. replace (checkTriangulation m) with false; [reflexivity|]. symmetry. apply not_true_iff_false. unfold checkTriangulation. rewrite forallb_forall. intros H. specialize (H c Hc). destruct (c_kind c); [congruence|discriminate|discriminate|discriminate].
Qed.
Print Assumptions C109_not_triangles.

(** Smoothing changes no cell; a step moves each vertex with neighbours by six tenths of the way to their mean. *)
Theorem C109_smoothing : forall near t k steps m m', execute near t k steps m = Some m' -> match t with REDGREEN => triangulated m | TERNARY => True end ->
  exists m0 (at_step : nat -> nat -> vec), execute near t k 0 m = Some m0 /\ m_cells m' = m_cells m0 /\ m_next m' = m_next m0 /\ (forall i, at_step 0%nat i = m_pts m0 i) /\ (forall i, at_step steps i = m_pts m' i) /\
  forall s i, (s < steps)%nat -> at_step (S s) i = match near m0 i with [] => at_step s i | l => vadd (vscale (4 / 10) (at_step s i)) (vscale (6 / 10) (mean l (at_step s))) end.
Proof.
  intros near t k steps m m' E T. unfold execute in *. destruct (match t with REDGREEN => negb (checkTriangulation m) | TERNARY => false end) eqn:C.
  { exfalso. destruct t; [discriminate|]. apply negb_true_iff in C. apply not_true_iff_false in C. apply C. unfold checkTriangulation. rewrite forallb_forall. intros c Hc. destruct (T c Hc) as [K _]. rewrite K. reflexivity. }
  destruct (steps_of t k m) as [m0|]; [|discriminate]. injection E as <-. cbn [smoothing m_cells m_next m_pts]. exists m0, (fun s => smoothing (near m0) None s (m_pts m0)). destruct m0 as [p x c]. cbn [m_pts m_next m_cells] in *. split; [reflexivity|]. repeat (split; [reflexivity|]). intros s i _.
  set (nr := near (Mesh p x c)). rewrite <- positive_right. assert (G : forall s q j, smoothing nr None (S s) q j = positive nr None (smoothing nr None s q) j); [|apply G].
  clear. assert (X : forall q q' j, (forall a, q a = q' a) -> positive nr None q j = positive nr None q' j) by (intros q q' j H; rewrite !positive_right, H; destruct (nr j) as [|a l]; [reflexivity|]; unfold mean; do 4 f_equal; apply map_ext; exact H).
  assert (Y : forall s q q' j, (forall a, q a = q' a) -> smoothing nr None s q j = smoothing nr None s q' j). { induction s as [|s IH]; intros q q' j H; [apply H|]. cbn [smoothing]. apply IH. intros a. rewrite !negative_none. apply X. exact H. }
  induction s as [|s IH]; intros q j; [apply negative_none|]. cbn [smoothing] in *. rewrite IH. reflexivity.
Qed.
Print Assumptions C109_smoothing.

(** So smoothing never takes a vertex out of a half-space that has them all: out of a box or of a convex hull. *)
Theorem C109_bounds : forall near t k steps m m' m0 n h, execute near t k steps m = Some m' -> execute near t k 0 m = Some m0 -> match t with REDGREEN => triangulated m | TERNARY => True end ->
  (forall i j, (i < m_next m0)%nat -> In j (near m0 i) -> (j < m_next m0)%nat) -> (forall i, (i < m_next m0)%nat -> dot n (m_pts m0 i) <= h) -> forall i, (i < m_next m')%nat -> dot n (m_pts m' i) <= h.
Proof.
  intros near t k steps m m' m0 n h E E0 T C H i Hi. unfold execute in *. destruct (match t with REDGREEN => negb (checkTriangulation m) | TERNARY => false end) eqn:X.
  { exfalso. destruct t; [discriminate|]. apply negb_true_iff in X. apply not_true_iff_false in X. apply X. unfold checkTriangulation. rewrite forallb_forall. intros c Hc. destruct (T c Hc) as [K _]. rewrite K. reflexivity. }
  destruct (steps_of t k m) as [q|]; [|discriminate]. injection E as <-. injection E0 as <-. cbn [smoothing m_pts m_next] in *. destruct q as [p x c]. cbn [m_pts m_next m_cells] in *. apply (smoothing_le (near (Mesh p x c)) (fun j => (j < x)%nat)); assumption.
Qed.
Print Assumptions C109_bounds.

(** With a set of constrained vertices these never move; each step then has the second sub-step too. *)
Theorem C109_constrained : forall near l k pts i, (In i l -> smoothing near (Some l) k pts i = pts i) /\
  (~ In i l -> near i <> [] -> let q := positive near (Some l) pts in
     q i = vadd (pts i) (vscale (6 / 10) (vsub (mean (near i) pts) (pts i))) /\ smoothing near (Some l) 1 pts i = vadd (q i) (vscale (- (3618 / 10000)) (vsub (mean (near i) q) (q i)))).
Proof.
  intros near l k pts i. split; [intros H; apply fixed_stay; exact H|]. intros H Ne q. assert (E : existsb (Nat.eqb i) l = false). { apply not_true_iff_false. intros X. apply existsb_exists in X. destruct X as (x & Hx & Q). apply Nat.eqb_eq in Q. subst x. contradiction. }
  assert (A : forall r, shift near lambda r i = vscale (6 / 10) (vsub (mean (near i) r) (r i))) by (intros r; rewrite shift_mean; destruct (near i); [contradiction|reflexivity]).
  assert (B : forall r, shift near kappa r i = vscale (- (3618 / 10000)) (vsub (mean (near i) r) (r i))) by (intros r; rewrite shift_mean; destruct (near i); [contradiction|]; f_equal; unfold kappa, lambda; field).
  assert (V : forall a b, vadd a b = vadd b a) by (intros a b; destruct a as [a1 a2 a3], b as [b1 b2 b3]; unfold vadd; cbn; f_equal; ring).
  split; [unfold q, positive; rewrite E, A; apply V|]. cbn [smoothing]. fold q. unfold negative. rewrite E, B. apply V.
Qed.
Print Assumptions C109_constrained.

(** The documented second sub-step never happens when the object executes: its result is that of the first sub-steps
    alone, unlike that with an empty set of constrained vertices. *)
Definition pair_near (i : nat) : list nat := match i with 0%nat => [1%nat] | 1%nat => [0%nat] | _ => [] end.
Theorem C109_negative_refuted : exists near pts, smoothing near None 1 pts 0%nat <> smoothing near (Some []) 1 pts 0%nat.
Proof.
  exists pair_near, (fun i => match i with 0%nat => V3 0 0 0 | _ => V3 1 0 0 end). intros E. apply (f_equal vx) in E. revert E. cbn [smoothing]. unfold negative, positive. cbn [existsb]. rewrite !shift_mean. cbn [pair_near]. unfold mean. cbn [map fold_right length INR]. rewrite !shift_mean. cbn [pair_near]. unfold mean. cbn [map fold_right length INR].
  unfold vadd, vsub, vscale, vzero, kappa, lambda. cbn [vx vy vz]. intros E. 
  rewrite ?Rinv_1 in E.
  lra.
Qed.
Print Assumptions C109_negative_refuted.

(** A pixel of bitpit has its vertices by rows and not around it: ternary refinement of a square pixel leaves out half of it. *)
Definition square (i : nat) : vec := match i with 0%nat => V3 0 0 0 | 1%nat => V3 1 0 0 | 2%nat => V3 0 1 0 | _ => V3 1 1 0 end.
Theorem C109_pixel_refuted : exists m c p, m_cells m = [c] /\ c_kind c = Pixel /\ c_verts c = [0; 1; 2; 3]%nat /\ m_pts m = square /\ (0 <= vx p <= 1 /\ 0 <= vy p <= 1 /\ vz p = 0) /\ ~ in_cells (m_pts (ternaryRefine m)) (m_cells (ternaryRefine m)) p.
Proof.
  exists (Mesh square 4 [Cell Pixel [0; 1; 2; 3]%nat 0]), (Cell Pixel [0; 1; 2; 3]%nat 0), (V3 (9 / 10) (/ 2) 0). cbn [m_cells c_kind c_verts m_pts vx vy vz]. repeat split; try lra.
  intros (c & Hc & x & y & z & E & s & t & u & Hs & Ht & Hu & Su & P). cbn in Hc. unfold ternaryRefine in P. cbn [ternary_loop m_cells m_pts m_next addVertex] in P.
  destruct Hc as [<- |[<- |[<- |[<- |[]]]]]; cbn in E; injection E as <- <- <-; cbn in P; unfold vadd, vscale in P; cbn in P; injection P; intros; lra.
Qed.
Print Assumptions C109_pixel_refuted.

(** A tetrahedron: closed, and refined on one face becomes ten triangles. *)
Definition tetra : mesh := Mesh square 4 [Cell Triangle [0; 2; 1]%nat 5; Cell Triangle [0; 1; 3]%nat 6; Cell Triangle [1; 2; 3]%nat 7; Cell Triangle [2; 0; 3]%nat 8].
Example C109_nonvacuous : triangulated tetra /\ manifold tetra /\ closed (m_cells tetra) /\ exists m', redgreenRefine tetra [0%nat] = Some m' /\ length (m_cells m') = 10%nat.
Proof.
  assert (T : triangulated tetra) by (intros c [<- |[<- |[<- |[<- |[]]]]]; (split; [reflexivity|]); eexists; eexists; eexists; (split; [reflexivity|]); cbn; lia).
  split; [exact T|]. split; [apply manifold_check; [exact T|vm_compute; reflexivity]|]. split; [apply closed_check; vm_compute; reflexivity|]. assert (X : option_map (fun q => length (m_cells q)) (redgreenRefine tetra [0%nat]) = Some 10%nat) by (vm_compute; reflexivity). destruct (redgreenRefine tetra [0%nat]) as [q|]; [|discriminate]. exists q. split; [reflexivity|]. cbn [option_map] in X. congruence.
Qed.
(** A strip of two triangles beside two active ones: spreading in turn. *)
Definition strip : mesh := Mesh square 6 [Cell Triangle [0; 1; 2]%nat 0; Cell Triangle [1; 3; 2]%nat 0; Cell Triangle [2; 3; 4]%nat 0; Cell Triangle [3; 5; 4]%nat 0].
Example C109_nonvacuous_spread : triangulated strip /\ manifold strip /\ exists m', redgreenRefine strip [0; 2]%nat = Some m' /\ length (m_cells m') = 14%nat.
Proof.
  assert (T : triangulated strip) by (intros c [<- |[<- |[<- |[<- |[]]]]]; (split; [reflexivity|]); eexists; eexists; eexists; (split; [reflexivity|]); cbn; lia).
  split; [exact T|]. split; [apply manifold_check; [exact T|vm_compute; reflexivity]|]. assert (X : option_map (fun q => length (m_cells q)) (redgreenRefine strip [0; 2]%nat) = Some 14%nat) by (vm_compute; reflexivity). destruct (redgreenRefine strip [0; 2]%nat) as [q|]; [|discriminate]. exists q. split; [reflexivity|]. cbn [option_map] in X. congruence.
Qed.
Example C109_nonvacuous_polygons : ids_ok (Mesh square 4 [Cell Polygon [0; 1; 3; 2]%nat 1]) /\ polygon_area square [0; 1; 3; 2]%nat = V3 0 0 2.
Proof.
  split; [intros c [<- |[]]; cbn; split; [discriminate|intros i [<- |[<- |[<- |[<- |[]]]]]; lia]|]. unfold polygon_area. cbn. unfold cross, vadd. cbn. f_equal; ring.
Qed.
