(** What executions of a lattice do to the vertices. *)
From Coq Require Import Reals List Arith ZArith Bool Lia Lra.
From Verif Require Import Vec SharedPtr Field Shape ShapeSpec ShapeProofs ShapeCoord ShapeSel ShapeSelSpec ShapeSelProofs Mesh MeshSpec MeshProofs MeshBuild Lattice LatticeSpec LatticeProofs LatticeBuild Manip ManipSpec ManipProofs Ffd FfdSpec FfdBasis FfdKnots FfdCurve FfdSums FfdEval FfdReady FfdProofs FfdForms FfdBuild.
Import ListNotations.
Open Scope R_scope.

Lemma prepared_like f D world fl g : like f (prepared f D world fl g).
Proof. unfold like, prepared, ffd_setGeometry, ffd_setFilter, setDisplGlobal, setDisplacements. cbn. repeat split. Qed.

Section Prepared.
Variables (f : ffd) (s : shape) (D : list vec) (world : bool).
Hypothesis C : core f s.
(** [evaluates]: what the lattice with the displacements D does to the point q *)
Definition evaluates (q m : vec) : Prop :=
  forall f', like f f' -> f_displ f' = D -> f_global f' = world -> evaluate f' q = Some (displaced s world q m).
Lemma evaluates_moves q m : evaluates q m -> moves f s D world q m.
Proof.
  intros Ev G g fl id f' Wf Nf I A X.
  pose proof (like_core f _ s (prepared_like f D world fl g) C) as C'.
  destruct (execute_is G g Wf (prepared f D world fl g) s fl C' eq_refl eq_refl eq_refl Nf f' X) as (data & Ed & Kd & Ha & _).
  destruct (Ha id A) as (v & Iv & d & k & E & Fk & ->). rewrite Ed. cbn [fd_data]. exists k. split; [exact Fk|].
  rewrite (coords_at _ id q (Ndv G Wf g) I) in E.
  rewrite (Ev (prepared f D world fl g) (prepared_like f D world fl g) eq_refl eq_refl) in E.
  assert (Ed' : displaced s world q m = d) by (injection E as E; exact E). rewrite Ed'. exact Iv.
Qed.
Lemma field_is G g fl f' : (forall k, good_geo (G k)) -> distinct_ids (fd_data fl) -> ffd_execute G (prepared f D world fl g) = Some f' ->
  fd_geo (f_gdispl f') = Some g /\ map fst (fd_data (f_gdispl f')) = map fst (p_verts (ge_patch (G g))) /\
  forall id, In id (map fst (p_verts (ge_patch (G g)))) -> ~ affected s (G g) id -> In (id, vzero) (fd_data (f_gdispl f')).
Proof.
  intros Wf Nf X. pose proof (like_core f _ s (prepared_like f D world fl g) C) as C'.
  destruct (execute_is G g Wf (prepared f D world fl g) s fl C' eq_refl eq_refl eq_refl Nf f' X) as (data & Ed & Kd & _ & Hz).
  rewrite Ed. cbn [fd_data fd_geo]. split; [reflexivity|]. split; [exact Kd|exact Hz].
Qed.
Lemma total_is G g fl : (forall k, good_geo (G k)) -> distinct_ids (fd_data fl) -> length D = nodes f ->
  (forall id q, In (id, q) (p_verts (ge_patch (G g))) -> affected s (G g) id -> exists m, evaluates q m) ->
  exists f', ffd_execute G (prepared f D world fl g) = Some f'.
Proof.
  intros Wf Nf LD Ev. pose proof (like_core f _ s (prepared_like f D world fl g) C) as C'.
  apply (execute_total G g Wf (prepared f D world fl g) s fl C' eq_refl eq_refl eq_refl Nf); [exact LD|].
  intros id A. pose proof (affected_vertex s (G g) id (Wf g) A) as I. apply in_map_iff in I. destruct I as ([id' q] & E & I). cbn [fst] in E. subst id'.
  destruct (Ev id q I A) as (m & M). rewrite (coords_at _ id q (Ndv G Wf g) I). exists (displaced s world q m).
  apply (M (prepared f D world fl g) (prepared_like f D world fl g) eq_refl eq_refl).
Qed.
End Prepared.

Lemma move_in (d : list (nat * vec)) vs id q v : distinct_ids d -> In (id, q) vs -> In (id, v) d -> In (id, vadd q v) (map (move d) vs).
Proof.
  intros N I J. apply in_map_iff. exists (id, q). split; [|exact I]. unfold move. cbn [fst snd].
  assert (F : find id d = Some v); [|rewrite F; reflexivity]. clear I. unfold distinct_ids in N. induction d as [|[j w] d IH]; [destruct J|]. cbn [find map fst] in *. apply NoDup_cons_iff in N. destruct N as [Nj N].
  destruct (Nat.eqb_spec j id) as [->|Ne]; [destruct J as [[= <-]|J]; [reflexivity|exfalso; apply Nj; exact (in_map fst _ _ J)]|]. apply IH; [exact N|]. destruct J as [J|J]; [congruence|exact J].
Qed.
Lemma move_keys d vs : map fst (map (move d) vs) = map fst vs.
Proof. rewrite map_map. apply map_ext. intros [i p]. unfold move. cbn [fst]. destruct (find i d); reflexivity. Qed.

(** the coordinates after an execution with the apply flag *)
Lemma exec_moves f s D world q m : core f s -> moves f s D world q m ->
  forall G g fl vs' f', (forall k, good_geo (G k)) -> distinct_ids (fd_data fl) -> ffd_exec G (prepared f D world fl g) = Some (vs', f') ->
  forall id, In (id, q) (p_verts (ge_patch (G g))) -> affected s (G g) id ->
    exists k, factor g (p_verts (ge_patch (G g))) fl id k /\ In (id, vadd q (vscale k (displaced s world q m))) vs'.
Proof.
  intros C M G g fl vs' f' Wf Nf X id I A. unfold ffd_exec in X.
  change (f_geo (prepared f D world fl g)) with (Some g) in X. cbn [bind] in X.
  destruct (ffd_execute G (prepared f D world fl g)) as [f1|] eqn:E; [|discriminate]. cbn [bind] in X. injection X as <- _.
  destruct (M G g fl id f1 Wf Nf I A E) as (k & Fk & J). exists k. split; [exact Fk|].
  apply move_in; [|exact I|exact J]. destruct (field_is f s D world C G g fl f1 Wf Nf E) as (_ & K & _). unfold distinct_ids. rewrite K. apply (Ndv G Wf).
Qed.
Lemma exec_others f s D world : core f s ->
  forall G g fl vs' f', (forall k, good_geo (G k)) -> distinct_ids (fd_data fl) -> ffd_exec G (prepared f D world fl g) = Some (vs', f') ->
  map fst vs' = map fst (p_verts (ge_patch (G g))) /\
  forall id q, In (id, q) (p_verts (ge_patch (G g))) -> ~ affected s (G g) id -> In (id, q) vs'.
Proof.
  intros C G g fl vs' f' Wf Nf X. unfold ffd_exec in X.
  change (f_geo (prepared f D world fl g)) with (Some g) in X. cbn [bind] in X.
  destruct (ffd_execute G (prepared f D world fl g)) as [f1|] eqn:E; [|discriminate]. cbn [bind] in X. injection X as <- _.
  destruct (field_is f s D world C G g fl f1 Wf Nf E) as (_ & K & Z). split; [apply move_keys|]. intros id q I A.
  replace q with (vadd q vzero) by (destruct q; unfold vadd, vzero; cbn; f_equal; ring). apply move_in; [|exact I|].
  - unfold distinct_ids. rewrite K. apply (Ndv G Wf).
  - apply Z; [exact (in_map fst _ _ I)|exact A].
Qed.

(** ** Mixtures *)
Lemma mixture f s q : core f s -> ShapeSpec.solid s -> spaced f s -> positive_weights f -> in_box s q ->
  exists lam, shares (nodes f) lam /\ forall D world, length D = nodes f -> evaluates f s D world q (mix (nodes f) lam D).
Proof.
  intros C So Sp Wp I. destruct (evaluate_shares f s q C So Sp Wp I) as (lam & Sl & E). exists lam. split; [exact Sl|].
  intros D world LD f' L Ed Eg. subst D world. apply E; [exact L|exact LD].
Qed.
Lemma mix_const n lam D d : shares n lam -> (forall i, (i < n)%nat -> nth i D vzero = d) -> mix n lam D = d.
Proof.
  intros [_ S] H. apply vent_ext. intros i Hi. rewrite mix_vent by exact Hi.
  rewrite (rsum_ext n _ (fun k => lam k * vent d i)) by (intros k Hk; rewrite H by exact Hk; reflexivity). rewrite rsum_scale_r, S. ring.
Qed.
Lemma mix_bounds n lam D i a b : shares n lam -> (i < 3)%nat -> (forall k, (k < n)%nat -> a <= vent (nth k D vzero) i <= b) -> a <= vent (mix n lam D) i <= b.
Proof.
  intros [P S] Hi H. rewrite mix_vent by exact Hi. split.
  - replace a with (rsum n (fun k => lam k * a)) by (rewrite rsum_scale_r, S; ring). apply rsum_le. intros k Hk. apply Rmult_le_compat_l; [apply P|apply H, Hk].
  - replace b with (rsum n (fun k => lam k * b)) by (rewrite rsum_scale_r, S; ring). apply rsum_le. intros k Hk. apply Rmult_le_compat_l; [apply P|apply H, Hk].
Qed.
Lemma displaced_null f s world q : core f s -> ShapeSpec.solid s -> world = true \/ ~ edge_plane s q -> displaced s world q vzero = vzero.
Proof.
  intros C So H. unfold displaced. destruct world; [reflexivity|]. destruct H as [H|H]; [discriminate|].
  destruct (gl_reach _ _ (co_good _ _ C)) as (k & Re). destruct (reach_good k s Re) as (Fr & Sz & _).
  replace (vadd (toLocalCoord s q) _) with (toLocalCoord s q).
  - rewrite world_local_world by assumption. unfold vsub, vzero. f_equal; ring.
  - destruct (toLocalCoord s q) as [x y z]. unfold vadd, vzero. cbn [vx vy vz]. unfold Rdiv. f_equal; ring.
Qed.

(** ** Clamped directions *)
Lemma clamped_spaced f s : all_clamped s -> spaced f s.
Proof. intros Cl d Hd [X|X]; rewrite (Cl d Hd) in X; discriminate. Qed.
Lemma clamped_form f s q : core f s -> ShapeSpec.solid s -> all_clamped s -> positive_weights f -> in_box s q ->
  exists k, (forall d, (d < 3)%nat -> in_span (knot f s d) (k d) (vent (toLocalCoord s q) d) /\ (0 <= k d)%Z /\ (1 <= degree f d < points f d)%nat /\
      (forall a, 0 <= bspline (knot f s d) (k d) (degree f d) (Z.of_nat a) (vent (toLocalCoord s q) d)) /\
      rsum (points f d) (fun a => bspline (knot f s d) (k d) (degree f d) (Z.of_nat a) (vent (toLocalCoord s q) d)) = 1) /\
    forall w D y world m, length D = nodes f -> node_values f (f_weights f) w -> node_values f D y ->
      (forall i, (i < 3)%nat -> vent m i = weighted_mean (points f) (fun d a => bspline (knot f s d) (k d) (degree f d) (Z.of_nat a) (vent (toLocalCoord s q) d)) w (fun a b c => vent (y a b c) i)) ->
      evaluates f s D world q m.
Proof.
  intros C So Cl Wp I.
  destruct (clamped_dir f s q C So Cl I 0 ltac:(lia)) as (k0 & S0 & K0 & De0 & L0 & _ & O0). destruct (clamped_dir f s q C So Cl I 1 ltac:(lia)) as (k1 & S1 & K1 & De1 & L1 & _ & O1). destruct (clamped_dir f s q C So Cl I 2 ltac:(lia)) as (k2 & S2 & K2 & De2 & L2 & _ & O2).
  exists (fun d => match d with 0%nat => k0 | 1%nat => k1 | _ => k2 end). split.
  - assert (K : forall d c x N, one_dir c d x N -> length (c_nodes c) = d -> (forall a, 0 <= N a) /\ rsum d N = 1) by (intros d c x N [P S _ _] Ln; rewrite Ln in S; split; assumption).
    intros d Hd. destruct d as [|[|[|d]]]; try lia; (split; [assumption|split; [assumption|split; [assumption|eapply K; eassumption]]]).
  - intros w D y world m LD Hw Hy M f' L Ed Eg. subst D world.
    refine (clamped_evaluate f s q C So Cl I Wp _ _ f' w y L LD Hw Hy m M).
    intros d Hd. destruct d as [|[|[|d]]]; try lia; assumption.
Qed.

(** the sums when one node has all the share *)
Lemma mean_one n N w y a b c : (a < n 0%nat)%nat -> (b < n 1%nat)%nat -> (c < n 2%nat)%nat -> w a b c <> 0 ->
  (forall i, (i < n 0)%nat -> N 0%nat i = if Nat.eqb a i then 1 else 0) -> (forall i, (i < n 1)%nat -> N 1%nat i = if Nat.eqb b i then 1 else 0) -> (forall i, (i < n 2)%nat -> N 2%nat i = if Nat.eqb c i then 1 else 0) ->
  weighted_mean n N w y = y a b c.
Proof.
  intros Ha Hb Hc W N0 N1 N2.
  assert (K : forall F : nat -> nat -> nat -> R, rsum (n 0%nat) (fun i => rsum (n 1%nat) (fun j => rsum (n 2%nat) (fun k => N 0%nat i * N 1%nat j * N 2%nat k * F i j k))) = F a b c).
  { intros F. rewrite (rsum_ext _ _ (fun i => if Nat.eqb a i then F a b c else 0)).
    - apply (rsum_pick (n 0%nat) a (fun _ => F a b c) Ha).
    - intros i Hi. rewrite N0 by exact Hi. destruct (Nat.eqb_spec a i) as [<-|_].
      + rewrite (rsum_ext _ _ (fun j => if Nat.eqb b j then F a b c else 0)).
        * apply (rsum_pick (n 1%nat) b (fun _ => F a b c) Hb).
        * intros j Hj. rewrite N1 by exact Hj. destruct (Nat.eqb_spec b j) as [<-|_].
          -- rewrite (rsum_ext _ _ (fun k => if Nat.eqb c k then F a b c else 0)).
             ++ apply (rsum_pick (n 2%nat) c (fun _ => F a b c) Hc).
             ++ intros k Hk. rewrite N2 by exact Hk. destruct (Nat.eqb_spec c k) as [<-|_]; ring.
          -- rewrite (rsum_ext _ _ (fun _ => 0)); [apply rsum_zero; reflexivity|]. intros k _. ring.
      + rewrite (rsum_ext _ _ (fun _ => 0)); [apply rsum_zero; reflexivity|]. intros j _. rewrite (rsum_ext _ _ (fun _ => 0)); [apply rsum_zero; reflexivity|]. intros k _. ring. }
  unfold weighted_mean. rewrite (K w).
  rewrite (rsum_ext _ _ (fun i => rsum (n 1%nat) (fun j => rsum (n 2%nat) (fun k => N 0%nat i * N 1%nat j * N 2%nat k * (w i j k * y i j k))))).
  - rewrite (K (fun i j k => w i j k * y i j k)). field. exact W.
  - intros i _. apply rsum_ext. intros j _. apply rsum_ext. intros k _. ring.
Qed.

(** the values of a list on the grid *)
Lemma dof_range f s t d : core f s -> point_index (f_mesh f) t -> dof (f_lat f) t d -> (0 <= d < getNNodes (f_lat f))%Z.
Proof.
  intros C P Dt. destruct t as [[i j] k]. pose proof (api_range (f_mesh f) _ P) as [Rg _]. unfold dof in Dt.
  destruct (numbers (f_lat f) s (co_good _ _ C)) as (_ & Nu & _). destruct (Nu _ Rg) as (d' & E & Rd). unfold api, f_mesh in E. rewrite E in Dt. injection Dt as <-. exact Rd.
Qed.
Lemma values_exist {A} f s (v : list A) (x0 : A) : core f s -> length v = nodes f -> exists F, node_values f v F.
Proof.
  intros C L. exists (fun a b c => match accessDOFFromGrid (f_lat f) (accessPointIndex (f_mesh f) (Z.of_nat a) (Z.of_nat b) (Z.of_nat c)) with Some d => nth (Z.to_nat d) v x0 | None => x0 end).
  intros a b c d P Dt. pose proof (dof_range f s _ d C P Dt) as Rd. unfold dof in Dt. unfold f_mesh. rewrite Dt. apply zget_nth. unfold nodes in L. lia.
Qed.
Lemma node_exists f s t : core f s -> point_index (f_mesh f) t -> exists d, dof (f_lat f) t d.
Proof.
  intros C P. destruct t as [[i j] k]. pose proof (api_range (f_mesh f) _ P) as [Rg _].
  destruct (numbers (f_lat f) s (co_good _ _ C)) as (_ & Nu & _). destruct (Nu _ Rg) as (d' & E & Rd). exists d'. exact E.
Qed.
Lemma values_positive f s w : core f s -> positive_weights f -> node_values f (f_weights f) w ->
  forall a b c, point_index (f_mesh f) (Z.of_nat a, Z.of_nat b, Z.of_nat c) -> 0 < w a b c.
Proof.
  intros C Wp H a b c P. destruct (node_exists f s _ C P) as (d & Dt). pose proof (H a b c d P Dt) as Z.
  unfold zget in Z. destruct (Z.ltb d 0); [discriminate|]. apply nth_error_In in Z. unfold positive_weights in Wp. rewrite Forall_forall in Wp. apply Wp, Z.
Qed.
Lemma grid_point f a b c : (1 <= points f 0)%nat -> (1 <= points f 1)%nat -> (1 <= points f 2)%nat -> (a < points f 0)%nat -> (b < points f 1)%nat -> (c < points f 2)%nat -> point_index (f_mesh f) (Z.of_nat a, Z.of_nat b, Z.of_nat c).
Proof. unfold points. intros P0 P1 P2 A B Cc i Hi. destruct i as [|[|[|i]]]; try lia; cbn [MeshSpec.comp]; lia. Qed.

(** ** Corners *)
Definition end_node (f : ffd) (hi : nat -> bool) (d : nat) : nat := if hi d then (points f d - 1)%nat else 0%nat.
Lemma corner f s q (hi : nat -> bool) : core f s -> ShapeSpec.solid s -> all_clamped s -> positive_weights f -> in_box s q ->
  (forall d, (d < 3)%nat -> vent (toLocalCoord s q) d = if hi d then vent (getLocalOrigin s) d + vent (s_span s) d else vent (getLocalOrigin s) d) ->
  forall D world n v, length D = nodes f -> dof (f_lat f) (Z.of_nat (end_node f hi 0), Z.of_nat (end_node f hi 1), Z.of_nat (end_node f hi 2)) n -> zget D n = Some v ->
  evaluates f s D world q v.
Proof.
  intros C So Cl Wp I Q D world n v LD Dn Zn. destruct (clamped_form f s q C So Cl Wp I) as (k & Kd & Ev).
  destruct (values_exist f s (f_weights f) 0 C (co_weights _ _ C)) as (w & Hw). destruct (values_exist f s D vzero C LD) as (y & Hy).
  assert (En : forall d, (d < 3)%nat -> (end_node f hi d < points f d)%nat).
  { intros d Hd. destruct (Kd d Hd) as (_ & _ & De & _). unfold end_node. destruct (hi d); lia. }
  assert (Pt : point_index (f_mesh f) (Z.of_nat (end_node f hi 0), Z.of_nat (end_node f hi 1), Z.of_nat (end_node f hi 2))).
  { pose proof (En 0%nat ltac:(lia)). pose proof (En 1%nat ltac:(lia)). pose proof (En 2%nat ltac:(lia)). apply grid_point; lia. }
  assert (Yv : y (end_node f hi 0) (end_node f hi 1) (end_node f hi 2) = v). { pose proof (Hy _ _ _ _ Pt Dn) as X. rewrite Zn in X. injection X as X. symmetry. exact X. }
  destruct (gl_reach _ _ (co_good _ _ C)) as (kk & Re).
  assert (One : forall d, (d < 3)%nat -> forall i, (i < points f d)%nat ->
    bspline (knot f s d) (k d) (degree f d) (Z.of_nat i) (vent (toLocalCoord s q) d) = if Nat.eqb (end_node f hi d) i then 1 else 0).
  { intros d Hd. destruct (Kd d Hd) as (Sp & _ & De & P & S). destruct (span_pos kk s d Re So Hd) as [W _].
    assert (X : bspline (knot f s d) (k d) (degree f d) (Z.of_nat (end_node f hi d)) (vent (toLocalCoord s q) d) = 1).
    { rewrite (Q d Hd) in *. unfold end_node. destruct (hi d).
      - apply (at_last (points f d) (degree f d) _ _ De W). exact Sp.
      - apply (at_first (points f d) (degree f d) _ _ De W). exact Sp. }
    intros i Hi. destruct (Nat.eqb_spec (end_node f hi d) i) as [<-|Ne]; [exact X|].
    apply (only_one (points f d) _ (end_node f hi d) (En d Hd) P S X i Hi). intros E. apply Ne. symmetry. exact E. }
  apply (Ev w D y world v LD Hw Hy). intros i Hi. rewrite <- Yv. symmetry.
  refine (mean_one (points f) (fun d a => bspline (knot f s d) (k d) (degree f d) (Z.of_nat a) (vent (toLocalCoord s q) d)) w (fun a b c => vent (y a b c) i) _ _ _ (En 0%nat ltac:(lia)) (En 1%nat ltac:(lia)) (En 2%nat ltac:(lia)) _ (One 0%nat ltac:(lia)) (One 1%nat ltac:(lia)) (One 2%nat ltac:(lia))).
  pose proof (values_positive f s w C Wp Hw _ _ _ Pt). lra.
Qed.

(** ** Bezier *)
Lemma bezier f s q : core f s -> ShapeSpec.solid s -> all_clamped s -> positive_weights f -> in_box s q ->
  (forall d, (d < 3)%nat -> points f d = S (degree f d)) ->
  forall w D y world m, length D = nodes f -> node_values f (f_weights f) w -> node_values f D y ->
    (forall i, (i < 3)%nat -> vent m i = weighted_mean (points f)
       (fun d a => bernstein (degree f d) a ((vent (toLocalCoord s q) d - vent (getLocalOrigin s) d) / vent (s_span s) d)) w (fun a b c => vent (y a b c) i)) ->
    evaluates f s D world q m.
Proof.
  intros C So Cl Wp I Dp w D y world m LD Hw Hy M. destruct (clamped_form f s q C So Cl Wp I) as (k & Kd & Ev).
  destruct (gl_reach _ _ (co_good _ _ C)) as (kk & Re).
  assert (B : forall d, (d < 3)%nat -> forall a, (a < points f d)%nat ->
    bernstein (degree f d) a ((vent (toLocalCoord s q) d - vent (getLocalOrigin s) d) / vent (s_span s) d) = bspline (knot f s d) (k d) (degree f d) (Z.of_nat a) (vent (toLocalCoord s q) d)).
  { intros d Hd a Ha. destruct (Kd d Hd) as (Sp & K0 & De & _). destruct (span_pos kk s d Re So Hd) as [W _]. pose proof (Dp d Hd) as E. unfold knot in *. rewrite E in *.
    rewrite (bezier_span _ _ _ _ (k d) Sp K0). symmetry. apply bezier_basis; [exact W|lia]. }
  apply (Ev w D y world m LD Hw Hy). intros i Hi. rewrite M by exact Hi. unfold weighted_mean.
  assert (K : forall a b c d : R, a = c -> b = d -> a / b = c / d) by congruence.
  apply K; apply rsum_ext; intros a Ha; apply rsum_ext; intros b Hb; apply rsum_ext; intros c Hc; rewrite !B by (assumption || lia); reflexivity.
Qed.
