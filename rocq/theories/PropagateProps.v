(** Properties of the propagation of fields: C110 scalars, C111 vectors, C112 damping, C113 conditions. *)
From Coq Require Import Reals List Arith Bool Lia Lra ClassicalChoice Classical.
From Verif Require Import Vec Propagate PropagateSpec PropagateProofs.
Import ListNotations.
Open Scope R_scope.

(** ** A mesh for the examples: three vertices in a row *)
Definition row3 : mesh := Mesh [0; 1; 2]%nat (fun i => match i with 0 => [1] | 1 => [0; 2] | 2 => [1] | _ => [] end%nat).
Definition row_pos (i : nat) : vec := V3 (INR i) 0 0.
Lemma row_sound : sound_mesh (g_verts row3) (g_link row3) row_pos (fun _ => 1).
Proof.
  split.
  - intros i j Hi Hj. simpl in Hi. destruct Hi as [<- | [<- | [<- | []]]]; simpl in Hj; simpl; tauto.
  - intros i j Hi Hj E. unfold row_pos in E. inversion E as [H]. apply INR_eq in H. subst.
    simpl in Hi. destruct Hi as [<- | [<- | [<- | []]]]; simpl in Hj; repeat (destruct Hj as [Hj | Hj]; [discriminate |]); contradiction.
  - intros. lra.
Qed.
Lemma row_tied : forall A (bc : nat -> option A), bc 0%nat <> None -> forall i, In i (g_verts row3) -> tied (g_link row3) bc i.
Proof.
  intros A bc H. assert (T0 : tied (g_link row3) bc 0%nat) by (apply tied_here; exact H).
  assert (T1 : tied (g_link row3) bc 1%nat) by (apply tied_link with 0%nat; [left; reflexivity | exact T0]).
  intros i Hi. simpl in Hi. destruct Hi as [<- | [<- | [<- | []]]]; try assumption. apply tied_link with 1%nat; [left; reflexivity | exact T1].
Qed.
(** there are solvers as the theorems ask *)
Example C110_nonvacuous_solver : exists solve, correct_solver solve.
Proof.
  destruct (choice (fun (p : list nat * (nat -> list (nat * R)) * (nat -> R)) x => (exists y, solves (fst (fst p)) (snd (fst p)) (snd p) y) -> solves (fst (fst p)) (snd (fst p)) (snd p) x)) as [f H].
  - intros p. destruct (classic (exists y, solves (fst (fst p)) (snd (fst p)) (snd p) y)) as [[y Hy] | N]; [exists y; intros _; exact Hy | exists (fun _ => 0); intros K; contradiction].
  - exists (fun ids a b => f (ids, a, b)). intros ids a b K. exact (H (ids, a, b) K).
Qed.

(** ** C110 *)
Lemma relaxation : forall r, 0 < r -> setRelaxation r = Rmin r 1.
Proof. intros r H. unfold setRelaxation. apply Rmax_right. apply Rmin_glb; lra. Qed.
Lemma relaxation_pos : forall r, 0 < r -> 0 < Rmin r 1.
Proof. intros r H. apply Rmin_glb_lt; lra. Qed.
Lemma multistep : forall n, (1 <= setMultiStep n)%nat.
Proof. intros n. unfold setMultiStep. lia. Qed.
(** The field has the values of the conditions and is in equilibrium elsewhere, and it is the only one. *)
Theorem C110_equilibrium : forall solve g pos diff band r bc n,
  correct_solver solve -> sound_mesh (g_verts g) (g_link g) pos diff -> 0 < r ->
  (forall i, In i (g_verts g) -> tied (g_link g) bc i) ->
  let u := scalar_execute solve g pos diff band (setRelaxation r) bc (setMultiStep n) in
  equilibrium (g_verts g) (g_link g) (pull pos diff band (Rmin r 1)) bc u
  /\ forall v, equilibrium (g_verts g) (g_link g) (pull pos diff band (Rmin r 1)) bc v -> forall i, In i (g_verts g) -> u i = v i.
Proof.
  intros solve g pos diff band r bc n Hs M Hr T u. pose proof (relaxation_pos r Hr) as P.
  assert (E : equilibrium (g_verts g) (g_link g) (pull pos diff band (Rmin r 1)) bc u) by (unfold u; rewrite relaxation by exact Hr; apply scalar_equilibrium; [exact Hs | exact M | exact P | apply multistep]).
  split; [exact E |]. intros v Hv. apply (unique (g_verts g) (g_link g) (pull pos diff band (Rmin r 1)) (links_within _ _ _ _ M) (pull_pos _ _ pos diff band (Rmin r 1) M P) bc); assumption.
Qed.
Print Assumptions C110_equilibrium.

(** It stays within the values of the conditions. *)
Theorem C110_bounds : forall solve g pos diff band r bc n lo hi,
  correct_solver solve -> sound_mesh (g_verts g) (g_link g) pos diff -> 0 < r ->
  (forall i, In i (g_verts g) -> tied (g_link g) bc i) ->
  (forall i b, In i (g_verts g) -> bc i = Some b -> lo <= b <= hi) ->
  forall i, In i (g_verts g) -> lo <= scalar_execute solve g pos diff band (setRelaxation r) bc (setMultiStep n) i <= hi.
Proof.
  intros solve g pos diff band r bc n lo hi Hs M Hr T B. pose proof (relaxation_pos r Hr) as P.
  apply (bounds (g_verts g) (g_link g) (pull pos diff band (Rmin r 1)) (links_within _ _ _ _ M) (pull_pos _ _ pos diff band (Rmin r 1) M P) bc); [exact T | exact B |].
  apply (C110_equilibrium solve g pos diff band r bc n Hs M Hr T).
Qed.
Print Assumptions C110_bounds.

(** Greater conditions give a greater field. *)
Theorem C110_monotone : forall solve g pos diff band r bc bd n m,
  correct_solver solve -> sound_mesh (g_verts g) (g_link g) pos diff -> 0 < r ->
  (forall i, In i (g_verts g) -> tied (g_link g) bc i) ->
  (forall i, In i (g_verts g) -> match bc i, bd i with Some a, Some b => a <= b | None, None => True | _, _ => False end) ->
  forall i, In i (g_verts g) ->
    scalar_execute solve g pos diff band (setRelaxation r) bc (setMultiStep n) i <= scalar_execute solve g pos diff band (setRelaxation r) bd (setMultiStep m) i.
Proof.
  intros solve g pos diff band r bc bd n m Hs M Hr T B. pose proof (relaxation_pos r Hr) as P. rewrite relaxation by exact Hr.
  apply (comparison (g_verts g) (g_link g) (pull pos diff band (Rmin r 1)) (links_within _ _ _ _ M) (pull_pos _ _ pos diff band (Rmin r 1) M P) bc bd); [exact T | exact B | |];
    apply scalar_equilibrium; try assumption; apply multistep.
Qed.
Print Assumptions C110_monotone.

(** Fields for combined conditions are combined; the number of steps is irrelevant. *)
Theorem C110_superposition : forall solve g pos diff band r (bc bd be : nat -> option R) a b n m k,
  correct_solver solve -> sound_mesh (g_verts g) (g_link g) pos diff -> 0 < r ->
  (forall i, In i (g_verts g) -> tied (g_link g) bc i) ->
  (forall i, In i (g_verts g) -> match bc i, bd i, be i with Some x, Some y, Some z => z = a * x + b * y | None, None, None => True | _, _, _ => False end) ->
  forall i, In i (g_verts g) ->
    scalar_execute solve g pos diff band (setRelaxation r) be (setMultiStep k) i
    = a * scalar_execute solve g pos diff band (setRelaxation r) bc (setMultiStep n) i + b * scalar_execute solve g pos diff band (setRelaxation r) bd (setMultiStep m) i.
Proof.
  intros solve g pos diff band r bc bd be a b n m k Hs M Hr T B i Hi. pose proof (relaxation_pos r Hr) as P. rewrite relaxation by exact Hr.
  pose proof (scalar_equilibrium solve g pos diff band (Rmin r 1) bc _ Hs M P (multistep n)) as U.
  pose proof (scalar_equilibrium solve g pos diff band (Rmin r 1) bd _ Hs M P (multistep m)) as V.
  pose proof (scalar_equilibrium solve g pos diff band (Rmin r 1) be _ Hs M P (multistep k)) as W.
  set (u := scalar_execute solve g pos diff band (Rmin r 1) bc (setMultiStep n)) in *. set (v := scalar_execute solve g pos diff band (Rmin r 1) bd (setMultiStep m)) in *.
  apply (unique (g_verts g) (g_link g) (pull pos diff band (Rmin r 1)) (links_within _ _ _ _ M) (pull_pos _ _ pos diff band (Rmin r 1) M P) bc (fun i => scalar_execute solve g pos diff band (Rmin r 1) be (setMultiStep k) i - (a - 1) * u i - b * v i) u T) with (i := i) in U; [lra | | exact Hi].
  intros q Hq. specialize (B q Hq). specialize (U q Hq). specialize (V q Hq). specialize (W q Hq).
  destruct (bc q), (bd q), (be q); try contradiction; [rewrite U, V, W; lra |].
  set (w := scalar_execute solve g pos diff band (Rmin r 1) be (setMultiStep k)) in *. set (p := pull pos diff band (Rmin r 1)) in *.
  rewrite (total_ext _ (fun j => (p q j * (w j - w q) + (1 - a) * (p q j * (u j - u q))) + (- b) * (p q j * (v j - v q)))) by (intros; ring).
  rewrite !total_plus, !total_scale, U, V, W. ring.
Qed.
Print Assumptions C110_superposition.
Theorem C110_steps : forall solve g pos diff band r bc n m,
  correct_solver solve -> sound_mesh (g_verts g) (g_link g) pos diff -> 0 < r ->
  (forall i, In i (g_verts g) -> tied (g_link g) bc i) ->
  forall i, In i (g_verts g) ->
    scalar_execute solve g pos diff band (setRelaxation r) bc (setMultiStep n) i = scalar_execute solve g pos diff band (setRelaxation r) bc (setMultiStep m) i.
Proof.
  intros solve g pos diff band r bc n m Hs M Hr T. apply (C110_equilibrium solve g pos diff band r bc n Hs M Hr T). apply (C110_equilibrium solve g pos diff band r bc m Hs M Hr T).
Qed.
Print Assumptions C110_steps.

(** In a row of three vertices the field is linear. *)
Definition ends (a b : R) (i : nat) : option R := match i with 0%nat => Some a | 2%nat => Some b | _ => None end.
Example C110_nonvacuous : forall solve, correct_solver solve ->
  sound_mesh (g_verts row3) (g_link row3) row_pos (fun _ => 1) /\ (forall i, In i (g_verts row3) -> tied (g_link row3) (ends 1 4) i)
  /\ scalar_execute solve row3 row_pos (fun _ => 1) (fun _ => None) (setRelaxation 1) (ends 1 4) (setMultiStep 3) 1%nat = 5 / 2.
Proof.
  intros solve Hs. assert (T : forall i, In i (g_verts row3) -> tied (g_link row3) (ends 1 4) i) by (apply row_tied; discriminate).
  split; [exact row_sound |]. split; [exact T |].
  destruct (C110_equilibrium solve row3 row_pos (fun _ => 1) (fun _ => None) 1 (ends 1 4) 3 Hs row_sound Rlt_0_1 T) as [E _].
  pose proof (E 0%nat (or_introl eq_refl)) as E0. pose proof (E 1%nat (or_intror (or_introl eq_refl))) as E1. pose proof (E 2%nat (or_intror (or_intror (or_introl eq_refl)))) as E2.
  set (u := scalar_execute _ _ _ _ _ _ _ _) in *. cbn [ends] in E0, E1, E2. cbn [total g_link row3] in E1. rewrite E0, E2 in E1.
  unfold pull, square_distance, row_pos in E1. simpl in E1. lra.
Qed.

(** With a relaxation of zero, allowed, the field may not be determined: the system has two solutions. *)
Theorem C110_relaxation_refuted : exists g pos diff band bc u v,
  sound_mesh (g_verts g) (g_link g) pos diff /\ (forall i, In i (g_verts g) -> tied (g_link g) bc i)
  /\ solves (g_verts g) (matrix bc (rows_of g pos diff band (setRelaxation 0))) (rhs bc (rows_of g pos diff band (setRelaxation 0))) u
  /\ solves (g_verts g) (matrix bc (rows_of g pos diff band (setRelaxation 0))) (rhs bc (rows_of g pos diff band (setRelaxation 0))) v
  /\ exists i, In i (g_verts g) /\ u i <> v i.
Proof.
  set (bc := fun i : nat => match i with 0%nat => Some 0 | _ => None end).
  set (band := fun i : nat => match i with 2%nat => Some 0 | 1%nat => Some 1 | _ => None end).
  assert (K : forall t, solves (g_verts row3) (matrix bc (rows_of row3 row_pos (fun _ => 1) band (setRelaxation 0))) (rhs bc (rows_of row3 row_pos (fun _ => 1) band (setRelaxation 0)))
    (fun i => match i with 0%nat => 0 | 1%nat => t / 2 | _ => t end)).
  { intros t. apply assembled_value with (coefficient row3 row_pos (fun _ => 1) band (setRelaxation 0)); [intros i Hi y; apply rows_value |].
    apply coefficient_pull; [exact row_sound |]. assert (Z : setRelaxation 0 = 0) by (unfold setRelaxation, Rmin, Rmax; repeat destruct (Rle_dec _ _); lra). rewrite Z.
    intros i Hi. simpl in Hi. destruct Hi as [<- | [<- | [<- | []]]]; cbn [bc total g_link row3]; [reflexivity | |];
      unfold pull, square_distance, row_pos, band; simpl; repeat destruct (Rlt_dec _ _); try lra. }
  exists row3, row_pos, (fun _ => 1), band, bc, (fun i => match i with 0%nat => 0 | 1%nat => 0 / 2 | _ => 0 end), (fun i => match i with 0%nat => 0 | 1%nat => 1 / 2 | _ => 1 end).
  split; [exact row_sound |]. split; [apply row_tied; discriminate |]. split; [apply K |]. split; [apply K |].
  exists 2%nat. split; [simpl; tauto | lra].
Qed.
Print Assumptions C110_relaxation_refuted.

(** Without conditions, of which the code only warns, every constant field solves the system. *)
Theorem C110_no_conditions_refuted : forall g pos diff band relax k,
  sound_mesh (g_verts g) (g_link g) pos diff ->
  solves (g_verts g) (matrix (fun _ => None) (rows_of g pos diff band relax)) (rhs (fun _ => None) (rows_of g pos diff band relax)) (fun _ => k).
Proof.
  intros g pos diff band relax k M. apply assembled_value with (coefficient g pos diff band relax); [intros i Hi y; apply rows_value |].
  intros i Hi. rewrite (total_ext _ (fun _ => 0)) by (intros; ring). apply total_zero.
Qed.
Print Assumptions C110_no_conditions_refuted.

(** ** C111 *)
(** One step: each component is in equilibrium, and the mesh is left as it was. *)
Theorem C111_one_step : forall solve g diff band relax thres bc s pos,
  correct_solver solve -> sound_mesh (g_verts g) (g_link g) pos (diff pos) -> (forall p i, In i (g_verts g) -> 0 < diff p i) -> 0 < relax -> s_verts s = [] ->
  exists field, vector_execute solve g diff band relax thres (setMultiStep 1) bc s pos = Some (field, pos)
    /\ forall c, component c -> equilibrium (g_verts g) (g_link g) (pull pos (diff pos) (band pos) relax) (part c (prescribed bc (s_periodic s))) (fun i => c (field i)).
Proof. intros solve g diff band relax thres bc s pos Hs M D Hr E. apply one_step; [exact Hs | exact (links_within _ _ _ _ M) | exact D | exact Hr | exact E | exact (links_apart _ _ _ _ M)]. Qed.
Print Assumptions C111_one_step.
(** Any number of steps, the mesh moving in between: the field has the values prescribed, its components stay within
    those prescribed, and the mesh is at the end as it was. *)
Theorem C111_steps : forall solve g diff band relax thres n bc s pos lo hi,
  correct_solver solve -> (forall i j, In i (g_verts g) -> In j (g_link g i) -> In j (g_verts g)) ->
  (forall p i, In i (g_verts g) -> 0 < diff p i) -> 0 < relax -> s_verts s = [] ->
  (forall i, In i (g_verts g) -> tied (g_link g) (prescribed bc (s_periodic s)) i) ->
  (forall i b, In i (g_verts g) -> prescribed bc (s_periodic s) i = Some b -> within lo hi b) ->
  roomy (g_verts g) (g_link g) pos lo hi ->
  exists field, vector_execute solve g diff band relax thres (setMultiStep n) bc s pos = Some (field, pos)
    /\ forall i, In i (g_verts g) -> within lo hi (field i) /\ forall b, prescribed bc (s_periodic s) i = Some b -> field i = b.
Proof. intros. apply vector_steps; try assumption. apply multistep. Qed.
Print Assumptions C111_steps.
(** If all that is prescribed is the same translation, everything is translated. *)
Theorem C111_translation : forall solve g diff band relax thres n bc s pos v,
  correct_solver solve -> (forall i j, In i (g_verts g) -> In j (g_link g i) -> In j (g_verts g) /\ pos i <> pos j) ->
  (forall p i, In i (g_verts g) -> 0 < diff p i) -> 0 < relax -> s_verts s = [] ->
  (forall i, In i (g_verts g) -> tied (g_link g) (prescribed bc (s_periodic s)) i) ->
  (forall i b, In i (g_verts g) -> prescribed bc (s_periodic s) i = Some b -> b = v) ->
  exists field, vector_execute solve g diff band relax thres (setMultiStep n) bc s pos = Some (field, pos) /\ forall i, In i (g_verts g) -> field i = v.
Proof.
  intros solve g diff band relax thres n bc s pos v Hs W D Hr Es T B.
  destruct (C111_steps solve g diff band relax thres n bc s pos v v Hs (fun i j Hi Hj => proj1 (W i j Hi Hj)) D Hr Es T) as [field [E F]].
  - intros i b Hi Hb. rewrite (B i b Hi Hb). intros c Hc. lra.
  - intros i j Hi Hj. destruct (W i j Hi Hj) as [_ N].
    destruct (Req_dec (vx (pos i)) (vx (pos j))) as [X | X]; [| exists vx; split; [left; reflexivity |]; rewrite Rminus_diag_eq by reflexivity; apply Rabs_pos_lt; lra].
    destruct (Req_dec (vy (pos i)) (vy (pos j))) as [Y | Y]; [| exists vy; split; [right; left; reflexivity |]; rewrite Rminus_diag_eq by reflexivity; apply Rabs_pos_lt; lra].
    destruct (Req_dec (vz (pos i)) (vz (pos j))) as [Z | Z]; [| exists vz; split; [right; right; reflexivity |]; rewrite Rminus_diag_eq by reflexivity; apply Rabs_pos_lt; lra].
    exfalso. apply N. destruct (pos i), (pos j); simpl in *; congruence.
  - exists field. split; [exact E |]. intros i Hi. apply component_ext. intros c Hc. destruct (F i Hi) as [F1 _]. specialize (F1 c Hc). lra.
Qed.
Print Assumptions C111_translation.
(** Walls slipping on a plane with a unit normal: where nothing is prescribed their vertices end at the feet, on the plane, of
    where they would have gone; the rest is in equilibrium. *)
Theorem C111_slip_plane_partial : forall solve g diff band relax thres bc walls q n periodic pos,
  correct_solver solve -> sound_mesh (g_verts g) (g_link g) pos (diff pos) -> (forall p i, In i (g_verts g) -> 0 < diff p i) -> 0 < relax -> walls <> [] -> dot n n = 1 ->
  exists guess field, vector_execute solve g diff band relax thres 1 bc (Slip walls (Plane q n) periodic) pos = Some (field, pos)
    /\ (forall c, component c -> equilibrium (g_verts g) (g_link g) (pull pos (diff pos) (band pos) relax) (part c (prescribed bc periodic)) (fun i => c (guess i)))
    /\ (forall c, component c -> equilibrium (g_verts g) (g_link g) (pull pos (diff pos) (band pos) relax)
          (fun i => match prescribed bc periodic i with Some b => Some (c b) | None => if in_dec Nat.eq_dec i walls then Some (c (field i)) else None end) (fun i => c (field i)))
    /\ forall i, In i (g_verts g) -> In i walls -> prescribed bc periodic i = None -> foot q n (vadd (pos i) (guess i)) (vadd (pos i) (field i)).
Proof.
  intros solve g diff band relax thres bc walls q n periodic pos Hs M D Hr Hw Hn.
  destruct (slip_step solve g diff band relax thres Hs (links_within _ _ _ _ M) D Hr bc (Slip walls (Plane q n) periodic) pos (fun p => projectPointPlane p q n) Hw (links_apart _ _ _ _ M)) as [guess [field [E [A [B C]]]]].
  - intros guess. eexists. split; [reflexivity |]. intros i. reflexivity.
  - exists guess, field. split; [exact E |]. split; [exact A |]. split; [exact B |]. intros i Hi Hj Hp. rewrite (C i Hi Hj Hp). apply project_foot. exact Hn.
Qed.
Print Assumptions C111_slip_plane_partial.
(** Walls slipping on a surface: the same with the projections on it, if it has as many vertices as the walls. *)
Theorem C111_slip_surface_partial : forall solve g diff band relax thres bc walls project periodic pos,
  correct_solver solve -> sound_mesh (g_verts g) (g_link g) pos (diff pos) -> (forall p i, In i (g_verts g) -> 0 < diff p i) -> 0 < relax -> walls <> [] ->
  exists guess field, vector_execute solve g diff band relax thres 1 bc (Slip walls (Surface (length walls) project) periodic) pos = Some (field, pos)
    /\ (forall c, component c -> equilibrium (g_verts g) (g_link g) (pull pos (diff pos) (band pos) relax) (part c (prescribed bc periodic)) (fun i => c (guess i)))
    /\ (forall c, component c -> equilibrium (g_verts g) (g_link g) (pull pos (diff pos) (band pos) relax)
          (fun i => match prescribed bc periodic i with Some b => Some (c b) | None => if in_dec Nat.eq_dec i walls then Some (c (field i)) else None end) (fun i => c (field i)))
    /\ forall i, In i (g_verts g) -> In i walls -> prescribed bc periodic i = None -> vadd (pos i) (field i) = project (vadd (pos i) (guess i)).
Proof.
  intros solve g diff band relax thres bc walls project periodic pos Hs M D Hr Hw.
  apply (slip_step solve g diff band relax thres Hs (links_within _ _ _ _ M) D Hr bc (Slip walls (Surface (length walls) project) periodic) pos project Hw (links_apart _ _ _ _ M)).
  intros guess. unfold corrector. simpl. rewrite Nat.eqb_refl. eexists. split; [reflexivity |]. intros i. reflexivity.
Qed.
Print Assumptions C111_slip_surface_partial.
(** A reference surface with another number of vertices: memory is read out of bounds. *)
Theorem C111_slip_surface_refuted : forall solve g diff band relax thres n bc walls count project periodic pos,
  walls <> [] -> count <> length walls -> vector_execute solve g diff band relax thres (setMultiStep n) bc (Slip walls (Surface count project) periodic) pos = None.
Proof.
  intros solve g diff band relax thres n bc walls count project periodic pos Hw Hc.
  assert (K : forall rows b p, vector_step solve g rows b (Slip walls (Surface count project) periodic) p = None).
  { intros rows b p. unfold vector_step, corrector. simpl. destruct walls as [| w r]; [contradiction |]. apply Nat.eqb_neq in Hc. rewrite Hc. reflexivity. }
  unfold vector_execute. destruct (Nat.ltb 1 (setMultiStep n)); [| rewrite K; reflexivity].
  pose proof (multistep n) as Q. destruct (setMultiStep n); [lia |]. cbn [vector_loop]. rewrite K. reflexivity.
Qed.
Print Assumptions C111_slip_surface_refuted.
(** The normal of the plane is the average of those of the cells, no longer of length one if they differ: the walls are
    then off the plane. *)
Definition push (i : nat) : option vec := match i with 0%nat => Some (V3 1 0 0) | _ => None end.
Theorem C111_slip_normal_refuted : forall solve, correct_solver solve -> exists points normals q n field,
  (forall v, In v normals -> dot v v = 1) /\ slip_plane points normals = Plane q n
  /\ vector_execute solve row3 (fun _ _ => 1) (fun _ _ => None) 1 0 1 push (Slip [2%nat] (slip_plane points normals) []) row_pos = Some (field, row_pos)
  /\ ~ on_plane q n (vadd (row_pos 2%nat) (field 2%nat)).
Proof.
  intros solve Hs. exists [V3 0 0 0], [V3 1 0 0; V3 0 1 0], (V3 0 0 0), (V3 (1 / 2) (1 / 2) 0).
  assert (P : slip_plane [V3 0 0 0] [V3 1 0 0; V3 0 1 0] = Plane (V3 0 0 0) (V3 (1 / 2) (1 / 2) 0)).
  { unfold slip_plane, average, sum3, vadd, vscale, vzero. simpl. f_equal; f_equal; lra. }
  rewrite P.
  destruct (slip_step solve row3 (fun _ _ => 1) (fun _ _ => None) 1 0 Hs (links_within _ _ _ _ row_sound) (fun _ _ _ => Rlt_0_1) Rlt_0_1 push
    (Slip [2%nat] (Plane (V3 0 0 0) (V3 (1 / 2) (1 / 2) 0)) []) row_pos (fun p => projectPointPlane p (V3 0 0 0) (V3 (1 / 2) (1 / 2) 0))) as [guess [field [E [A [_ C]]]]].
  - discriminate.
  - exact (links_apart _ _ _ _ row_sound).
  - intros guess. eexists. split; [reflexivity |]. intros i. reflexivity.
  - exists field. split; [intros v [<- | [<- | []]]; unfold dot; simpl; lra |]. split; [reflexivity |]. split; [exact E |].
    specialize (C 2%nat (or_intror (or_intror (or_introl eq_refl))) (or_introl eq_refl) eq_refl). rewrite C.
    assert (G : forall c, component c -> c (guess 2%nat) = c (V3 1 0 0)).
    { intros c Hc. pose proof (links_within _ _ _ _ row_sound) as W. pose proof (pull_pos _ _ row_pos (fun _ => 1) (fun _ => None) 1 row_sound Rlt_0_1) as PP.
      pose proof (bounds (g_verts row3) (g_link row3) _ W PP (part c (prescribed push [])) (fun i => c (guess i)) (c (V3 1 0 0)) (c (V3 1 0 0))) as Q.
      assert (c (V3 1 0 0) <= c (guess 2%nat) <= c (V3 1 0 0)); [| lra]. apply Q.
      - intros i Hi. apply tied_part. apply row_tied; [discriminate | exact Hi].
      - intros i b Hi Hb. simpl in Hi. destruct Hi as [<- | [<- | [<- | []]]]; unfold part, prescribed, push in Hb; simpl in Hb; try discriminate. inversion Hb. lra.
      - exact (A c Hc).
      - simpl. tauto. }
    apply component_ext in G. rewrite G. unfold on_plane, projectPointPlane, row_pos, vadd, vsub, vscale, dot. simpl. lra.
Qed.
Print Assumptions C111_slip_normal_refuted.
(** A row whose ends are pulled apart, in two steps; and a wall on a plane. *)
Definition pulled (i : nat) : option vec := match i with 0%nat => Some (V3 0 0 0) | 2%nat => Some (V3 (1 / 2) 0 0) | _ => None end.
Example C111_nonvacuous : forall solve, correct_solver solve ->
  roomy (g_verts row3) (g_link row3) row_pos (V3 0 0 0) (V3 (1 / 2) 0 0)
  /\ exists field, vector_execute solve row3 (fun _ _ => 1) (fun _ _ => None) 1 0 (setMultiStep 2) pulled (Slip [] (Plane vzero vzero) []) row_pos = Some (field, row_pos)
       /\ field 2%nat = V3 (1 / 2) 0 0 /\ 0 <= vx (field 1%nat) <= 1 / 2.
Proof.
  intros solve Hs.
  assert (A : roomy (g_verts row3) (g_link row3) row_pos (V3 0 0 0) (V3 (1 / 2) 0 0)).
  { intros i j Hi Hj. exists vx. split; [left; reflexivity |]. simpl in Hi.
    destruct Hi as [<- | [<- | [<- | []]]]; simpl in Hj; repeat (destruct Hj as [<- | Hj]); try contradiction; unfold row_pos; simpl; unfold Rabs; destruct (Rcase_abs _); lra. }
  split; [exact A |].
  destruct (C111_steps solve row3 (fun _ _ => 1) (fun _ _ => None) 1 0 2 pulled (Slip [] (Plane vzero vzero) []) row_pos (V3 0 0 0) (V3 (1 / 2) 0 0)) as [field [E F]].
  - exact Hs.
  - exact (links_within _ _ _ _ row_sound).
  - intros; lra.
  - lra.
  - reflexivity.
  - apply row_tied. discriminate.
  - intros i b Hi Hb. simpl in Hi. destruct Hi as [<- | [<- | [<- | []]]]; unfold prescribed, pulled in Hb; simpl in Hb; try discriminate; inversion Hb; intros c [-> | [-> | ->]]; simpl; lra.
  - exact A.
  - exists field. split; [exact E |]. split.
    + apply (F 2%nat); [simpl; tauto | reflexivity].
    + destruct (F 1%nat) as [Q _]; [simpl; tauto |]. apply (Q vx). left. reflexivity.
Qed.
Example C111_nonvacuous_slip : forall solve, correct_solver solve -> exists field,
  vector_execute solve row3 (fun _ _ => 1) (fun _ _ => None) 1 0 1 push (Slip [2%nat] (slip_plane [V3 2 0 0; V3 2 1 0; V3 2 0 1] [V3 1 0 0; V3 1 0 0]) []) row_pos = Some (field, row_pos)
  /\ vx (vadd (row_pos 2%nat) (field 2%nat)) = 2.
Proof.
  intros solve Hs.
  assert (P : slip_plane [V3 2 0 0; V3 2 1 0; V3 2 0 1] [V3 1 0 0; V3 1 0 0] = Plane (V3 2 (/ 3) (/ 3)) (V3 1 0 0)).
  { unfold slip_plane, average, sum3, vadd, vscale, vzero. simpl. f_equal; f_equal; lra. }
  rewrite P.
  destruct (C111_slip_plane_partial solve row3 (fun _ _ => 1) (fun _ _ => None) 1 0 push [2%nat] (V3 2 (/ 3) (/ 3)) (V3 1 0 0) [] row_pos Hs row_sound) as [guess [field [E [_ [_ F]]]]].
  - intros; lra.
  - lra.
  - discriminate.
  - unfold dot; simpl; lra.
  - exists field. split; [exact E |]. destruct (F 2%nat) as [Q _]; [simpl; tauto | simpl; tauto | reflexivity |]. unfold on_plane in Q. simpl in *. lra.
Qed.

(** ** C112 *)
Theorem C112_distance : forall radius plateau decay d, 0 < plateau -> plateau < radius -> 0 < decay -> 0 <= d ->
  damping_distance radius plateau decay d = Some (damping_law radius plateau decay d).
Proof. exact damping_formula. Qed.
Print Assumptions C112_distance.
(** the greatest up to the inner distance, without a jump there; then it decreases, to one at the outer distance *)
Theorem C112_shape : forall radius plateau decay, 0 < plateau -> plateau < radius -> 0 < decay ->
  (forall d, 0 <= d <= plateau -> damping_distance radius plateau decay d = Some (Rpower (radius / plateau) decay))
  /\ damping_distance radius plateau decay radius = Some 1
  /\ forall d e x y, 0 <= d <= e -> e <= radius -> damping_distance radius plateau decay d = Some x -> damping_distance radius plateau decay e = Some y -> 1 <= y <= x.
Proof.
  intros radius plateau decay Hp Hr Hk. split; [| split].
  - intros d Hd. rewrite damping_formula by lra. f_equal. unfold damping_law. destruct (Rlt_dec d plateau); [reflexivity |]. replace d with plateau by lra. reflexivity.
  - rewrite damping_formula by lra. f_equal. apply law_outer; lra.
  - intros d e x y Hd He Hx Hy. rewrite damping_formula in Hx, Hy by lra. inversion Hx. inversion Hy. split.
    + rewrite <- (law_outer radius plateau decay Hp Hr). apply law_antitone; lra.
    + apply law_antitone; lra.
Qed.
Print Assumptions C112_shape.
(** by volume: for cells in the band whose volumes are from lo to hi *)
Theorem C112_volume : forall tiny huge radius plateau decay vs lo hi d v,
  0 < tiny -> 0 < plateau -> plateau < radius -> 0 < decay -> 0 <= d <= radius ->
  (forall w, In w vs -> tiny <= w /\ lo <= w <= hi) -> In lo vs -> In hi vs -> hi <= huge -> In v vs ->
  exists x, damping_volume tiny huge radius plateau decay vs d v = Some x
    /\ x = Rpower (1 + (hi - lo) / v) (decay_law radius plateau decay d) /\ 1 <= x <= 1 + (hi - lo) / v.
Proof.
  intros tiny huge radius plateau decay vs lo hi d v Ht Hp Hr Hk Hd Hv Hlo Hhi Hh Hin.
  unfold damping_volume. rewrite part_formula by lra. fold (decay_law radius plateau decay d).
  rewrite (volmax_is tiny vs hi Ht) by (try assumption; intros w Hw; pose proof (Hv w Hw); lra).
  rewrite (volmin_is tiny huge vs lo Ht) by (try assumption; intros w Hw; pose proof (Hv w Hw); lra).
  assert (F : floor_volume tiny v = v) by (unfold floor_volume; destruct (Rlt_dec v tiny); [pose proof (Hv v Hin); lra | reflexivity]). rewrite F.
  eexists. split; [reflexivity |]. split; [reflexivity |]. unfold pow. pose proof (Hv v Hin).
  assert (B : 1 <= 1 + (hi - lo) / v). { assert (0 <= (hi - lo) / v); [| lra]. apply Rmult_le_pos; [lra | apply Rlt_le, Rinv_0_lt_compat; lra]. }
  assert (L : 0 <= decay_law radius plateau decay d <= 1).
  { unfold decay_law. destruct (Rlt_dec d plateau); [lra |]. pose proof (plateau_gt1 radius plateau decay Hp Hr Hk).
    assert (1 <= Rpower (radius / d) decay) by (apply power_ge1; [apply Rmult_le_reg_r with d; [lra |]; unfold Rdiv; rewrite Rmult_assoc, Rinv_l; lra | lra]).
    assert (Rpower (radius / d) decay <= Rpower (radius / plateau) decay) by (apply power_mono; [apply Rdiv_lt_0_compat; lra | apply ratio_le; lra | lra]).
    split; [apply Rmult_le_pos; [lra | apply Rlt_le, Rinv_0_lt_compat; lra] |].
    apply Rmult_le_reg_r with (Rpower (radius / plateau) decay - 1); [lra |]. unfold Rdiv. rewrite Rmult_assoc, Rinv_l by lra. lra. }
  split; [apply power_ge1; lra |]. rewrite <- (Rpower_1 (1 + (hi - lo) / v)) at 2 by lra.
  destruct (Req_dec (1 + (hi - lo) / v) 1) as [E | N]; [rewrite E; unfold Rpower; rewrite ln_1; rewrite !Rmult_0_r; lra | apply Rle_Rpower; lra].
Qed.
Print Assumptions C112_volume.
(** The inner distance is zero by default, and the code divides by it. *)
Theorem C112_default_refuted : forall radius decay d, damping_distance radius 0 decay d = None.
Proof. intros radius decay d. unfold damping_distance, div. destruct (Req_EM_T 0 0); [reflexivity | contradiction]. Qed.
Print Assumptions C112_default_refuted.
Example C112_nonvacuous : damping_distance 4 1 1 2 = Some 2 /\ exists x, damping_volume (/ 8) 8 4 1 1 [1; 2; 3] 0 2 = Some x /\ x = 2.
Proof.
  split.
  - rewrite C112_distance by lra. unfold damping_law. destruct (Rlt_dec 2 1); [lra |]. f_equal. replace (4 / 2) with 2 by lra. apply Rpower_1. lra.
  - destruct (C112_volume (/ 8) 8 4 1 1 [1; 2; 3] 1 3 0 2) as [x [E [X _]]]; try lra; try (simpl; tauto).
    + intros w [<- | [<- | [<- | []]]]; lra.
    + exists x. split; [exact E |]. rewrite X. unfold decay_law. destruct (Rlt_dec 0 1); [| lra]. replace (1 + (3 - 1) / 2) with 2 by lra. apply Rpower_1. lra.
Qed.

(** ** C113 *)
(** The vertices with a condition are those of the patches. *)
Theorem C113_vertices : forall (A : Type) (zero : A) patches fields i,
  (forall f q, In f fields -> In q patches -> p_address (f_patch f) = p_address q -> f_patch f = q) ->
  (forall f, In f fields -> In (f_patch f) patches) ->
  (value_at i (distribute zero patches fields) <> None <-> exists p, In p patches /\ In i (p_verts p)).
Proof.
  intros A zero patches fields i U I. rewrite value_find. unfold distribute. destruct (put_fields zero fields patches []) as [acc rest] eqn:E.
  assert (Ea : acc = fst (put_fields zero fields patches [])) by (rewrite E; reflexivity). assert (Er : rest = snd (put_fields zero fields patches [])) by (rewrite E; reflexivity).
  rewrite zero_find. split.
  - intros H. destruct (Propagate.find i acc) as [x |] eqn:Ex.
    + rewrite Ea in Ex. apply put_fields_sound in Ex. destruct Ex as [Ex | [f [Hf [Hi _]]]]; [discriminate |]. exists (f_patch f). split; [apply I; exact Hf | exact Hi].
    + destruct (existsb _ rest) eqn:Q; [| contradiction]. apply existsb_exists in Q. destruct Q as [p [Hp Hi]]. destruct (in_dec Nat.eq_dec i (p_verts p)); [| discriminate].
      exists p. split; [| assumption]. rewrite Er in Hp. apply put_fields_left in Hp. tauto.
  - intros [p [Hp Hi]]. destruct (Propagate.find i acc) eqn:Ex; [discriminate |].
    destruct (existsb (fun f => Nat.eqb (p_address (f_patch f)) (p_address p)) fields) eqn:Q.
    + apply existsb_exists in Q. destruct Q as [f [Hf Ha]]. apply Nat.eqb_eq in Ha. exfalso. rewrite Ea in Ex.
      apply (put_fields_cover A zero fields patches [] i p Hp Hi (ex_intro _ f (conj Hf Ha)) U). exact Ex.
    + assert (F : existsb (fun p => if in_dec Nat.eq_dec i (p_verts p) then true else false) rest = true); [| rewrite F; discriminate].
      apply existsb_exists. exists p. split; [| destruct (in_dec Nat.eq_dec i (p_verts p)); [reflexivity | contradiction]].
      rewrite Er. apply put_fields_left. split; [exact Hp |]. intros f Hf Ha. assert (existsb (fun f => Nat.eqb (p_address (f_patch f)) (p_address p)) fields = true); [| congruence].
      apply existsb_exists. exists f. split; [exact Hf | apply Nat.eqb_eq; exact Ha].
Qed.
Print Assumptions C113_vertices.
(** Every value is that of a field there, zero where the field has none or where the patch has no field. *)
Theorem C113_values : forall (A : Type) (zero : A) patches fields i x,
  value_at i (distribute zero patches fields) = Some x ->
  (exists f, In f fields /\ In i (p_verts (f_patch f)) /\ x = or_zero zero (value_at i (f_data f)))
  \/ (exists p, In p patches /\ In i (p_verts p) /\ x = zero /\ forall f, In f fields -> p_address (f_patch f) <> p_address p).
Proof.
  intros A zero patches fields i x H. rewrite value_find in H. unfold distribute in H. destruct (put_fields zero fields patches []) as [acc rest] eqn:E.
  assert (Ea : acc = fst (put_fields zero fields patches [])) by (rewrite E; reflexivity). assert (Er : rest = snd (put_fields zero fields patches [])) by (rewrite E; reflexivity).
  rewrite zero_find in H. destruct (Propagate.find i acc) as [y |] eqn:Ex.
  - inversion H; subst y. rewrite Ea in Ex. apply put_fields_sound in Ex. destruct Ex as [Ex | [f [Hf [Hi Hx]]]]; [discriminate |].
    left. exists f. split; [exact Hf |]. split; [exact Hi |]. rewrite value_find. exact Hx.
  - destruct (existsb _ rest) eqn:Q; [| discriminate]. inversion H. apply existsb_exists in Q. destruct Q as [p [Hp Hi]]. destruct (in_dec Nat.eq_dec i (p_verts p)); [| discriminate].
    rewrite Er in Hp. apply put_fields_left in Hp. destruct Hp as [Hp Hn]. right. exists p. split; [exact Hp |]. split; [assumption |]. split; [reflexivity | exact Hn].
Qed.
Print Assumptions C113_values.
(** If the vertex is on one patch only, with one field, its value is that of the field, whatever the orders. *)
Theorem C113_determined : forall (A : Type) (zero : A) patches fields i f,
  (forall f q, In f fields -> In q patches -> p_address (f_patch f) = p_address q -> f_patch f = q) ->
  (forall f, In f fields -> In (f_patch f) patches) ->
  In f fields -> In i (p_verts (f_patch f)) ->
  (forall p, In p patches -> In i (p_verts p) -> p = f_patch f) -> (forall h, In h fields -> f_patch h = f_patch f -> h = f) ->
  value_at i (distribute zero patches fields) = Some (or_zero zero (value_at i (f_data f))).
Proof.
  intros A zero patches fields i f U I Hf Hi Hp Hu.
  destruct (value_at i (distribute zero patches fields)) as [x |] eqn:E.
  - destruct (C113_values A zero patches fields i x E) as [[h [Hh [Hj ->]]] | [p [Hq [Hj [_ N]]]]].
    + rewrite (Hu h Hh (Hp _ (I h Hh) Hj)). reflexivity.
    + exfalso. apply (N f Hf). rewrite (Hp p Hq Hj). reflexivity.
  - exfalso. apply (proj2 (C113_vertices A zero patches fields i U I)); [| exact E]. exists (f_patch f). split; [apply I; exact Hf | exact Hi].
Qed.
Print Assumptions C113_determined.
(** Otherwise it depends on the order of the sets: a vertex on two patches, or two fields on one. *)
Definition patch_a := Patch 1 [0; 1]%nat.
Definition patch_b := Patch 2 [1; 2]%nat.
Theorem C113_order_refuted : exists (patches : list patch) (f h : field R) i,
  value_at i (distribute 0 patches [f; h]) <> value_at i (distribute 0 patches [h; f]).
Proof.
  exists [patch_a; patch_b], (Field patch_a [(1%nat, 1)]), (Field patch_b [(1%nat, 2)]), 1%nat. cbv -[Rplus Rmult IZR]. intros H. inversion H. lra.
Qed.
Print Assumptions C113_order_refuted.
Theorem C113_second_field_refuted : exists (patches : list patch) (f h : field R) i,
  f_patch f = f_patch h /\ value_at i (distribute 0 patches [f; h]) <> value_at i (distribute 0 patches [h; f]).
Proof.
  exists [patch_a], (Field patch_a [(1%nat, 1)]), (Field patch_a [(1%nat, 2)]), 1%nat. split; [reflexivity |]. cbv -[Rplus Rmult IZR]. intros H. inversion H. lra.
Qed.
Print Assumptions C113_second_field_refuted.
(** Scalar conditions: one added is read back; from the second on, the address of the first is of memory given back. *)
Theorem C113_single : forall (A : Type) (f : field A), read_conditions (addConditions empty_store f) = Some [f].
Proof. reflexivity. Qed.
Print Assumptions C113_single.
Theorem C113_dangling_refuted : forall (A : Type) (f h : field A) l, read_conditions (fold_left addConditions (f :: h :: l) empty_store) = None.
Proof. intros A f h l. simpl. apply stale with 0%nat [(2%nat, 1%nat)]; [simpl; lia | reflexivity]. Qed.
Print Assumptions C113_dangling_refuted.
Example C113_nonvacuous : value_at 0%nat (distribute 0%nat [patch_a; patch_b] [Field patch_a [(0, 7)]%nat]) = Some 7%nat
  /\ value_at 1%nat (distribute 0%nat [patch_a; patch_b] [Field patch_a [(0, 7)]%nat]) = Some 0%nat
  /\ value_at 2%nat (distribute 0%nat [patch_a; patch_b] [Field patch_a [(0, 7)]%nat]) = Some 0%nat
  /\ value_at 3%nat (distribute 0%nat [patch_a; patch_b] [Field patch_a [(0, 7)]%nat]) = None.
Proof. repeat split. Qed.
