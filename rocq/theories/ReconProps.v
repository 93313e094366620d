(** C94: fields rebuilt from the fields of sub-patches. *)
From Coq Require Import List Arith Bool Reals Lia Lra Permutation.
From Verif Require Import SharedPtr SharedPtrProofs Field FieldSpec FieldProofs Vec Recon ReconSpec ReconProofs.
Import ListNotations.
Open Scope nat_scope.

(** ** C94 : a field has, on every element of the target, the maximum, the minimum, the mean or the
    sum of the values the fields of the sub-patches have there, and zero where they have none. *)

(** The scalar field is the reconstruction asked for, on the target and on the sub-patches, when
    every field has a value on the elements its sub-patch shares with the target; otherwise there is
    an exception. *)
Theorem C94_scalar : forall mesh o loc target ps, loc = LPoint \/ loc = LCell -> geom_ok (mesh target) -> Forall (patch_ok mesh) ps ->
  (Forall (full mesh loc target) ps ->
     exists f subs, reconstructScalar mesh o loc (Some target) ps = Some (f, subs) /\ rebuilt (scalar_blend o) mesh loc target ps f subs) /\
  (~ Forall (full mesh loc target) ps -> reconstructScalar mesh o loc (Some target) ps = None).
Proof.
  intros mesh o loc target ps U G O. split.
  - intros F. destruct (execute_ok mesh (merge_scalar o) (fun x n => x / INR n)%R 0%R o loc target ps U G O F) as (f & s & Q & (Ho & Hv & Hs)).
    exists f, s. split; [exact Q|]. split; [exact Ho|]. split; [|exact Hs]. intros id x H. destruct (Hv id x H) as (vs & C & ->). exists vs. split; [exact C|]. apply scalar_outcome.
  - intros N. destruct (reconstructScalar mesh o loc (Some target) ps) as [r|] eqn:E; [|reflexivity]. destruct N. exact (execute_needs _ _ _ _ _ _ _ _ _ U O E).
Qed.

(** Likewise for vectors, the first of the longest or of the shortest being taken. *)
Theorem C94_vector : forall mesh o loc target ps, loc = LPoint \/ loc = LCell -> geom_ok (mesh target) -> Forall (patch_ok mesh) ps ->
  (Forall (full mesh loc target) ps ->
     exists f subs, reconstructVector mesh o loc (Some target) ps = Some (f, subs) /\ rebuilt (vector_blend o) mesh loc target ps f subs) /\
  (~ Forall (full mesh loc target) ps -> reconstructVector mesh o loc (Some target) ps = None).
Proof.
  intros mesh o loc target ps U G O. split.
  - intros F. destruct (execute_ok mesh (merge_vector o) (fun x n => V3 (vx x / INR n) (vy x / INR n) (vz x / INR n))%R (V3 0 0 0) o loc target ps U G O F) as (f & s & Q & (Ho & Hv & Hs)).
    exists f, s. split; [exact Q|]. split; [exact Ho|]. split; [|exact Hs]. intros id x H. destruct (Hv id x H) as (vs & C & ->). exists vs. split; [exact C|]. apply vector_outcome.
  - intros N. destruct (reconstructVector mesh o loc (Some target) ps) as [r|] eqn:E; [|reflexivity]. destruct N. exact (execute_needs _ _ _ _ _ _ _ _ _ U O E).
Qed.

(** The order in which the scalar fields are given makes no difference to the values. *)
Theorem C94_order : forall mesh o loc target ps ps' f subs f' subs', loc = LPoint \/ loc = LCell -> geom_ok (mesh target) -> Forall (patch_ok mesh) ps ->
  Permutation ps ps' -> reconstructScalar mesh o loc (Some target) ps = Some (f, subs) -> reconstructScalar mesh o loc (Some target) ps' = Some (f', subs') ->
  forall id x, In (id, x) f <-> In (id, x) f'.
Proof.
  assert (Half : forall mesh o loc target ps ps' f subs f' subs', loc = LPoint \/ loc = LCell -> geom_ok (mesh target) -> Forall (patch_ok mesh) ps ->
    Permutation ps ps' -> reconstructScalar mesh o loc (Some target) ps = Some (f, subs) -> reconstructScalar mesh o loc (Some target) ps' = Some (f', subs') ->
    forall id x, In (id, x) f -> In (id, x) f').
  { intros mesh o loc target ps ps' f subs f' subs' U G O P Q Q' id x H.
    assert (O' : Forall (patch_ok mesh) ps') by (apply Forall_forall; intros p Hp; apply (proj1 (Forall_forall _ _) O); apply (Permutation_in _ (Permutation_sym P)); exact Hp).
    destruct (proj1 (C94_scalar mesh o loc target ps U G O) (execute_needs _ _ _ _ _ _ _ _ _ U O Q)) as (f0 & s0 & E & ((N & Hk) & V & _)). rewrite E in Q. injection Q as -> ->.
    destruct (proj1 (C94_scalar mesh o loc target ps' U G O') (execute_needs _ _ _ _ _ _ _ _ _ U O' Q')) as (f1 & s1 & E' & ((N' & Hk') & V' & _)). rewrite E' in Q'. injection Q' as -> ->.
    destruct (V id x H) as (vs & C & B). destruct (proj1 (find_some_iff _ f' id)) as (y & Y); [apply Hk', Hk; apply (in_map fst _ _ H)|]. apply find_in in Y.
    destruct (V' id y Y) as (ws & C' & B'). destruct (collects_perm _ _ _ _ _ _ P vs C) as (us & Cu & Pu).
    rewrite (collects_fun _ _ _ _ _ _ _ O' Cu C') in Pu. rewrite (scalar_blend_perm o vs ws x y Pu B B'). exact Y. }
  intros mesh o loc target ps ps' f subs f' subs' U G O P Q Q' id x. split; [exact (Half _ _ _ _ _ _ _ _ _ _ U G O P Q Q' id x)|].
  apply (Half mesh o loc target ps' ps f' subs' f subs U G); [|apply Permutation_sym; exact P|exact Q'|exact Q].
  apply Forall_forall; intros p Hp; apply (proj1 (Forall_forall _ _) O); apply (Permutation_in _ (Permutation_sym P)); exact Hp.
Qed.

(** Two vectors of the same length: the first given is taken. *)
Definition strip : nat -> geom := fun a => match a with
  | 0 => {| g_verts := [0; 1; 2; 3]; g_cells := [(0, [0; 1]); (1, [1; 2]); (2, [2; 3])]; g_ifaces := []; g_interior := fun _ => true |}
  | 1 => {| g_verts := [0; 1; 2]; g_cells := [(0, [0; 1]); (1, [1; 2])]; g_ifaces := []; g_interior := fun _ => true |}
  | _ => {| g_verts := [2; 1; 9]; g_cells := [(1, [1; 2])]; g_ifaces := []; g_interior := fun _ => true |}
  end.
Definition blow (a : nat) (v : vec) : patch vec := {| p_geo := Some a; p_loc := LCell; p_data := [(1, v)] |}.
Theorem C94_order_refuted : exists mesh o target ps ps' f subs f' subs',
  Permutation ps ps' /\ reconstructVector mesh o LCell (Some target) ps = Some (f, subs) /\ reconstructVector mesh o LCell (Some target) ps' = Some (f', subs') /\
  exists id x, In (id, x) f /\ ~ In (id, x) f'.
Proof.
  exists strip, OMax, 2, [blow 2 (V3 1 0 0); blow 2 (V3 0 1 0)], [blow 2 (V3 0 1 0); blow 2 (V3 1 0 0)].
  assert (E : forall v w, norm v = norm w -> reconstructVector strip OMax LCell (Some 2) [blow 2 v; blow 2 w] = Some ([(1, v)], [blow 2 v; blow 2 v])).
  { intros v w H. unfold reconstructVector, execute. cbn. destruct (Rlt_dec (norm v) (norm w)) as [X|_]; [lra|]. cbn. reflexivity. }
  assert (N : norm (V3 1 0 0) = norm (V3 0 1 0)) by (unfold norm, dot; cbn [vx vy vz]; f_equal; lra).
  exists [(1, V3 1 0 0)], [blow 2 (V3 1 0 0); blow 2 (V3 1 0 0)], [(1, V3 0 1 0)], [blow 2 (V3 0 1 0); blow 2 (V3 0 1 0)].
  split; [apply perm_swap|]. split; [apply E; exact N|]. split; [apply E; symmetry; exact N|].
  exists 1, (V3 1 0 0). split; [left; reflexivity|]. intros [Q | []]. injection Q as Q _. lra.
Qed.

(** Without a target there is an exception. *)
Theorem C94_no_target : forall mesh o loc ps, reconstructScalar mesh o loc None ps = None.
Proof. reflexivity. Qed.

(** removeData takes away the fields of the sub-patch and no other, in another order, if there is a
    field of another sub-patch. *)
Theorem C94_remove : forall A (a : option nat) (l : list (patch A)),
  (exists p, In p l /\ p_geo p <> a) ->
  exists l', removeData a l = Some l' /\ exists kept, Permutation l' kept /\ sublist kept l /\
    (forall p, In p l -> p_geo p <> a -> In p kept) /\ (forall p, In p kept -> p_geo p <> a).
Proof.
  intros A a l (p & Hp & Np).
  assert (Is : forall q : patch A, negb (is_patch a q) = true <-> p_geo q <> a).
  { intros q. unfold is_patch. destruct (p_geo q) as [x|], a as [y|]; cbn; try (split; [discriminate|reflexivity]).
    - destruct (Nat.eqb_spec x y) as [-> | N]; cbn; split; try discriminate; try reflexivity; intros X; [destruct (X eq_refl)|congruence].
    - split; [discriminate|intros X; destruct (X eq_refl)]. }
  destruct (remove_ok a l) as (l' & Q & P).
  { intros E. assert (X : In p (List.filter (fun q => negb (is_patch a q)) l)) by (apply filter_In; split; [exact Hp|apply Is; exact Np]). rewrite E in X. destruct X. }
  exists l'. split; [exact Q|]. exists (List.filter (fun q => negb (is_patch a q)) l). split; [exact P|]. split; [apply filter_sublist|]. split.
  - intros q Hq Nq. apply filter_In. split; [exact Hq|apply Is; exact Nq].
  - intros q Hq. apply Is. apply (proj1 (filter_In _ _ _) Hq).
Qed.

(** Taking away the only field follows a reference to the last element of an empty vector. *)
Theorem C94_remove_refuted : exists (a : option nat) (l : list (patch R)), (exists p, In p l /\ p_geo p = a) /\ removeData a l = None.
Proof.
  exists (Some 1), [{| p_geo := Some 1; p_loc := LPoint; p_data := [(0, 5%R)] |}]. split; [eexists; split; [left; reflexivity|reflexivity]|reflexivity].
Qed.

(** A field on a geometry is appended, but for one of a point cloud when the location is the cells. *)
Theorem C94_add : forall A kind loc (p : patch A) l g, p_geo p = Some g ->
  addData kind loc (Some p) l = Some (if Nat.eqb (kind g) 3 && loc_eqb loc LCell then l else l ++ [p]).
Proof. intros A kind loc p l g G. unfold addData. rewrite G. cbn [andb]. destruct (Nat.eqb (kind g) 3 && loc_eqb loc LCell); reflexivity. Qed.

(** The guard of addData does not guard: a field without geometry is followed when its location is
    that of the class... *)
Theorem C94_null_refuted : exists kind loc (p : patch R) l, p_geo p = None /\ addData kind loc (Some p) l = None.
Proof. exists (fun _ => 1), LPoint, {| p_geo := None; p_loc := LPoint; p_data := [] |}, []. split; reflexivity. Qed.
(** ... and values of cells are taken for values of the points with the same ids. *)
Theorem C94_location_refuted : exists kind mesh (p : patch R) l f subs, p_loc p = LCell /\ addData kind LPoint (Some p) [] = Some l /\
  reconstructScalar mesh OMax LPoint (Some 1) l = Some (f, subs) /\ exists id x, In (id, x) (p_data p) /\ In (id, x) f.
Proof.
  exists (fun _ => 1), (fun _ => {| g_verts := [0; 1]; g_cells := [(0, [0; 1]); (1, [1; 0])]; g_ifaces := []; g_interior := fun _ => true |}).
  exists {| p_geo := Some 1; p_loc := LCell; p_data := [(0, 7%R); (1, 8%R)] |}.
  eexists. exists [(0, 7%R); (1, 8%R)]. eexists. split; [reflexivity|]. split; [reflexivity|].
  split; [unfold reconstructScalar, execute; cbn; reflexivity|]. exists 0, 7%R. split; left; reflexivity.
Qed.

(** A line of three segments covered by two overlapping parts, one of which goes beyond it. *)
Definition left_part : patch R := {| p_geo := Some 1; p_loc := LPoint; p_data := [(2, 3%R); (0, 1%R); (1, 2%R)] |}.
Definition right_part : patch R := {| p_geo := Some 2; p_loc := LPoint; p_data := [(1, 6%R); (2, 5%R); (9, 4%R)] |}.
Example C94_nonvacuous : geom_ok (strip 0) /\ Forall (patch_ok strip) [left_part; right_part] /\ Forall (full strip LPoint 0) [left_part; right_part] /\
  reconstructScalar strip OSum LPoint (Some 0) [left_part; right_part] =
    Some ([(0, 1%R); (1, (2 + 6)%R); (2, (3 + 5)%R); (3, 0%R)],
          [{| p_geo := Some 1; p_loc := LPoint; p_data := [(0, 1%R); (1, (2 + 6)%R); (2, (3 + 5)%R)] |};
           {| p_geo := Some 2; p_loc := LPoint; p_data := [(2, (3 + 5)%R); (1, (2 + 6)%R)] |}]).
Proof.
  assert (Nd : forall l, nodup Nat.eq_dec l = l -> NoDup l) by (intros l <-; apply NoDup_nodup).
  assert (Gk : forall a, geom_ok (strip a)) by (intros [|[|a]]; (split; [|split]); apply Nd; reflexivity).
  split; [apply Gk|]. split; [|split].
  - apply Forall_cons; [|apply Forall_cons; [|apply Forall_nil]]; (split; [apply Nd; reflexivity|eexists; split; [reflexivity|apply Gk]]).
  - apply Forall_cons; [|apply Forall_cons; [|apply Forall_nil]]; intros id (g & G & I) T; injection G as <-; cbn in I; cbn in T.
    + destruct I as [<- | [<- | [<- | []]]]; eexists; cbn; [right; left|right; right; left|left]; reflexivity.
    + destruct I as [<- | [<- | [<- | []]]]; eexists; cbn; [right; left|left|right; right; left]; reflexivity.
  - unfold reconstructScalar, execute. cbn. reflexivity.
Qed.

Print Assumptions C94_scalar.
Print Assumptions C94_vector.
Print Assumptions C94_order.
Print Assumptions C94_order_refuted.
Print Assumptions C94_no_target.
Print Assumptions C94_remove.
Print Assumptions C94_remove_refuted.
Print Assumptions C94_add.
Print Assumptions C94_null_refuted.
Print Assumptions C94_location_refuted.
