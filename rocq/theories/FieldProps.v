(** Properties C21-C24 and C46-C51: fields attached to a geometry. *)
From Coq Require Import Reals List Arith Bool Sorted Permutation Lra Lia.
From Verif Require Import SharedPtr SharedPtrProofs Field FieldSpec FieldProofs Vec FieldAvg FieldAvgSpec FieldAvgProofs FieldWitness.
Import ListNotations.
Open Scope nat_scope.

(** C21: completeMissingData(v) fails and changes nothing without a geometry or with an id that is
    not an element; otherwise every element has exactly one value, old values are kept and the
    new ones are v. *)
Theorem C21_complete : forall A (v : A) (f : mpv A), field_ok f ->
  exists f' b, complete_missing v f = Some (f', b) /\ same_header f f' /\ field_ok f' /\
    (b = true <-> f_geo f <> None /\ coherent f) /\
    (b = false -> f' = f) /\
    (b = true -> coherent f' /\ complete f' /\
       forall id, value f' id = match value f id with
                                | Some x => Some x
                                | None => if existsb (Nat.eqb id) (elements f) then Some v else None
                                end).
Proof. exact @complete_missing_spec. Qed.
Print Assumptions C21_complete.
Example C21_nonvacuous : field_ok half /\ coherent half /\ ~ complete half /\ field_ok alien /\ ~ coherent alien /\
  complete_missing 7 half = Some ({| f_geo := Some tris; f_loc := LPoint; f_name := 5; f_data := [(2, 20); (4, 40); (3, 7); (1, 7)] |}, true) /\
  complete_missing 7 alien = Some (alien, false).
Proof.
  split; [exact half_ok|]. split; [apply check_ids_iff; reflexivity|].
  split; [intros H; destruct (H 1); [simpl; auto|reflexivity]|]. split; [exact alien_ok|].
  split; [intros H; destruct (H 9) as [?|[?|[?|[?|[]]]]]; discriminate|]. split; reflexivity.
Qed.

(** C22: squeezeOutExcept keeps exactly the listed entries, in their order when asked to. *)
Theorem C22_keep_order : forall A ids (f : mpv A), field_ok f ->
  exists f', squeeze_out_except ids true f = Some f' /\ same_header f f' /\ field_ok f' /\
    (forall id, value f' id = if existsb (Nat.eqb id) ids then value f id else None) /\
    sublist (f_data f') (f_data f).
Proof. exact @squeeze_order. Qed.
Print Assumptions C22_keep_order.
(** Without keepOrder, for a list without duplicates (or a set). *)
Theorem C22_any_order_partial : forall A ids (f : mpv A), field_ok f -> NoDup ids ->
  exists f', squeeze_out_except ids false f = Some f' /\ same_header f f' /\ field_ok f' /\
    (forall id, value f' id = if existsb (Nat.eqb id) ids then value f id else None) /\
    sublist (map fst (f_data f')) ids.
Proof. exact @squeeze_free. Qed.
Print Assumptions C22_any_order_partial.
(** With a repeated id that has a value it throws. *)
Theorem C22_duplicates_refuted : forall A l1 i l2 l3 (f : mpv A), NoDup l1 -> ~ In i l1 -> value f i <> None ->
  squeeze_out_except (l1 ++ i :: l2 ++ i :: l3) false f = None.
Proof. exact @squeeze_dup. Qed.
Print Assumptions C22_duplicates_refuted.
Example C22_nonvacuous : field_ok half /\ NoDup [9; 4; 7] /\ NoDup [7] /\ ~ In 4 [7] /\ value half 4 <> None /\
  squeeze_out_except [9; 4; 7] false half = Some (with_data [(4, 40)] half) /\
  squeeze_out_except [4; 2; 4] true half = Some half /\
  squeeze_out_except ([7] ++ 4 :: [2] ++ 4 :: []) false half = None.
Proof.
  split; [exact half_ok|]. split; [repeat constructor; simpl; intuition discriminate|].
  split; [repeat constructor; simpl; intuition discriminate|]. split; [simpl; intuition discriminate|].
  split; [discriminate|]. split; [|split]; reflexivity.
Qed.

(** C23: getDataFrom. *)
Theorem C23_merge : forall A (f other : mpv A) strict, field_ok f -> field_ok other ->
  exists f' n, get_data_from f other strict = Some (f', n) /\ same_header f f' /\ field_ok f' /\
    (forall id, value f' id =
       match value other id, value f id with
       | Some v, Some _ => Some v
       | Some v, None => if strict then None else Some v
       | None, x => x
       end) /\
    n = length (filter (fun id => negb strict || exists_id id (f_data f)) (map fst (f_data other))).
Proof. exact @get_data_from_spec. Qed.
Print Assumptions C23_merge.
Example C23_nonvacuous : field_ok half /\ field_ok alien /\
  get_data_from half alien true = Some (half, 1) /\
  get_data_from half alien false = Some (with_data [(2, 20); (4, 40); (9, 90)] half, 2).
Proof. split; [exact half_ok|]. split; [exact alien_ok|]. split; reflexivity. Qed.

(** C46: the two coherence checks together hold exactly for fields with a defined location and
    one value on every element; the check of ids alone says that every id is an element. *)
Theorem C46_both_checks : forall A (f : mpv A), field_ok f ->
  check_size f = true /\ check_ids f = true <-> f_geo f <> None /\ f_loc f <> LUndef /\ coherent f /\ complete f.
Proof.
  intros A f O. rewrite check_ids_iff, check_size_iff. split.
  - intros [[G [L S]] [_ C]]. split; [exact G|]. split; [exact L|]. split; [exact C|]. exact (full_complete f O C S).
  - intros [G [L [C K]]]. split; [|split; assumption]. split; [exact G|]. split; [exact L|]. exact (complete_full f O C K).
Qed.
Print Assumptions C46_both_checks.
Theorem C46_ids_check : forall A (f : mpv A), check_ids f = true <-> f_geo f <> None /\ coherent f.
Proof. exact @check_ids_iff. Qed.
Print Assumptions C46_ids_check.
(** The documentation promises false for a field without location: wrong for an empty field. *)
Theorem C46_undefined_refuted : exists f : mpv nat, field_ok f /\ f_loc f = LUndef /\ check_ids f = true.
Proof. exists (new_mpv (Some tris) LUndef). split; [split; [constructor|exact tris_ok]|]. split; reflexivity. Qed.
Print Assumptions C46_undefined_refuted.
(** resizeToCoherentDataIds keeps the entries on elements, in order, and only them... *)
Theorem C46_resize : forall A (f : mpv A), field_ok f ->
  f_geo (resize_coherent f) = f_geo f /\ f_loc (resize_coherent f) = f_loc f /\
  coherent (resize_coherent f) /\ sublist (f_data (resize_coherent f)) (f_data f) /\
  (forall id, In id (elements f) -> value (resize_coherent f) id = value f id).
Proof. exact @resize_spec. Qed.
Print Assumptions C46_resize.
(** ... but, though called a copy, it loses the name of the field. *)
Theorem C46_resize_name_refuted : exists f : mpv nat, field_ok f /\ coherent f /\ f_name (resize_coherent f) <> f_name f.
Proof. exists half. split; [exact half_ok|]. split; [apply check_ids_iff; reflexivity|discriminate]. Qed.
Print Assumptions C46_resize_name_refuted.
Example C46_nonvacuous : field_ok alien /\ check_ids alien = false /\ f_data (resize_coherent alien) = [(2, 20)] /\
  check_ids half = true /\ check_size half = false.
Proof. split; [exact alien_ok|]. repeat split. Qed.

(** C47: a complete field is read in the order of the geometry, or of increasing ids; raw data in
    the order of the field; setData then getRawDataAsVector gives the data back. *)
Theorem C47_as_vector : forall A (f : mpv A) ordered, complete f ->
  exists ids, Permutation (elements f) ids /\ (ordered = true -> StronglySorted le ids) /\
    (ordered = false -> ids = elements f) /\ map Some (data_as_vector f ordered) = map (value f) ids.
Proof. exact @vector_spec. Qed.
Print Assumptions C47_as_vector.
(** getInternalDataAsVector: the same, for the elements of internal cells. *)
Theorem C47_internal : forall A g (f : mpv A) ordered, complete f -> f_geo f = Some g ->
  exists ids keep, Permutation (elements f) ids /\ (ordered = true -> StronglySorted le ids) /\
    (ordered = false -> ids = elements f) /\
    map Some (internal_data f ordered) = map (value f) (filter keep ids) /\
    forall id, keep id = true <-> internal_element g (f_loc f) id.
Proof. exact @internal_spec. Qed.
Print Assumptions C47_internal.
Theorem C47_raw : forall A (f : mpv A) ordered, field_ok f ->
  exists ids, Permutation (map fst (f_data f)) ids /\ (ordered = true -> StronglySorted le ids) /\
    (ordered = false -> ids = map fst (f_data f)) /\ map Some (raw_data f ordered) = map (value f) ids.
Proof. exact @raw_spec. Qed.
Print Assumptions C47_raw.
Theorem C47_set_data : forall A (d : list A) (f : mpv A), field_ok f ->
  field_ok (set_data d f) /\ same_header f (set_data d f) /\
  (forall id, value (set_data d f) id = nth_error d id) /\ raw_data (set_data d f) false = d.
Proof.
  intros A d f O. split; [exact (set_data_ok d f O)|]. split; [split; [|split]; reflexivity|].
  split; [exact (set_data_value d f)|exact (raw_set_data d f)].
Qed.
Print Assumptions C47_set_data.
Example C47_nonvacuous : complete full /\ map Some (data_as_vector full false) = map (value full) [3; 1; 2; 4] /\
  raw_data half true = [20; 40].
Proof.
  split; [|split; reflexivity]. intros id H. destruct H as [<-|[<-|[<-|[<-|[]]]]]; discriminate.
Qed.

(** C48: initialize puts the value on every element of the location of the geometry, whatever the
    field was... *)
Theorem C48_initialize : forall A g l (v : A) (f : mpv A), geom_ok g -> l <> LUndef ->
  exists f', initialize (Some g) l v f = InitDone f' /\ f_geo f' = Some g /\ f_loc f' = l /\ field_ok f' /\
    map fst (f_data f') = elements_of g l /\ (forall id, In id (elements_of g l) -> value f' id = Some v).
Proof. exact @initialize_spec. Qed.
Print Assumptions C48_initialize.
(** ... and dereferences a null geometry instead of ignoring it. *)
Theorem C48_null_refuted : exists (f : mpv nat) l, field_ok f /\ l <> LUndef /\ initialize None l 1 f = InitNull.
Proof. exists half, LCell. split; [exact half_ok|]. split; [discriminate|reflexivity]. Qed.
Print Assumptions C48_null_refuted.
Example C48_nonvacuous : geom_ok tris /\ LIface <> LUndef /\
  initialize (Some tris) LIface 6 half = InitDone {| f_geo := Some tris; f_loc := LIface; f_name := data_name; f_data := [(7, 6); (8, 6)] |}.
Proof. split; [exact tris_ok|]. split; [discriminate|reflexivity]. Qed.

(** C50: setDataLocation(int) gives POINT, CELL, INTERFACE for 1, 2, 3 and UNDEFINED otherwise... *)
Theorem C50_set_location : forall neg n,
  (neg = false -> n = 1 -> int_location neg n = LPoint) /\ (neg = false -> n = 2 -> int_location neg n = LCell) /\
  (neg = false -> n = 3 -> int_location neg n = LIface) /\
  (neg = true \/ n = 0 \/ 3 < n -> int_location neg n = LUndef).
Proof.
  intros neg n. split; [intros -> ->; reflexivity|]. split; [intros -> ->; reflexivity|]. split; [intros -> ->; reflexivity|].
  intros [->|[->|H]]; [reflexivity|destruct neg; reflexivity|]. destruct neg; [reflexivity|].
  destruct n as [|[|[|[|n]]]]; [reflexivity|lia|lia|lia|reflexivity].
Qed.
Print Assumptions C50_set_location.
(** ... but intIsValidLocation accepts every integer. *)
Theorem C50_int_valid_refuted : forall neg n, int_is_valid neg n = true.
Proof. intros [] n; reflexivity. Qed.
Print Assumptions C50_int_valid_refuted.
Example C50_nonvacuous : int_location false 7 = LUndef /\ int_location true 2 = LUndef /\ int_location false 2 = LCell.
Proof. repeat split. Qed.

Open Scope R_scope.

(** C24: averages from the vertices to the cells; the value of a cell is the average of the values
    of its vertices weighted by 1/d^p, so a convex combination of them. *)
Theorem C24_point_to_cell_partial : forall m p g (f : mpv R), geom_ok g -> apart m g ->
  (forall c vs, In (c, vs) (g_cells g) -> vs <> [] /\ forall v, In v vs -> value f v <> None) ->
  exists f', point_to_cell m p g f = Val f' /\ f_geo f' = Some g /\ f_loc f' = LCell /\
    map fst (f_data f') = map fst (g_cells g) /\
    forall c vs, In (c, vs) (g_cells g) -> exists xs, map Some xs = map (value f) vs /\
      value f' c = Some (average (combine (map (fun v => inv_dist (m_center m c) (m_point m v) p) vs) xs)).
Proof. exact point_to_cell_ok. Qed.
Print Assumptions C24_point_to_cell_partial.
(** From the cells to the vertices: a vertex gets the average of the values of the cells that
    have it and have a value, and no value when there is none. *)
Theorem C24_cell_to_point : forall m p g (f : mpv R), geom_ok g -> closed_geom g -> apart m g ->
  exists f', cell_to_point m p g f = Val f' /\ f_geo f' = Some g /\ f_loc f' = LPoint /\
    forall v, value f' v = match received m p g (f_data f) v with [] => None | l => Some (average l) end.
Proof. exact cell_to_point_ok. Qed.
Print Assumptions C24_cell_to_point.
(** Hence values stay between the minimum and maximum of the contributing data. *)
Theorem C24_point_to_cell_bounds : forall m p g (f f' : mpv R) c vs y a b, geom_ok g -> apart m g ->
  (forall c vs, In (c, vs) (g_cells g) -> vs <> [] /\ forall v, In v vs -> value f v <> None) ->
  point_to_cell m p g f = Val f' -> In (c, vs) (g_cells g) -> value f' c = Some y ->
  (forall v x, In v vs -> value f v = Some x -> a <= x <= b) -> a <= y <= b.
Proof.
  intros m p g f f' c vs y a b O A H E I V B.
  destruct (point_to_cell_ok m p g f O A H) as [f1 [E1 [_ [_ [_ K]]]]]. rewrite E1 in E. injection E as ->.
  destruct (K c vs I) as [xs [X Vc]]. rewrite Vc in V. injection V as <-.
  assert (L : length xs = length vs) by (rewrite <- (map_length (@Some R) xs), X, map_length; reflexivity).
  apply (convex_bounds (map snd (combine (map (fun v => inv_dist (m_center m c) (m_point m v) p) vs) xs))).
  - apply average_convex.
    + apply Forall_forall. intros [w x] Hw. apply in_combine_l in Hw. apply in_map_iff in Hw.
      destruct Hw as [v [<- _]]. apply inv_dist_pos.
    + destruct (H c vs I) as [Ne _]. destruct vs as [|v0 r]; [destruct (Ne eq_refl)|].
      destruct xs as [|x0 xs]; [discriminate|]. discriminate.
  - intros x Hx. apply in_map_iff in Hx. destruct Hx as [[w x'] [<- Hx]]. apply in_combine_r in Hx. simpl.
    assert (Hs : In (Some x') (map (value f) vs)) by (rewrite <- X; apply in_map; exact Hx).
    apply in_map_iff in Hs. destruct Hs as [v [Hv Iv]]. exact (B v x' Iv Hv).
Qed.
Print Assumptions C24_point_to_cell_bounds.
Theorem C24_cell_to_point_bounds : forall m p g (f f' : mpv R) v y a b, geom_ok g -> closed_geom g -> apart m g ->
  cell_to_point m p g f = Val f' -> value f' v = Some y ->
  (forall c vs x, In (c, vs) (g_cells g) -> In v vs -> value f c = Some x -> a <= x <= b) -> a <= y <= b.
Proof.
  intros m p g f f' v y a b O C A E V B.
  destruct (cell_to_point_ok m p g f O C A) as [f1 [E1 [_ [_ K]]]]. rewrite E1 in E. injection E as ->.
  rewrite K in V. destruct (received m p g (f_data f) v) as [|e l] eqn:R; [discriminate|]. injection V as <-.
  apply (convex_bounds (map snd (e :: l))).
  - apply average_convex; [rewrite <- R; apply received_pos|discriminate].
  - intros x Hx. rewrite <- R in Hx. apply received_data in Hx. destruct Hx as [c [vs [I [Iv F]]]].
    exact (B c vs x I Iv F).
Qed.
Print Assumptions C24_cell_to_point_bounds.
(** A vertex gets a value iff some cell that has it has a value. *)
Theorem C24_cell_to_point_support : forall m p g (f f' : mpv R) v, geom_ok g -> closed_geom g -> apart m g ->
  cell_to_point m p g f = Val f' ->
  (value f' v <> None <-> exists c vs, In (c, vs) (g_cells g) /\ In v vs /\ value f c <> None).
Proof.
  intros m p g f f' v O C A E. destruct (cell_to_point_ok m p g f O C A) as [f1 [E1 [_ [_ K]]]].
  rewrite E1 in E. injection E as ->. rewrite K. split.
  - destruct (received m p g (f_data f) v) as [|e l] eqn:R; [intros H; destruct (H eq_refl)|]. intros _.
    assert (I : In (snd e) (map snd (received m p g (f_data f) v))) by (rewrite R; left; reflexivity).
    apply received_data in I. destruct I as [c [vs [I [Iv F]]]]. exists c, vs. split; [exact I|]. split; [exact Iv|].
    unfold value. rewrite F. discriminate.
  - intros [c [vs [I [Iv F]]]]. destruct (value f c) as [x|] eqn:Fx; [|destruct (F eq_refl)].
    assert (J : In x (map snd (received m p g (f_data f) v))) by (apply received_data; exists c, vs; auto).
    destruct (received m p g (f_data f) v); [destruct J|discriminate].
Qed.
Print Assumptions C24_cell_to_point_support.
(** A vertex without a value does not just drop out of the average of the cell: the call throws. *)
Theorem C24_missing_vertex_refuted : forall m p g (f : mpv R) c vs v, apart m g ->
  In (c, vs) (g_cells g) -> In v vs -> value f v = None -> forall f', point_to_cell m p g f <> Val f'.
Proof.
  intros m p g f c vs v [A _] I Iv F f' E. unfold point_to_cell in E.
  destruct (p2c_loop m p (g_cells g) (f_data f) []) as [d| | |] eqn:L; try discriminate.
  exact (p2c_missing m p (f_data f) (g_cells g) [] c vs v A I Iv F d L).
Qed.
Print Assumptions C24_missing_vertex_refuted.
(** A vertex at the centroid of its cell (a degenerate cell) makes the result infinite or NaN. *)
Theorem C24_degenerate_refuted : exists m p g (f : mpv R), geom_ok g /\ closed_geom g /\ field_ok f /\ complete f /\
  f_geo f = Some g /\ f_loc f = LPoint /\ p <> 0 /\ point_to_cell m p g f = NotFinite.
Proof.
  exists needle, 2, tris, full. split; [exact tris_ok|]. split; [exact tris_closed|].
  split; [split; [simpl; repeat (constructor; [simpl; intuition discriminate|]); constructor|exact tris_ok]|].
  split; [intros id H; destruct H as [<-|[<-|[<-|[<-|[]]]]]; discriminate|].
  split; [reflexivity|]. split; [reflexivity|]. split; [lra|].
  unfold point_to_cell. simpl. unfold weight.
  assert (N : norm (vsub {| vx := 0; vy := 0; vz := 0 |} {| vx := 0; vy := 0; vz := 0 |}) = 0).
  { unfold norm, dot, vsub. simpl. replace ((0 - 0) * (0 - 0) + (0 - 0) * (0 - 0) + (0 - 0) * (0 - 0)) with 0 by lra. apply sqrt_0. }
  rewrite N. unfold inv_pow. destruct (Req_EM_T 0 0) as [_|n]; [|destruct (n eq_refl)].
  destruct (Req_EM_T 2 0); [lra|reflexivity].
Qed.
Print Assumptions C24_degenerate_refuted.
Example C24_nonvacuous : geom_ok tris /\ closed_geom tris /\ apart flat tris /\
  (forall c vs, In (c, vs) (g_cells tris) -> vs <> [] /\ forall v, In v vs -> value full v <> None) /\
  received flat 1 tris (f_data one_cell) 4 = [] /\ received flat 1 tris (f_data one_cell) 2 <> [].
Proof.
  split; [exact tris_ok|]. split; [exact tris_closed|]. split; [exact flat_apart|]. split; [exact full_covers|].
  split; [reflexivity|discriminate].
Qed.

(** C49: the reconstruction with gradients.  What the code computes: the average, weighted by the
    inverse cubed volumes, of v + v * (grad . dx). *)
Theorem C49_formula_partial : forall m g (f fx fy fz : mpv R), geom_ok g -> closed_geom g ->
  (forall c vs, In (c, vs) (g_cells g) -> m_volume m c <> 0) ->
  (forall c vs, In (c, vs) (g_cells g) -> value f c <> None -> value fx c <> None /\ value fy c <> None /\ value fz c <> None) ->
  exists f', cell_to_point_grad m false g f fx fy fz = Val f' /\ f_geo f' = Some g /\ f_loc f' = LPoint /\
    forall v, value f' v = match rebuilt (fun x grad dx => x + x * dot grad dx) m g f fx fy fz v with
                           | [] => None | l => Some (average l) end.
Proof.
  intros m g f fx fy fz O C A G. destruct (cell_to_point_grad_ok m g f fx fy fz O C A G) as [f' [E [H1 [H2 K]]]].
  exists f'. split; [exact E|]. split; [exact H1|]. split; [exact H2|]. intros v. rewrite K.
  replace (rebuilt (fun x grad dx => x + x * dot grad dx) m g f fx fy fz v) with (rebuilt extrapolate m g f fx fy fz v); [reflexivity|].
  unfold rebuilt. apply flat_map_ext. intros [c vs]. destruct (find c (f_data f)); [|reflexivity].
  apply map_ext. intros _. f_equal. unfold extrapolate, dot. lra.
Qed.
Print Assumptions C49_formula_partial.
(** With zero gradients the result stays within the bounds of the data of the cells. *)
Theorem C49_zero_gradient_partial : forall m g (f fx fy fz f' : mpv R) v y a b, geom_ok g -> closed_geom g ->
  (forall c vs, In (c, vs) (g_cells g) -> m_volume m c <> 0) ->
  (forall c vs, In (c, vs) (g_cells g) -> value fx c = Some 0 /\ value fy c = Some 0 /\ value fz c = Some 0) ->
  cell_to_point_grad m false g f fx fy fz = Val f' -> value f' v = Some y ->
  (forall c vs x, In (c, vs) (g_cells g) -> In v vs -> value f c = Some x -> a <= x <= b) -> a <= y <= b.
Proof.
  intros m g f fx fy fz f' v y a b O C A G E V B.
  destruct (cell_to_point_grad_ok m g f fx fy fz O C A) as [f1 [E1 [_ [_ K]]]].
  - intros c vs I _. destruct (G c vs I) as [-> [-> ->]]. split; [|split]; discriminate.
  - rewrite E1 in E. injection E as ->. rewrite K in V.
    destruct (rebuilt extrapolate m g f fx fy fz v) as [|e l] eqn:R; [discriminate|]. injection V as <-.
    apply (convex_bounds (map snd (e :: l))).
    + apply average_convex; [rewrite <- R; apply rebuilt_pos|discriminate].
    + intros x Hx. rewrite <- R in Hx. apply rebuilt_data in Hx. destruct Hx as [c [vs [x0 [I [Iv [F ->]]]]]].
      destruct (G c vs I) as [Gx [Gy Gz]]. unfold value in Gx, Gy, Gz. unfold cell_grad. rewrite Gx, Gy, Gz.
      change (V3 0 0 0) with vzero. rewrite extrapolate_zero. exact (B c vs x0 I Iv F).
Qed.
Print Assumptions C49_zero_gradient_partial.
(** A linear field, given by its values at the centroids and its exact gradient, is not
    reproduced at the vertices. *)
Theorem C49_linear_refuted : exists m g (f fx fy fz f' : mpv R) v y, geom_ok g /\ closed_geom g /\
  (forall c x, value f c = Some x -> x = vx (m_center m c)) /\
  (forall c, value f c <> None -> cell_grad fx fy fz c = V3 1 0 0) /\
  cell_to_point_grad m false g f fx fy fz = Val f' /\ value f' v = Some y /\ y <> vx (m_point m v).
Proof.
  destruct linear_wrong as [f' [E V]].
  exists flat, tris, two_cells, (const_cells 1), (const_cells 0), (const_cells 0), f', 4%nat, 4.
  split; [exact tris_ok|]. split; [exact tris_closed|]. split; [exact linear_cells|]. split.
  - intros c H. apply value_in in H. destruct H as [<-|[<-|[]]]; reflexivity.
  - split; [exact E|]. split; [exact V|]. simpl. lra.
Qed.
Print Assumptions C49_linear_refuted.
(** "maximum: use simple averaging" keeps the largest value instead. *)
Theorem C49_maximum_refuted : exists m g (f fx fy fz f' : mpv R) v y, geom_ok g /\ closed_geom g /\
  (forall c, value f c <> None -> cell_grad fx fy fz c = vzero) /\
  cell_to_point_grad m true g f fx fy fz = Val f' /\ value f' v = Some y /\
  y <> average (map (fun x => (1, x)) (flat_map (fun '(c, vs) => if existsb (Nat.eqb v) vs then match value f c with Some x => [x] | None => [] end else []) (g_cells g))).
Proof.
  destruct maximum_not_average as [f' [E V]].
  exists flat, tris, two_cells, (const_cells 0), (const_cells 0), (const_cells 0), f', 2%nat, 2.
  split; [exact tris_ok|]. split; [exact tris_closed|]. split.
  - intros c H. apply value_in in H. destruct H as [<-|[<-|[]]]; reflexivity.
  - split; [exact E|]. split; [exact V|]. unfold average. simpl. lra.
Qed.
Print Assumptions C49_maximum_refuted.
Example C49_nonvacuous : (forall c vs, In (c, vs) (g_cells tris) -> m_volume flat c <> 0) /\
  (forall c vs, In (c, vs) (g_cells tris) -> value (const_cells 0) c = Some 0) /\
  rebuilt extrapolate flat tris two_cells (const_cells 0) (const_cells 0) (const_cells 0) 2 <> [].
Proof.
  split; [intros c vs _; simpl; lra|]. split; [|discriminate].
  intros c vs [H|[H|[]]]; injection H as <- <-; reflexivity.
Qed.

(** C51: averages from the vertices to the border interfaces: exactly the border interfaces whose
    vertices all have a value get one, the weighted average of these values. *)
Theorem C51_boundary : forall m p g (f : mpv R), geom_ok g -> apart m g ->
  (forall i b vs, In (i, (b, vs)) (g_ifaces g) -> vs <> []) ->
  exists f', point_to_boundary m p g f = Val f' /\ f_geo f' = Some g /\ f_loc f' = LIface /\
    (forall i, value f' i <> None -> In i (map fst (g_ifaces g))) /\
    forall i b vs, In (i, (b, vs)) (g_ifaces g) ->
      ((b = true /\ forall v, In v vs -> value f v <> None) /\
       exists xs, map Some xs = map (value f) vs /\
         value f' i = Some (average (combine (map (fun v => inv_dist (m_icenter m i) (m_point m v) p) vs) xs)))
      \/ (~ (b = true /\ forall v, In v vs -> value f v <> None) /\ value f' i = None).
Proof. exact point_to_boundary_ok. Qed.
Print Assumptions C51_boundary.
Example C51_nonvacuous : geom_ok tris /\ apart flat tris /\ (forall i b vs, In (i, (b, vs)) (g_ifaces tris) -> vs <> []).
Proof.
  split; [exact tris_ok|]. split; [exact flat_apart|].
  intros i b vs [H|[H|[]]]; injection H as <- <- <-; discriminate.
Qed.
