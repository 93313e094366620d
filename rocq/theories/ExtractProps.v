(** C95, C96: fields extracted on a portion of a geometry, fields chosen in a list. *)
From Coq Require Import List Arith Bool Reals Lia Lra.
From Verif Require Import SharedPtr SharedPtrProofs Field FieldSpec FieldProofs Vec ReconSpec ReconProofs Extract ExtractSpec ExtractProofs.
Import ListNotations.
Open Scope nat_scope.

(** ** C95 : the field extracted is the field given, restricted to the elements asked for. *)

(** By id: the entries whose id is an element of the target, on the target. *)
Theorem C95_id : forall A kind mesh pid pid_list iface_of near g (f old : fieldv A), sound_field mesh f -> geom_ok (mesh g) -> v_loc f <> LUndef ->
  exists r, extract kind mesh pid pid_list iface_of near ById (Some g) f old = Some (true, r) /\
            portion f r g (fun id => In id (elements_of (mesh g) (v_loc f))).
Proof.
  intros A kind mesh pid pid_list iface_of near g f old Sf Gk L. unfold extract. destruct Sf as (N & gf & G & Gok & Sub). rewrite G.
  rewrite (coherent_ok mesh f (conj N (ex_intro _ gf (conj G (conj Gok Sub))))). cbn [negb].
  assert (E : (match v_loc f with LUndef => LPoint | l => l end) = v_loc f) by (destruct (v_loc f); congruence). rewrite E. unfold extractID.
  destruct (pick_portion kind mesh pid pid_list iface_of near (loc_ids (mesh g) (v_loc f)) (v_data f) (ids_nodup _ _ Gk) N) as (d & Q & Nd & Hd). rewrite Q.
  eexists. split; [reflexivity|]. split; [reflexivity|]. split; [reflexivity|]. split; [exact Nd|]. intros id x. cbn [v_data]. rewrite Hd, loc_ids_elements. reflexivity.
Qed.

(** By part identifier: the entries on the cells whose identifier is one of the target (for a field on
    vertices, on their vertices), on the geometry of the field. *)
Theorem C95_pid : forall A kind mesh pid pid_list iface_of near g gf (f old : fieldv A), sound_field mesh f -> v_geo f = Some gf -> kind gf <> 3 -> point_or_cell (v_loc f) ->
  pids_right mesh pid pid_list g -> pids_right mesh pid pid_list gf ->
  exists r, extract kind mesh pid pid_list iface_of near ByPid (Some g) f old = Some (true, r) /\
            portion f r gf (belongs mesh gf (v_loc f) (fun c => exists c' vs', In (c', vs') (g_cells (mesh g)) /\ pid g c' = pid gf c)).
Proof.
  intros A kind mesh pid pid_list iface_of near g gf f old Sf G K L Pg Pf. unfold extract. rewrite G, (coherent_ok mesh f Sf). cbn [negb].
  assert (E : (match v_loc f with LUndef => LPoint | l => l end) = v_loc f) by (destruct L as [-> | ->]; reflexivity). rewrite E. unfold extractPID.
  destruct Sf as (N & gf' & G' & Gok & Sub). rewrite G in G'. injection G' as <-.
  assert (Pc : forall c, In c (pid_cells mesh pid gf (common_pids pid_list g gf)) <-> (exists vs, In (c, vs) (g_cells (mesh gf))) /\ exists c' vs', In (c', vs') (g_cells (mesh g)) /\ pid g c' = pid gf c).
  { intros c. rewrite pid_cells_in, (common_in kind mesh pid pid_list iface_of near), (Pg (pid gf c)), (Pf (pid gf c)). split; [tauto|]. intros ((vs & H) & X). split; [exists vs; exact H|]. split; [exact X|]. exists c, vs. split; [exact H|reflexivity]. }
  assert (Nc : NoDup (pid_cells mesh pid gf (common_pids pid_list g gf))) by (apply NoDup_filter; apply (proj1 (proj2 Gok))).
  destruct (pick_portion kind mesh pid pid_list iface_of near (elements_of_cells kind mesh iface_of gf (v_loc f) (pid_cells mesh pid gf (common_pids pid_list g gf))) (v_data f)) as (d & Q & Nd & Hd); [|exact N|].
  { destruct L as [-> | ->]; cbn [elements_of_cells]; [apply verts_nodup|exact Nc]. }
  rewrite Q. eexists. split; [reflexivity|]. split; [reflexivity|]. split; [reflexivity|]. split; [exact Nd|]. intros id x. cbn [v_data]. rewrite Hd.
  assert (B : In id (elements_of_cells kind mesh iface_of gf (v_loc f) (pid_cells mesh pid gf (common_pids pid_list g gf))) <->
              belongs mesh gf (v_loc f) (fun c => exists c' vs', In (c', vs') (g_cells (mesh g)) /\ pid g c' = pid gf c) id).
  { destruct L as [-> | ->]; cbn [elements_of_cells belongs].
    - rewrite (verts_in kind mesh gf _ id K Gok). split.
      + intros (c & vs & Hc & H & I). apply Pc in Hc. exists c, vs. split; [exact (proj2 Hc)|]. split; assumption.
      + intros (c & vs & Hc & H & I). exists c, vs. split; [apply Pc; split; [exists vs; exact H|exact Hc]|]. split; assumption.
    - rewrite Pc. tauto. }
  rewrite B. reflexivity.
Qed.

(** By mapping: the entries whose id is that of an element of a cell of the target found near the
    geometry of the field, on the target. *)
Theorem C95_mapping : forall A kind mesh pid pid_list iface_of near g gf (f old : fieldv A), sound_field mesh f -> v_geo f = Some gf -> geom_ok (mesh g) -> kind g <> 3 -> point_or_cell (v_loc f) ->
  NoDup (near gf g) -> (forall c, In c (near gf g) -> exists vs, In (c, vs) (g_cells (mesh g))) ->
  exists r, extract kind mesh pid pid_list iface_of near ByMap (Some g) f old = Some (true, r) /\
            portion f r g (belongs mesh g (v_loc f) (fun c => In c (near gf g))).
Proof.
  intros A kind mesh pid pid_list iface_of near g gf f old Sf G Gk K L Nn Cn. unfold extract. rewrite G, (coherent_ok mesh f Sf). cbn [negb].
  assert (E : (match v_loc f with LUndef => LPoint | l => l end) = v_loc f) by (destruct L as [-> | ->]; reflexivity). rewrite E. unfold extractMapping.
  destruct Sf as (N & gf' & G' & Gok & Sub).
  destruct (pick_portion kind mesh pid pid_list iface_of near (elements_of_cells kind mesh iface_of g (v_loc f) (near gf g)) (v_data f)) as (d & Q & Nd & Hd); [|exact N|].
  { destruct L as [-> | ->]; cbn [elements_of_cells]; [apply verts_nodup|exact Nn]. }
  rewrite Q. eexists. split; [reflexivity|]. split; [reflexivity|]. split; [reflexivity|]. split; [exact Nd|]. intros id x. cbn [v_data]. rewrite Hd.
  assert (B : In id (elements_of_cells kind mesh iface_of g (v_loc f) (near gf g)) <-> belongs mesh g (v_loc f) (fun c => In c (near gf g)) id).
  { destruct L as [-> | ->]; cbn [elements_of_cells belongs].
    - apply verts_in; assumption.
    - split; [intros H; split; [exact H|apply Cn; exact H]|tauto]. }
  rewrite B. reflexivity.
Qed.

(** Nothing is done without a target, without a geometry of the field, or when the field has an id
    that is not of its geometry. *)
Theorem C95_refused : forall A kind mesh pid pid_list iface_of near mode target (f old : fieldv A),
  target = None \/ v_geo f = None \/ (exists g id, v_geo f = Some g /\ In id (map fst (v_data f)) /\ ~ In id (elements_of (mesh g) (v_loc f))) ->
  extract kind mesh pid pid_list iface_of near mode target f old = Some (false, old).
Proof.
  intros A kind mesh pid pid_list iface_of near mode target f old H. unfold extract. destruct target as [g|]; [|reflexivity]. destruct (v_geo f) as [gf|] eqn:G; [|reflexivity].
  destruct H as [H | [H | (g' & id & G' & I & N)]]; [discriminate|discriminate|]. injection G' as <-.
  assert (C : coherent_field mesh f = false).
  { destruct (coherent_field mesh f) eqn:C; [|reflexivity]. unfold coherent_field in C. apply check_ids_iff in C. destruct C as (_ & C). rewrite G in C. specialize (C id). destruct N.
    unfold elements in C. cbn in C. apply C. unfold value. cbn. intros X. apply find_none_keys in X. exact (X I). }
  rewrite C. reflexivity.
Qed.

(** The mapping is not by place: two copies of a segment numbered in opposite ways, the value given
    to a point of the target is that of the other end. *)
Definition segment (a b : nat) : geom := {| g_verts := [a; b]; g_cells := [(0, [a; b])]; g_ifaces := []; g_interior := fun _ => true |}.
Theorem C95_mapping_refuted : exists kind mesh (place : nat -> nat -> vec) near (f r : fieldv R),
  sound_field mesh f /\ v_geo f = Some 0 /\ (forall c, In c (near 0 1) <-> exists vs, In (c, vs) (g_cells (mesh 1))) /\
  extract kind mesh (fun _ _ => 0) (fun _ => [0]) (fun _ _ => []) near ByMap (Some 1) f empty_field = Some (true, r) /\
  exists id id' x y, In (id, x) (v_data r) /\ In (id', y) (v_data f) /\ place 1 id = place 0 id' /\
    (forall i, In i (g_verts (mesh 0)) -> place 0 i = place 1 id -> i = id') /\ x <> y.
Proof.
  exists (fun _ => 4), (fun g => match g with 0 => segment 0 1 | _ => segment 1 0 end).
  exists (fun g i => match g, i with 0, 0 => V3 0 0 0 | 0, _ => V3 1 0 0 | _, 0 => V3 1 0 0 | _, _ => V3 0 0 0 end), (fun _ _ => [0]).
  exists {| v_geo := Some 0; v_loc := LPoint; v_name := 0; v_data := [(0, 5%R); (1, 7%R)] |}, {| v_geo := Some 1; v_loc := LPoint; v_name := 0; v_data := [(1, 7%R); (0, 5%R)] |}.
  assert (Nd : forall l, nodup Nat.eq_dec l = l -> NoDup l) by (intros l <-; apply NoDup_nodup).
  split; [split; [apply Nd; reflexivity|]|].
  { exists 0. split; [reflexivity|]. split; [split; [|split]; apply Nd; reflexivity|]. intros id H. exact H. }
  split; [reflexivity|]. split.
  { intros c. cbn. split; [intros [<- | []]; exists [1; 0]; left; reflexivity|]. intros (vs & [E | []]). left. congruence. }
  split; [reflexivity|]. exists 1, 0, 7%R, 5%R. split; [left; reflexivity|]. split; [left; reflexivity|]. split; [reflexivity|]. split; [|lra].
  intros i [<- | [<- | []]] E; [reflexivity|]. cbn in E. injection E as E. lra.
Qed.

(** The mode written to a configuration file is not the one read back. *)
Theorem C95_xml_refuted : exists m, absorb_extract_mode (Some (extract_mode_int m)) ById <> m.
Proof. exists ByPid. discriminate. Qed.

(** A square split in two cells with different identifiers; the target has one of them. *)
Definition two_cells : nat -> geom := fun g => match g with
  | 0 => {| g_verts := [0; 1; 2; 3]; g_cells := [(0, [0; 1; 2]); (1, [0; 2; 3])]; g_ifaces := []; g_interior := fun _ => true |}
  | _ => {| g_verts := [0; 2; 3]; g_cells := [(1, [0; 2; 3])]; g_ifaces := []; g_interior := fun _ => true |}
  end.
Definition ramp : fieldv nat := {| v_geo := Some 0; v_loc := LPoint; v_name := 0; v_data := [(3, 30); (1, 10); (0, 100)] |}.
Example C95_nonvacuous : sound_field two_cells ramp /\ geom_ok (two_cells 1) /\ pids_right two_cells (fun _ c => c) (fun g => match g with 0 => [0; 1] | _ => [1] end) 1 /\
  extract (fun _ => 1) two_cells (fun _ c => c) (fun g => match g with 0 => [0; 1] | _ => [1] end) (fun _ _ => []) (fun _ _ => []) ByPid (Some 1) ramp empty_field =
    Some (true, {| v_geo := Some 0; v_loc := LPoint; v_name := 0; v_data := [(0, 100); (3, 30)] |}).
Proof.
  assert (Nd : forall l, nodup Nat.eq_dec l = l -> NoDup l) by (intros l <-; apply NoDup_nodup).
  assert (Gk : forall g, geom_ok (two_cells g)) by (intros [|g]; (split; [|split]); apply Nd; reflexivity).
  split; [split; [apply Nd; reflexivity|]; exists 0; split; [reflexivity|]; split; [apply Gk|]; cbn; intros id H; tauto|].
  split; [apply Gk|]. split; [|reflexivity]. intros p. cbn. split; [intros [<- | []]; exists 1, [0; 2; 3]; split; [left; reflexivity|reflexivity]|].
  intros (c & vs & [E | []] & H). left. congruence.
Qed.

(** ** C96 : the field chosen in a list is the first one on the geometry or with the name; by mapping,
    every element of the target has the mean of the values of the fields (of longs and strings, the
    first). *)

Lemma find_first A (p : fieldv A -> bool) (P : fieldv A -> Prop) fs : (forall f, p f = true <-> P f) ->
  match List.find p fs with Some f => first_one P fs f | None => forall f, In f fs -> ~ P f end.
Proof.
  intros E. induction fs as [|f r IH]; cbn [List.find]; [intros f []|]. destruct (p f) eqn:B.
  - exists [], r. split; [reflexivity|]. split; [apply E; exact B|intros f' []].
  - destruct (List.find p r) as [f'|].
    + destruct IH as (l & q & -> & H & N). exists (f :: l), q. split; [reflexivity|]. split; [exact H|]. intros x [<- | X]; [|exact (N x X)]. intros X. apply E in X. congruence.
    + intros x [<- | X]; [|exact (IH x X)]. intros X. apply E in X. congruence.
Qed.

(** The first field with the name, whole; an empty field and false if there is none. *)
Theorem C96_name : forall A kind mesh pid pid_list iface_of near (add : A -> A -> A) div first loc target name fs,
  exists ok r, mSelect kind mesh pid pid_list iface_of near add div first SName loc target name fs = Some (ok, r) /\
    (if ok then first_one (fun f => v_name f = name) fs r else v_data r = [] /\ v_geo r = None /\ forall f, In f fs -> v_name f <> name).
Proof.
  intros. cbn [mSelect]. pose proof (find_first A (fun f => Nat.eqb (v_name f) name) (fun f => v_name f = name) fs (fun f => Nat.eqb_eq _ _)) as H.
  destruct (List.find (fun f => Nat.eqb (v_name f) name) fs) as [f|].
  - exists true, f. split; [reflexivity|exact H].
  - exists false, empty_field. split; [reflexivity|]. split; [reflexivity|]. split; [reflexivity|exact H].
Qed.

(** The first field on the geometry, whole; an empty field and false if there is none or no geometry. *)
Theorem C96_geometry : forall A kind mesh pid pid_list iface_of near (add : A -> A -> A) div first loc target name fs,
  exists ok r, mSelect kind mesh pid pid_list iface_of near add div first SGeometry loc target name fs = Some (ok, r) /\
    (if ok then target <> None /\ first_one (fun f => v_geo f = target) fs r else v_data r = [] /\ v_geo r = None /\ (target = None \/ forall f, In f fs -> v_geo f <> target)).
Proof.
  intros. cbn [mSelect]. destruct target as [g|].
  2:{ exists false, empty_field. split; [reflexivity|]. split; [reflexivity|]. split; [reflexivity|left; reflexivity]. }
  assert (E : forall f : fieldv A, same_geometry (v_geo f) (Some g) = true <-> v_geo f = Some g).
  { intros f. unfold same_geometry. destruct (v_geo f) as [x|]; [|split; discriminate]. rewrite Nat.eqb_eq. split; [intros ->; reflexivity|intros Q; congruence]. }
  pose proof (find_first A _ _ fs E) as H. destruct (List.find (fun f => same_geometry (v_geo f) (Some g)) fs) as [f|].
  - exists true, f. split; [reflexivity|]. split; [discriminate|exact H].
  - exists false, empty_field. split; [reflexivity|]. split; [reflexivity|]. split; [reflexivity|]. right. exact H.
Qed.

(** Only the fields with the location of the class and a geometry are taken, in the order given. *)
Theorem C96_set : forall A loc (fs : list (option (fieldv A))), exists l, setFields loc fs = l /\ (forall f, In f l <-> In (Some f) fs /\ v_loc f = loc /\ v_geo f <> None) /\
  sublist (map Some l) fs.
Proof.
  intros A loc fs. exists (setFields loc fs). split; [reflexivity|].
  assert (Le : forall a, loc_eqb a loc = true <-> a = loc) by (intros a; destruct a, loc; cbn; split; congruence).
  set (one := fun f : option (fieldv A) => match f with None => false | Some f => loc_eqb (v_loc f) loc && match v_geo f with None => false | Some _ => true end end).
  assert (H : forall l, map Some (fold_left (fun l f => addField loc f l) fs l) = map Some l ++ List.filter one fs).
  { induction fs as [|f r IH]; intros l; cbn [fold_left List.filter]; [rewrite app_nil_r; reflexivity|]. rewrite IH. destruct f as [f|]; cbn [addField one]; [|reflexivity].
    destruct (loc_eqb (v_loc f) loc && match v_geo f with None => false | Some _ => true end); [|reflexivity]. rewrite map_app, <- app_assoc. reflexivity. }
  specialize (H []). cbn [map List.app] in H. unfold setFields. rewrite H. split; [|apply filter_sublist]. intros f.
  assert (X : In f (fold_left (fun l f => addField loc f l) fs []) <-> In (Some f) (List.filter one fs)).
  { rewrite <- H, in_map_iff. split; [intros I; exists f; split; [reflexivity|exact I]|]. intros (f' & E & I). injection E as ->. exact I. }
  rewrite X, filter_In. cbn [one]. rewrite andb_true_iff, Le. destruct (v_geo f); split; intros (A1 & A2 & A3); (split; [exact A1|]); (split; [exact A2|]); congruence.
Qed.

Definition scalar_select kind mesh pid pid_list iface_of near := mSelect (A := R) kind mesh pid pid_list iface_of near Rplus (fun x n => x / INR n)%R false.
Definition label_select {A : Type} kind mesh pid pid_list iface_of near (keep : A -> A -> A) (divide : A -> nat -> A) := mSelect kind mesh pid pid_list iface_of near keep divide true.

(** the fields of the list: of the location of the block, no id twice, on a proper geometry, near cells
    of the target being cells of the target *)
Definition mappable {A : Type} (kind : nat -> nat) (mesh : nat -> geom) (near : nat -> nat -> list nat) (loc : location) (g : nat) (f : fieldv A) : Prop :=
  NoDup (map fst (v_data f)) /\ v_loc f = loc /\ exists gf, v_geo f = Some gf /\ geom_ok (mesh gf) /\ NoDup (near gf g) /\ forall c, In c (near gf g) -> exists vs, In (c, vs) (g_cells (mesh g)).
(** an element of the target counts for a field that is coherent with its geometry, when it belongs to a
    cell near that geometry *)
Definition close {A : Type} (mesh : nat -> geom) (near : nat -> nat -> list nat) (g : nat) (f : fieldv A) (id : nat) : Prop :=
  sound_field mesh f /\ exists gf, v_geo f = Some gf /\ belongs mesh g (v_loc f) (fun c => In c (near gf g)) id.

Lemma mappable_taken A kind mesh pid pid_list iface_of near loc g (f : fieldv A) : geom_ok (mesh g) -> kind g <> 3 -> point_or_cell loc ->
  mappable kind mesh near loc g f -> taken kind mesh pid pid_list iface_of near g (close mesh near g) f.
Proof.
  intros Gk K L (Nf & Lf & gf & G & Ok & Nn & Cn). subst loc.
  destruct (forallb (fun id => existsb (Nat.eqb id) (elements_of (mesh gf) (v_loc f))) (map fst (v_data f))) eqn:B.
  - assert (Sf : sound_field mesh f).
    { split; [exact Nf|]. exists gf. split; [exact G|]. split; [exact Ok|]. intros id I. apply in_existsb. apply (proj1 (forallb_forall _ _) B id I). }
    left. destruct (C95_mapping A kind mesh pid pid_list iface_of near g gf f empty_field Sf G Gk K L Nn Cn) as (r & E & (P1 & P2 & P3 & P4)).
    exists r. split; [exact E|]. split; [exact P1|]. split; [exact P2|]. split; [exact P3|]. intros id x. rewrite P4. unfold close. split.
    + intros (A1 & B1). split; [exact A1|]. split; [exact Sf|]. exists gf. split; assumption.
    + intros (A1 & _ & gf' & G' & B1). split; [exact A1|]. rewrite G in G'. injection G' as <-. exact B1.
  - right. assert (X : exists id, In id (map fst (v_data f)) /\ ~ In id (elements_of (mesh gf) (v_loc f))).
    { clear - B. induction (map fst (v_data f)) as [|i r IH]; cbn [forallb] in B; [discriminate|]. apply andb_false_iff in B. destruct B as [B | B].
      - exists i. split; [left; reflexivity|]. intros I. apply in_existsb in I. congruence.
      - destruct (IH B) as (id & I & N). exists id. split; [right; exact I|exact N]. }
    destruct X as (id & I & N). split.
    + apply C95_refused. right. right. exists gf, id. auto.
    + intros id' ((_ & g' & G' & _ & Sub) & _). rewrite G in G'. injection G' as <-. exact (N (Sub id I)).
Qed.

(** By mapping, scalars: the mean of the values on the elements of the target found near the geometry
    of the fields. *)
Theorem C96_mean : forall kind mesh pid pid_list iface_of near loc g name fs, geom_ok (mesh g) -> kind g <> 3 -> point_or_cell loc -> Forall (mappable kind mesh near loc g) fs ->
  exists r, scalar_select kind mesh pid pid_list iface_of near SMapping loc (Some g) name fs = Some (true, r) /\ v_geo r = Some g /\ v_loc r = loc /\ NoDup (map fst (v_data r)) /\
    forall id, exists vs, values_at (close mesh near g) id fs vs /\
      ((vs = [] /\ ~ In id (map fst (v_data r))) \/ (vs <> [] /\ exists x, In (id, x) (v_data r) /\ (x * INR (length vs) = total vs)%R)).
Proof.
  intros kind mesh pid pid_list iface_of near loc g name fs Gk K L F. unfold scalar_select. cbn [mSelect]. destruct (Nat.eqb_spec (kind g) 3); [contradiction|].
  destruct (over_ok kind mesh pid pid_list iface_of near g (close mesh near g) (pour Rplus) pinv (pholds Rplus) (pour_ok Rplus) fs ([], [])) as ([res rep] & Q & (P1 & P2) & H).
  - apply Forall_forall. intros f Hf. apply (mappable_taken R kind mesh pid pid_list iface_of near loc g f Gk K L). apply (proj1 (Forall_forall _ _) F f Hf).
  - apply Forall_forall. intros f Hf. apply (proj1 (Forall_forall _ _) F f Hf).
  - split; constructor.
  - intros id. exists []. split; reflexivity.
  - rewrite Q. eexists. split; [reflexivity|]. cbn [v_geo v_loc v_data fst snd] in *. split; [reflexivity|]. split; [reflexivity|]. split; [rewrite resolve_keys; exact P1|].
    intros id. destruct (H id [] (conj eq_refl eq_refl)) as (vs & C & V). cbn [List.app] in V. exists vs. split; [exact C|].
    destruct vs as [|v q]; cbn [pholds fst snd] in V; destruct V as (V1 & V2).
    + left. split; [reflexivity|]. rewrite resolve_keys. apply find_none_keys. exact V1.
    + right. split; [discriminate|]. pose proof (resolve_find (fun x n => x / INR n)%R rep res id P2) as X. rewrite V1, V2 in X. rewrite sum_fold in X.
      assert (Nz : INR (S (length q)) <> 0%R) by (apply not_0_INR; discriminate).
      destruct q as [|w q']; cbn [option_map] in X; apply find_in in X; eexists; (split; [exact X|]); cbn [length total] in *; [cbn [INR]; lra|field; exact Nz].
Qed.

(** By mapping, longs and strings: the first of the values. *)
Theorem C96_first : forall A kind mesh pid pid_list iface_of near (keep : A -> A -> A) divide loc g name fs, geom_ok (mesh g) -> kind g <> 3 -> point_or_cell loc -> Forall (mappable kind mesh near loc g) fs ->
  exists r, label_select kind mesh pid pid_list iface_of near keep divide SMapping loc (Some g) name fs = Some (true, r) /\ v_geo r = Some g /\ v_loc r = loc /\ NoDup (map fst (v_data r)) /\
    forall id x, In (id, x) (v_data r) <-> exists vs, values_at (close mesh near g) id fs (x :: vs).
Proof.
  intros A kind mesh pid pid_list iface_of near keep divide loc g name fs Gk K L F. unfold label_select. cbn [mSelect]. destruct (Nat.eqb_spec (kind g) 3); [contradiction|].
  destruct (over_ok kind mesh pid pid_list iface_of near g (close mesh near g) pour_first (fun st : list (nat * A) * list (nat * nat) => NoDup (map fst (fst st))) fholds
    (fun d st N I _ => pour_first_ok d st N I) fs ([], [])) as ([res rep] & Q & P1 & H).
  - apply Forall_forall. intros f Hf. apply (mappable_taken A kind mesh pid pid_list iface_of near loc g f Gk K L). apply (proj1 (Forall_forall _ _) F f Hf).
  - apply Forall_forall. intros f Hf. apply (proj1 (Forall_forall _ _) F f Hf).
  - constructor.
  - intros id. exists []. reflexivity.
  - rewrite Q. eexists. split; [reflexivity|]. cbn [v_geo v_loc v_data fst snd] in *. split; [reflexivity|]. split; [reflexivity|]. split; [exact P1|].
    intros id x. destruct (H id [] eq_refl) as (vs & C & V). cbn [List.app] in V. unfold fholds in V. cbn [fst] in V. rewrite <- (find_iff _ res id x P1), V. split.
    + destruct vs as [|y q]; [discriminate|]. cbn [hd_error]. intros E. injection E as ->. exists q. exact C.
    + intros (ws & C'). assert (Un : forall (l : list (fieldv A)) us, values_at (close mesh near g) id l us -> forall us', values_at (close mesh near g) id l us' -> Forall (mappable kind mesh near loc g) l -> us = us').
      { clear. induction 1 as [|f v l us Kf I C IH|f l us Nf C IH]; intros us' C' F; inversion C' as [E1 E2|f' v' l' us'' Kf' I' C'' E1 E2|f' l' us'' Nf' C'' E1 E2]; try reflexivity; destruct (proj1 (Forall_cons_iff _ _ _) F) as (Ff & Fl).
        - f_equal; [|apply IH; assumption]. destruct Ff as (N & _). apply (find_iff _ _ _ _ N) in I. apply (find_iff _ _ _ _ N) in I'. congruence.
        - destruct Nf'. split; [exact Kf|apply (in_map fst _ _ I)].
        - destruct Nf. split; [exact Kf'|apply (in_map fst _ _ I')].
        - apply IH; assumption. }
      rewrite (Un _ _ C _ C' F). reflexivity.
Qed.

(** A point cloud or no target: false and an empty field. *)
Theorem C96_no_mapping : forall A kind mesh pid pid_list iface_of near (add : A -> A -> A) div first loc target name fs,
  match target with None => True | Some g => kind g = 3 end ->
  mSelect kind mesh pid pid_list iface_of near add div first SMapping loc target name fs = Some (false, empty_field).
Proof. intros A kind mesh pid pid_list iface_of near add div first loc [g|] name fs H; [|reflexivity]. cbn [mSelect]. rewrite H. reflexivity. Qed.

(** The documented choice of the first field is not what is done for scalars. *)
Theorem C96_first_refuted : exists kind mesh near loc g fs r id x vs,
  scalar_select kind mesh (fun _ _ => 0) (fun _ => [0]) (fun _ _ => []) near SMapping loc (Some g) 0 fs = Some (true, r) /\ values_at (close mesh near g) id fs (x :: vs) /\ ~ In (id, x) (v_data r).
Proof.
  exists (fun _ => 1), (fun _ => segment 0 1), (fun _ _ => [0]), LPoint, 0.
  exists [{| v_geo := Some 0; v_loc := LPoint; v_name := 0; v_data := [(0, 1%R)] |}; {| v_geo := Some 0; v_loc := LPoint; v_name := 0; v_data := [(0, 3%R)] |}].
  exists {| v_geo := Some 0; v_loc := LPoint; v_name := 0; v_data := [(0, ((1 + 3) / 2)%R)] |}, 0, 1%R, [3%R].
  assert (C : forall d : list (nat * R), NoDup (map fst d) -> (forall id, In id (map fst d) -> In id [0; 1]) -> close (fun _ => segment 0 1) (fun _ _ => [0]) 0 {| v_geo := Some 0; v_loc := LPoint; v_name := 0; v_data := d |} 0).
  { intros d H1 H2. assert (Nd : forall l, nodup Nat.eq_dec l = l -> NoDup l) by (intros l <-; apply NoDup_nodup). split.
    - split; [exact H1|]. exists 0. split; [reflexivity|]. split; [split; [|split]; apply Nd; reflexivity|exact H2].
    - exists 0. split; [reflexivity|]. cbn. exists 0, [0; 1]. split; [left; reflexivity|]. split; [left; reflexivity|left; reflexivity]. }
  split; [|split].
  - unfold scalar_select. cbn. repeat f_equal; lra.
  - apply va_has; [apply C|left; reflexivity|]; [| |apply va_has; [apply C|left; reflexivity|constructor]]; cbn; try (apply (NoDup_nodup Nat.eq_dec [0])); intros id [<- | []]; left; reflexivity.
  - intros [E | []]. injection E as E. lra.
Qed.

(** The mode by mapping cannot be given by a configuration file. *)
Theorem C96_xml : forall n m, absorb_select_mode (Some n) m <> SMapping.
Proof. intros [|n] m; discriminate. Qed.
Theorem C96_xml_refuted : exists m old, absorb_select_mode (Some (select_mode_int m)) old <> m.
Proof. exists SMapping, SName. discriminate. Qed.

Definition label (name g v : nat) : fieldv nat := {| v_geo := Some g; v_loc := LCell; v_name := name; v_data := [(1, v)] |}.
Example C96_nonvacuous : mappable (fun _ => 1) two_cells (fun _ _ => [1]) LCell 0 (label 7 1 42) /\
  label_select (fun _ => 1) two_cells (fun _ _ => 0) (fun _ => [0]) (fun _ _ => []) (fun _ _ => [1]) (fun x _ => x) (fun x _ => x) SMapping LCell (Some 0) 9 [label 7 1 42; label 8 0 43] =
    Some (true, {| v_geo := Some 0; v_loc := LCell; v_name := 0; v_data := [(1, 42)] |}) /\
  label_select (fun _ => 1) two_cells (fun _ _ => 0) (fun _ => [0]) (fun _ _ => []) (fun _ _ => [1]) (fun x _ => x) (fun x _ => x) SName LCell None 8 [label 7 1 42; label 8 0 43] = Some (true, label 8 0 43).
Proof.
  assert (Nd : forall l, nodup Nat.eq_dec l = l -> NoDup l) by (intros l <-; apply NoDup_nodup).
  split; [|split; reflexivity]. split; [apply Nd; reflexivity|]. split; [reflexivity|]. exists 1. split; [reflexivity|]. split; [split; [|split]; apply Nd; reflexivity|].
  split; [apply Nd; reflexivity|]. intros c [<- | []]. exists [0; 2; 3]. right. left. reflexivity.
Qed.

Print Assumptions C95_id.
Print Assumptions C95_pid.
Print Assumptions C95_mapping.
Print Assumptions C95_refused.
Print Assumptions C95_mapping_refuted.
Print Assumptions C95_xml_refuted.
Print Assumptions C96_name.
Print Assumptions C96_geometry.
Print Assumptions C96_set.
Print Assumptions C96_mean.
Print Assumptions C96_first.
Print Assumptions C96_no_mapping.
Print Assumptions C96_first_refuted.
Print Assumptions C96_xml.
Print Assumptions C96_xml_refuted.
