(** Proofs about the files of labelled displacements and of clouds of points. *)
From Coq Require Import List NArith ZArith Bool Lia FinFun.
From Verif Require Import Text TextSpec TextProofs CsvIoProofs LabelIo LabelIoSpec.
Import ListNotations.
Open Scope nat_scope.

(** ** Characters *)
Definition plain (l : list N) : Prop := forall c, In c l -> is_space c = false.
Lemma digit_plain : forall c, is_digit c = true -> is_space c = false.
Proof.
  intros c H. unfold is_digit in H. apply andb_true_iff in H. destruct H as (A & B). apply N.leb_le in A. unfold is_space. apply orb_false_iff. split; [apply N.eqb_neq; lia|]. apply andb_false_iff. right. apply N.leb_gt. lia.
Qed.
Lemma show_int_plain : forall z, plain (show_int z).
Proof.
  intros z c. unfold show_int. destruct (Z.ltb z 0); [intros [<- | I]; [reflexivity|]|intros I]; apply digit_plain; apply (show_N_digits _ _ c I).
Qed.
Lemma show_int_nonempty : forall z, show_int z <> [].
Proof. intros z E. destruct (show_int_head z []) as (c & r & Q & _). rewrite E in Q. discriminate. Qed.
Lemma show_num_plain : forall p d, plain (show_num p d).
Proof.
  intros p d c I. unfold show_num in I. destruct (rounded p d) as (m, e). apply in_app_or in I. destruct I as [I|[<- | I]]; [apply (show_int_plain m c I)|reflexivity|apply (show_int_plain e c I)].
Qed.
Lemma show_num_nonempty : forall p d, show_num p d <> [].
Proof. intros p d E. destruct (show_num_head p d []) as (c & r & Q & _). rewrite E in Q. discriminate. Qed.
Definition word (l : list N) : Prop := l <> [] /\ plain l.
Lemma out_word : forall d, word (out d).
Proof. intros d. split; [apply show_num_nonempty|apply show_num_plain]. Qed.
Lemma token_word : forall c l, is_space c = false -> word (token c l).
Proof.
  intros c l H. split; [discriminate|]. intros x [<- | [<- | I]]; [reflexivity|exact H|]. apply in_app_or in I. destruct I as [I|[<- | []]]; [apply (show_int_plain l x I)|reflexivity].
Qed.
Lemma tokens_words : forall l, Forall word (tokens l).
Proof. intros l. repeat constructor; try (apply token_word; reflexivity); apply token_word; reflexivity. Qed.
Lemma points_words : forall p, Forall word (out_point p).
Proof. intros ((x, y), z). cbn. repeat (constructor; [apply out_word|]). constructor. Qed.
Lemma key_displ : word k_displ. Proof. split; [discriminate|]. intros c. cbn. intuition (subst; reflexivity). Qed.
Lemma key_point : word k_point. Proof. split; [discriminate|]. intros c. cbn. intuition (subst; reflexivity). Qed.
Lemma key_scalar : word k_scalar. Proof. split; [discriminate|]. intros c. cbn. intuition (subst; reflexivity). Qed.
Lemma key_vector : word k_vector. Proof. split; [discriminate|]. intros c. cbn. intuition (subst; reflexivity). Qed.

(** ** Lines *)
Definition one_line (l : list N) : Prop := forall c, In c l -> c <> c_line.
Lemma lines_next : forall b r, one_line b -> lines (b ++ c_line :: r) = b :: lines r.
Proof.
  induction b as [|c b IH]; intros r H; [reflexivity|]. cbn [app lines]. destruct (N.eqb_spec c c_line) as [E|E]; [exfalso; apply (H c); [left; reflexivity|exact E]|].
  rewrite IH; [reflexivity|]. intros x I. apply H. right. exact I.
Qed.
Lemma lines_text : forall rows, Forall one_line rows -> lines (text rows) = rows ++ [[]].
Proof.
  induction rows as [|b rows IH]; intros H; [reflexivity|]. inversion H as [|? ? H1 H2]; subst. unfold text. cbn [flat_map]. rewrite <- app_assoc. cbn [app]. rewrite lines_next by exact H1. fold (text rows). rewrite IH by exact H2. reflexivity.
Qed.
Lemma row_one_line : forall key label vals, word key -> Forall word vals -> one_line (row key label vals).
Proof.
  assert (P : forall l, plain l -> one_line l). { intros l H c I -> . specialize (H _ I). discriminate H. }
  intros key label vals (_ & K) V c I. unfold row in I. apply in_app_or in I. destruct I as [I|[<- | I]]; [apply (P key K c I)|discriminate|].
  apply in_app_or in I. destruct I as [I|I]; [apply (P _ (show_int_plain label) c I)|]. apply in_flat_map in I. destruct I as (v & Iv & [<- | I]); [discriminate|]. apply (P v); [|exact I]. exact (proj2 (proj1 (Forall_forall _ _) V v Iv)).
Qed.
Lemma trim_id : forall c m d u, is_space c = false -> is_space d = false -> c :: m = u ++ [d] -> trim (c :: m) = c :: m.
Proof.
  intros c m d u C D E. unfold trim. rewrite (no_skip c m C), E, rev_app_distr. cbn [rev app]. rewrite (no_skip d _ D). cbn [rev]. rewrite rev_involutive. reflexivity.
Qed.
Lemma word_last : forall v, word v -> exists u d, v = u ++ [d] /\ is_space d = false.
Proof. intros v (NE & P). destruct (exists_last NE) as (u & d & E). exists u, d. split; [exact E|]. apply P. rewrite E. apply in_or_app. right. left. reflexivity. Qed.
Definition tabbed (vals : list (list N)) : list N := flat_map (fun v => c_tab :: v) vals.
Lemma row_trim : forall key label vals, word key -> Forall word vals -> trim (row key label vals) = row key label vals.
Proof.
  intros key label vals K V. assert (E : exists u d, row key label vals = u ++ [d] /\ is_space d = false).
  { unfold row. fold (tabbed vals). destruct vals as [|v0 vs] using rev_ind.
    - destruct (word_last (show_int label) (conj (show_int_nonempty label) (show_int_plain label))) as (u & d & E & D). exists (key ++ c_tab :: u), d. split; [|exact D]. cbn [tabbed flat_map]. rewrite app_nil_r, E. rewrite <- app_assoc. reflexivity.
    - clear IHvs. apply Forall_app in V. destruct V as (_ & V). pose proof (proj1 (Forall_forall _ _) V v0 (or_introl eq_refl)) as W. destruct (word_last v0 W) as (u & d & E & D).
      exists (key ++ c_tab :: show_int label ++ tabbed vs ++ c_tab :: u), d. split; [|exact D]. unfold tabbed. rewrite flat_map_app. cbn [flat_map]. rewrite app_nil_r, E. rewrite <- !app_assoc. cbn [app]. rewrite <- !app_assoc. reflexivity. }
  destruct E as (u & d & E & D). destruct K as (NE & K). destruct key as [|c key]; [contradiction|]. unfold row in *. cbn [app] in *. apply (trim_id _ _ d u); [apply K; left; reflexivity|exact D|exact E].
Qed.
Lemma keyword_row : forall key label vals, word key -> Forall word vals -> keyword (row key label vals) = (key, opened (c_tab :: show_int label ++ tabbed vals)).
Proof.
  intros key label vals K V. unfold keyword. rewrite row_trim by assumption. unfold row. destruct K as (NE & K).
  pose proof (get_word_shown [] key c_tab (show_int label ++ tabbed vals) (fun x I => match I with end) NE K eq_refl) as H. cbn [app] in H. fold (tabbed vals). rewrite H. reflexivity.
Qed.
Lemma same_word_true : forall a, same_word a a = true.
Proof. intros a. unfold same_word. destruct (list_eq_dec N.eq_dec a a); [reflexivity|contradiction]. Qed.
Lemma same_word_false : forall a b, a <> b -> same_word a b = false.
Proof. intros a b H. unfold same_word. destruct (list_eq_dec N.eq_dec a b); [contradiction|reflexivity]. Qed.

(** ** Values *)
Lemma tab_space : forall c, In c [c_tab] -> is_space c = true.
Proof. intros c [<- | []]. reflexivity. Qed.
Lemma label_read : forall old z vals, into_int old (opened (c_tab :: show_int z ++ tabbed vals)) = (z, St (tabbed vals) (ended (tabbed vals)) false).
Proof.
  intros old z vals. unfold into_int, into. change (c_tab :: show_int z ++ tabbed vals) with ([c_tab] ++ show_int z ++ tabbed vals). rewrite get_int_shown; [reflexivity|exact tab_space|]. destruct vals; [exact I|reflexivity].
Qed.
Lemma num_read : forall old d l, stops l -> into_num old (opened (c_tab :: out d ++ l)) = (rounded 6 d, St l (ended l) false).
Proof.
  intros old d l H. unfold into_num, into, out. change (c_tab :: show_num 6 d ++ l) with ([c_tab] ++ show_num 6 d ++ l). rewrite get_num_shown; [reflexivity|exact tab_space|exact H].
Qed.
Definition round_point (p : point) : point := let '(x, y, z) := p in (rounded 6 x, rounded 6 y, rounded 6 z).
Lemma point_read : forall p, into_point (opened (tabbed (out_point p))) = round_point p.
Proof.
  intros ((x, y), z). unfold into_point, tabbed, out_point. cbn [flat_map]. cbn [app].
  rewrite num_read by reflexivity. cbn [ended app]. change (St ?l false false) with (opened l). rewrite num_read by reflexivity. cbn [ended app]. change (St ?l false false) with (opened l). rewrite num_read by exact I. reflexivity.
Qed.
Lemma tokens_read : forall l, into_point (opened (tabbed (tokens l))) = zero_point.
Proof. reflexivity. Qed.
Lemma token_read : forall old c l, fst (into_num old (opened (tabbed [token c l]))) = zero_num.
Proof. reflexivity. Qed.

(** ** The first loop *)
Lemma skip_row : forall key st line, fst (keyword line) <> key -> take_point key st line = st.
Proof. intros key st line H. unfold take_point. destruct (keyword line) as (kw, s). rewrite same_word_false by exact H. reflexivity. Qed.
Lemma skip_rows : forall key rows st, (forall r, In r rows -> fst (keyword r) <> key) -> fold_left (take_point key) rows st = st.
Proof.
  intros key rows. induction rows as [|r rows IH]; intros st H; [reflexivity|]. cbn [fold_left]. rewrite skip_row by (apply H; left; reflexivity). apply IH. intros x Ix. apply H. right. exact Ix.
Qed.
Lemma take_rows : forall {B : Type} key (vals : Z * B -> list (list N)) (g : Z * B -> point) (l : list (Z * B)) j acc, word key -> (forall e, Forall word (vals e)) -> (forall e, vals e <> []) -> (forall e, into_point (opened (tabbed (vals e))) = g e) ->
  exists j', fold_left (take_point key) (map (fun e => row key (fst e) (vals e)) l) (j, acc) = (j', acc ++ map (fun e => (fst e, g e)) l).
Proof.
  intros B key vals g l j acc K V NE G. revert j acc. induction l as [|e l IH]; intros j acc; [exists j; cbn; rewrite app_nil_r; reflexivity|].
  cbn [map fold_left]. unfold take_point at 2. rewrite keyword_row by auto. rewrite same_word_true. cbn [fst snd]. rewrite label_read.
  specialize (NE e) as NEe. assert (Q : ended (tabbed (vals e)) = false) by (destruct (vals e); [contradiction|reflexivity]). rewrite Q. change (St (tabbed (vals e)) false false) with (opened (tabbed (vals e))). rewrite G.
  destruct (IH (fst e) (acc ++ [(fst e, g e)])) as (j' & E). exists j'. rewrite E, <- app_assoc. reflexivity.
Qed.

(** ** Displacements *)
Lemma max_label_right : forall l m x, In x l -> (x <= fold_left Z.max l m)%Z.
Proof.
  assert (M : forall l m, (m <= fold_left Z.max l m)%Z). { induction l as [|y l IH]; intros m; [cbn; lia|]. cbn [fold_left]. specialize (IH (Z.max m y)). lia. }
  induction l as [|y l IH]; intros m x; [intros []|]. cbn [fold_left]. intros [<- | I]; [specialize (M l (Z.max m y)); lia|apply IH; exact I].
Qed.
Lemma complete_length : forall labels n, length (complete_labels labels n) = n.
Proof. intros labels n. unfold complete_labels. rewrite app_length, firstn_length, map_length, seq_length. lia. Qed.
Lemma displs_right : forall template name labels displs junk,
  read_displs (snd (write_displs template name labels displs)) junk =
    (complete_labels labels (length displs), map (fun p => if template then zero_point else round_point p) displs).
Proof.
  intros template name labels displs junk. unfold read_displs, take_points, write_displs. cbn [snd]. set (rows := map _ (combine _ displs)).
  assert (W : forall e : Z * point, Forall word (if template then tokens (fst e) else out_point (snd e))) by (intros e; destruct template; [apply tokens_words|apply points_words]).
  rewrite lines_text by (apply Forall_forall; intros r Ir; unfold rows in Ir; apply in_map_iff in Ir; destruct Ir as (e & <- & _); apply row_one_line; [exact key_displ|apply W]).
  rewrite fold_left_app. unfold rows. destruct (take_rows k_displ (fun e => if template then tokens (fst e) else out_point (snd e)) (fun e => if template then zero_point else round_point (snd e)) (combine (complete_labels labels (length displs)) displs) junk [] key_displ W) as (j' & E).
  - intros e. destruct template; [discriminate|]. destruct (snd e) as ((x, y), z). discriminate.
  - intros e. destruct template; [apply tokens_read|apply point_read].
  - rewrite E. rewrite skip_rows by (intros r [<- | []]; discriminate). cbn [snd app]. rewrite !map_map. cbn [fst snd].
    pose proof (complete_length labels (length displs)) as L. revert L. generalize (complete_labels labels (length displs)). clear. induction displs as [|p displs IH]; intros [|z l] L; try discriminate; [reflexivity|].
    cbn [combine map fst snd]. injection L as L. specialize (IH l L). injection IH as E1 E2. rewrite E1, E2. reflexivity.
Qed.

(** ** Positions *)
Lemma position_absent : forall labels i found l, ~ In l labels -> position labels i found l = found.
Proof.
  induction labels as [|x labels IH]; intros i found l H; [reflexivity|]. cbn [position]. destruct (Z.eqb_spec x l) as [E|E]; [exfalso; apply H; left; exact E|]. apply IH. intros I. apply H. right. exact I.
Qed.
Lemma position_right : forall labels i found l k, NoDup labels -> nth_error labels k = Some l -> position labels i found l = (i + Z.of_nat k)%Z.
Proof.
  induction labels as [|x labels IH]; intros i found l k N E; [destruct k; discriminate|]. destruct (proj1 (NoDup_cons_iff x labels) N) as (N1 & N2). destruct k as [|k]; cbn [nth_error position] in *.
  - injection E as ->. rewrite Z.eqb_refl. rewrite position_absent by exact N1. lia.
  - destruct (Z.eqb_spec x l) as [Q|Q]; [exfalso; apply N1; rewrite Q; apply nth_error_In with k; exact E|]. rewrite (IH _ _ l k N2 E). lia.
Qed.
Lemma mapP_range : forall labels l, In l labels -> NoDup labels -> exists k, k < length labels /\ nth_error labels k = Some l /\ mapP labels l = Z.of_nat k.
Proof.
  intros labels l I N. destruct (In_nth_error labels l I) as (k & E). exists k. split; [apply nth_error_Some; rewrite E; discriminate|]. split; [exact E|]. unfold mapP. rewrite (position_right labels 0 0 l k N E). lia.
Qed.
Lemma mapP_inj : forall labels a b, NoDup labels -> In a labels -> In b labels -> mapP labels a = mapP labels b -> a = b.
Proof.
  intros labels a b N A B E. destruct (mapP_range labels a A N) as (k & _ & Ek & Pk). destruct (mapP_range labels b B N) as (k' & _ & Ek' & Pk'). rewrite Pk, Pk' in E. apply Nat2Z.inj in E. subst k'. congruence.
Qed.

(** ** The second loop *)
Lemma has_true : forall {A : Type} id (l : list (Z * A)), has id l = true <-> In id (map fst l).
Proof.
  intros A id l. unfold has. rewrite existsb_exists, in_map_iff. split; intros (e & H1 & H2); exists e; [apply Z.eqb_eq in H2; auto|split; [exact H2|apply Z.eqb_eq; exact H1]].
Qed.
Lemma insert_right : forall {A : Type} (l : list (Z * A)) id v, ~ In id (map fst l) -> insert_id l id v = Some (l ++ [(id, v)]).
Proof. intros A l id v H. unfold insert_id. destruct (has id l) eqn:E; [apply has_true in E; contradiction|reflexivity]. Qed.
Lemma pass_rows : forall labels rows st, (forall r, In r rows -> fst (keyword r) <> k_scalar /\ fst (keyword r) <> k_vector) -> fold_left (take_value labels) rows (Some st) = Some st.
Proof.
  intros labels rows st. induction rows as [|r rows IH]; intros H; [reflexivity|]. cbn [fold_left]. unfold take_value at 2. destruct (H r (or_introl eq_refl)) as (A & B). destruct (keyword r) as (kw, s). cbn [fst] in A, B. rewrite !same_word_false by assumption. apply IH. intros x Ix. apply H. right. exact Ix.
Qed.
(** what is read of a field *)
Definition got {A : Type} (template : bool) (zero : A) (back : A -> A) (f : list (Z * A)) (verts : list (Z * point)) : list (Z * A) :=
  flat_map (fun e => if template then [(fst e, zero)] else match value_of (fst e) f with None => [] | Some v => [(fst e, back v)] end) verts.
Definition placed {A : Type} (labels : list Z) (l : list (Z * A)) : list (Z * A) := map (fun e => (mapP labels (fst e), snd e)) l.
Lemma got_ids : forall {A : Type} template (zero : A) back f verts id, In id (map fst (got template zero back f verts)) -> In id (map fst verts).
Proof.
  intros A template zero back f verts id H. apply in_map_iff in H. destruct H as (e & <- & I). unfold got in I. apply in_flat_map in I. destruct I as (v & Iv & I). apply in_map_iff. exists v. split; [|exact Iv].
  destruct template; [destruct I as [<- | []]; reflexivity|]. destruct (value_of (fst v) f); [destruct I as [<- | []]; reflexivity|destruct I].
Qed.
Lemma scalar_rows : forall labels template f verts j t s v, NoDup (map fst verts) -> NoDup labels -> (forall e, In e verts -> In (fst e) labels) -> (forall e, In e verts -> ~ In (mapP labels (fst e)) (map fst s)) ->
  exists j' t', fold_left (take_value labels) (field_rows k_scalar template (fun l => [token 115 l]) (fun v => [out v]) verts f) (Some (Now j t s v)) =
    Some (Now j' t' (s ++ placed labels (got template zero_num (rounded 6) f verts)) v).
Proof.
  intros labels template f verts. induction verts as [|e verts IH]; intros j t s v N NL IL F; [exists j, t; cbn; rewrite app_nil_r; reflexivity|].
  cbn [map] in N. destruct (proj1 (NoDup_cons_iff _ _) N) as (N1 & N2). unfold field_rows, got. cbn [flat_map]. fold (field_rows k_scalar template (fun l => [token 115 l]) (fun v => [out v]) verts f). fold (got template zero_num (rounded 6) f verts). rewrite fold_left_app.
  assert (Step : forall vals d, Forall word vals -> vals <> [] -> (forall old, fst (into_num old (opened (tabbed vals))) = d) -> fold_left (take_value labels) [row k_scalar (fst e) vals] (Some (Now j t s v)) = Some (Now (fst e) d (s ++ [(mapP labels (fst e), d)]) v)).
  { intros vals d V NE G. cbn [fold_left take_value]. rewrite keyword_row by (first [exact key_scalar|exact V]). rewrite same_word_true. rewrite label_read.
    assert (Q : ended (tabbed vals) = false) by (destruct vals; [contradiction|reflexivity]). rewrite Q. change (St (tabbed vals) false false) with (opened (tabbed vals)). specialize (G (n_temp (Now j t s v))). destruct (into_num _ (opened (tabbed vals))) as (d', s'). cbn [fst] in G. subst d'. cbn [n_sc n_vc].
    rewrite insert_right by (apply F; left; reflexivity). reflexivity. }
  assert (Next : forall d, exists j' t', fold_left (take_value labels) (field_rows k_scalar template (fun l => [token 115 l]) (fun v => [out v]) verts f) (Some (Now (fst e) d (s ++ [(mapP labels (fst e), d)]) v)) = Some (Now j' t' (s ++ (mapP labels (fst e), d) :: placed labels (got template zero_num (rounded 6) f verts)) v)).
  { intros d. destruct (IH (fst e) d (s ++ [(mapP labels (fst e), d)]) v N2 NL) as (j' & t' & E).
    - intros x Ix. apply IL. right. exact Ix.
    - intros x Ix Q. rewrite map_app in Q. apply in_app_or in Q. destruct Q as [Q|[Q|[]]]; [apply (F x (or_intror Ix) Q)|]. cbn [fst] in Q. apply N1. apply (mapP_inj labels) in Q; [|exact NL|apply IL; left; reflexivity|apply IL; right; exact Ix]. rewrite Q. apply in_map. exact Ix.
    - exists j', t'. rewrite E, <- app_assoc. reflexivity. }
  destruct template.
  - rewrite (Step [token 115 (fst e)] zero_num); [|repeat constructor; apply token_word; reflexivity|discriminate|reflexivity]. exact (Next zero_num).
  - destruct (value_of (fst e) f) as [d|].
    + rewrite (Step [out d] (rounded 6 d)); [exact (Next (rounded 6 d))|repeat constructor; apply out_word|discriminate|]. intros old. unfold tabbed. cbn [flat_map app]. rewrite num_read by exact I. reflexivity.
    + cbn [fold_left app]. apply IH; [exact N2|exact NL|intros x Ix; apply IL; right; exact Ix|intros x Ix; apply F; right; exact Ix].
Qed.
Lemma vector_rows : forall labels template f verts j t s v, NoDup (map fst verts) -> NoDup labels -> (forall e, In e verts -> In (fst e) labels) -> (forall e, In e verts -> ~ In (mapP labels (fst e)) (map fst v)) ->
  exists j', fold_left (take_value labels) (field_rows k_vector template tokens out_point verts f) (Some (Now j t s v)) =
    Some (Now j' t s (v ++ placed labels (got template zero_point round_point f verts))).
Proof.
  intros labels template f verts. induction verts as [|e verts IH]; intros j t s v N NL IL F; [exists j; cbn; rewrite app_nil_r; reflexivity|].
  cbn [map] in N. destruct (proj1 (NoDup_cons_iff _ _) N) as (N1 & N2). unfold field_rows, got. cbn [flat_map]. fold (field_rows k_vector template tokens out_point verts f). fold (got template zero_point round_point f verts). rewrite fold_left_app.
  assert (Step : forall vals d, Forall word vals -> vals <> [] -> into_point (opened (tabbed vals)) = d -> fold_left (take_value labels) [row k_vector (fst e) vals] (Some (Now j t s v)) = Some (Now (fst e) t s (v ++ [(mapP labels (fst e), d)]))).
  { intros vals d V NE G. cbn [fold_left take_value]. rewrite keyword_row by (first [exact key_vector|exact V]). rewrite (same_word_false k_vector k_scalar) by discriminate. rewrite same_word_true. rewrite label_read.
    assert (Q : ended (tabbed vals) = false) by (destruct vals; [contradiction|reflexivity]). rewrite Q. change (St (tabbed vals) false false) with (opened (tabbed vals)). rewrite G. cbn [n_sc n_vc n_temp].
    rewrite insert_right by (apply F; left; reflexivity). reflexivity. }
  assert (Next : forall d, exists j', fold_left (take_value labels) (field_rows k_vector template tokens out_point verts f) (Some (Now (fst e) t s (v ++ [(mapP labels (fst e), d)]))) = Some (Now j' t s (v ++ (mapP labels (fst e), d) :: placed labels (got template zero_point round_point f verts)))).
  { intros d. destruct (IH (fst e) t s (v ++ [(mapP labels (fst e), d)]) N2 NL) as (j' & E).
    - intros x Ix. apply IL. right. exact Ix.
    - intros x Ix Q. rewrite map_app in Q. apply in_app_or in Q. destruct Q as [Q|[Q|[]]]; [apply (F x (or_intror Ix) Q)|]. cbn [fst] in Q. apply N1. apply (mapP_inj labels) in Q; [|exact NL|apply IL; left; reflexivity|apply IL; right; exact Ix]. rewrite Q. apply in_map. exact Ix.
    - exists j'. rewrite E, <- app_assoc. reflexivity. }
  destruct template.
  - rewrite (Step (tokens (fst e)) zero_point); [exact (Next zero_point)|apply tokens_words|discriminate|reflexivity].
  - destruct (value_of (fst e) f) as [d|].
    + rewrite (Step (out_point d) (round_point d)); [exact (Next (round_point d))|apply points_words|destruct d as ((x, y), z); discriminate|apply point_read].
    + cbn [fold_left app]. apply IH; [exact N2|exact NL|intros x Ix; apply IL; right; exact Ix|intros x Ix; apply F; right; exact Ix].
Qed.

(** ** A cloud *)
Definition sc_of (template : bool) (p : part) : list (Z * dec) := got template zero_num (rounded 6) (completed zero_num (pts p) (sc p)) (pts p).
Definition vc_of (template : bool) (p : part) : list (Z * point) := got template zero_point round_point (completed zero_point (pts p) (vc p)) (pts p).
Lemma field_row_shape : forall {A : Type} key template tok (show : A -> list (list N)) verts f r, word key -> (forall l, Forall word (tok l)) -> (forall v, Forall word (show v)) -> In r (field_rows key template tok show verts f) ->
  fst (keyword r) = key /\ one_line r.
Proof.
  intros A key template tok show verts f r K T S I. unfold field_rows in I. apply in_flat_map in I. destruct I as (e & _ & I). destruct template.
  - destruct I as [<- | []]. rewrite keyword_row by auto. split; [reflexivity|apply row_one_line; auto].
  - destruct (value_of (fst e) f); [|destruct I]. destruct I as [<- | []]. rewrite keyword_row by auto. split; [reflexivity|apply row_one_line; auto].
Qed.
Lemma one_token : forall l, Forall word [token 115 l]. Proof. intros l. repeat constructor; apply token_word; reflexivity. Qed.
Lemma one_out : forall d, Forall word [out d]. Proof. intros d. repeat constructor; apply out_word. Qed.
Lemma cloud_one_line : forall template p, Forall one_line (cloud_rows template p).
Proof.
  intros template p. apply Forall_forall. intros r I. unfold cloud_rows in I. cbn [app] in I. apply in_app_or in I. destruct I as [I|[<- | I]]; [|intros c []|].
  - apply in_map_iff in I. destruct I as (e & <- & _). apply row_one_line; [exact key_point|apply points_words].
  - apply in_app_or in I. destruct I as [I|[<- | I]]; [|intros c []|].
    + apply (field_row_shape k_scalar template _ (fun v => [out v]) (pts p) _ r key_scalar one_token one_out I).
    + apply in_app_or in I. destruct I as [I|[<- | []]]; [|intros c []]. apply (field_row_shape k_vector template _ out_point (pts p) _ r key_vector tokens_words points_words I).
Qed.
Lemma first_loop : forall template parts j acc, exists j', fold_left (take_point k_point) (flat_map (cloud_rows template) parts) (j, acc) = (j', acc ++ map (fun e => (fst e, round_point (snd e))) (flat_map pts parts)).
Proof.
  intros template parts. induction parts as [|p parts IH]; intros j acc; [exists j; cbn; rewrite app_nil_r; reflexivity|].
  cbn [flat_map]. rewrite fold_left_app. unfold cloud_rows at 2. cbn [app]. rewrite fold_left_app.
  destruct (take_rows k_point (fun e => out_point (snd e)) (fun e => round_point (snd e)) (pts p) j acc key_point) as (j1 & E1); [intros e; apply points_words|intros (z, ((x, y), w)); discriminate|intros e; apply point_read|]. rewrite E1.
  rewrite (skip_rows k_point ([] :: _)).
  - destruct (IH j1 (acc ++ map (fun e => (fst e, round_point (snd e))) (pts p))) as (j2 & E2). exists j2. rewrite E2, map_app, app_assoc. reflexivity.
  - intros r [<- | I]; [discriminate|]. apply in_app_or in I. destruct I as [I|[<- | I]]; [|discriminate|].
    + cbn beta in I. rewrite (proj1 (field_row_shape k_scalar template _ (fun v => [out v]) (pts p) _ r key_scalar one_token one_out I)). discriminate.
    + apply in_app_or in I. destruct I as [I|[<- | []]]; [|discriminate].
      rewrite (proj1 (field_row_shape k_vector template _ out_point (pts p) _ r key_vector tokens_words points_words I)). discriminate.
Qed.
Lemma nodup_parts : forall {A : Type} (a b : list A), NoDup (a ++ b) -> NoDup a /\ NoDup b /\ forall x, In x a -> ~ In x b.
Proof.
  intros A a. induction a as [|x a IH]; intros b N; [split; [constructor|split; [exact N|intros x []]]|].
  cbn [app] in N. destruct (proj1 (NoDup_cons_iff x (a ++ b)) N) as (N1 & N2). destruct (IH b N2) as (A1 & A2 & A3). split; [constructor; [intros I; apply N1; apply in_or_app; left; exact I|exact A1]|]. split; [exact A2|].
  intros y [<- | I]; [intros I'; apply N1; apply in_or_app; right; exact I'|apply A3; exact I].
Qed.
Lemma second_loop : forall labels template parts j t s v, NoDup (map fst (flat_map pts parts)) -> NoDup labels -> (forall e, In e (flat_map pts parts) -> In (fst e) labels) ->
  (forall e, In e (flat_map pts parts) -> ~ In (mapP labels (fst e)) (map fst s) /\ ~ In (mapP labels (fst e)) (map fst v)) ->
  exists j' t', fold_left (take_value labels) (flat_map (cloud_rows template) parts) (Some (Now j t s v)) =
    Some (Now j' t' (s ++ flat_map (fun p => placed labels (sc_of template p)) parts) (v ++ flat_map (fun p => placed labels (vc_of template p)) parts)).
Proof.
  intros labels template parts. induction parts as [|p parts IH]; intros j t s v N NL IL F; [exists j, t; cbn; rewrite !app_nil_r; reflexivity|].
  cbn [flat_map] in *. rewrite map_app in N. destruct (nodup_parts _ _ N) as (N1 & N2 & N3). rewrite fold_left_app. unfold cloud_rows at 2. rewrite !fold_left_app.
  rewrite (pass_rows labels (map _ (pts p))).
  2:{ intros r I. apply in_map_iff in I. destruct I as (e & <- & _). rewrite keyword_row by (first [exact key_point|apply points_words]). split; discriminate. }
  rewrite (pass_rows labels [[]]) by (intros r [<- | []]; split; discriminate).
  destruct (scalar_rows labels template (completed zero_num (pts p) (sc p)) (pts p) j t s v N1 NL) as (j1 & t1 & E1); [intros e I; apply IL; apply in_or_app; left; exact I|intros e I; apply F; apply in_or_app; left; exact I|]. rewrite E1.
  rewrite (pass_rows labels [[]]) by (intros r [<- | []]; split; discriminate).
  destruct (vector_rows labels template (completed zero_point (pts p) (vc p)) (pts p) j1 t1 (s ++ placed labels (sc_of template p)) v N1 NL) as (j2 & E2); [intros e I; apply IL; apply in_or_app; left; exact I|intros e I; apply F; apply in_or_app; left; exact I|]. unfold sc_of in E2. rewrite E2.
  rewrite (pass_rows labels [[]]) by (intros r [<- | []]; split; discriminate).
  assert (New : forall {A : Type} (g : list (Z * A)) e, (forall id, In id (map fst g) -> In id (map fst (pts p))) -> In e (flat_map pts parts) -> ~ In (mapP labels (fst e)) (map fst (placed labels g))).
  { intros A g e G I Q. unfold placed in Q. rewrite map_map in Q. apply in_map_iff in Q. destruct Q as (x & Q & Ix). cbn [fst] in Q. specialize (G (fst x) (in_map fst g x Ix)). apply in_map_iff in G. destruct G as (y & Ey & Iy).
    apply (mapP_inj labels) in Q; [|exact NL|rewrite <- Ey; apply IL; apply in_or_app; left; exact Iy|apply IL; apply in_or_app; right; exact I]. apply (N3 (fst e)); [rewrite <- Q, <- Ey; apply in_map; exact Iy|apply in_map; exact I]. }
  destruct (IH j2 t1 (s ++ placed labels (sc_of template p)) (v ++ placed labels (vc_of template p)) N2 NL) as (j3 & t3 & E3).
  - intros e I. apply IL. apply in_or_app. right. exact I.
  - intros e I. destruct (F e (in_or_app _ _ _ (or_intror I))) as (F1 & F2). split; rewrite map_app; intros Q; apply in_app_or in Q; destruct Q as [Q|Q]; try contradiction.
    + revert Q. apply New; [|exact I]. intros id. unfold sc_of. apply got_ids.
    + revert Q. apply New; [|exact I]. intros id. unfold vc_of. apply got_ids.
  - exists j3, t3. unfold sc_of, vc_of in E3. rewrite E3. rewrite <- !app_assoc. reflexivity.
Qed.
Lemma add_vertices_right : forall (l acc : list (Z * point)), NoDup (map fst (acc ++ l)) -> fold_left (fun g e => if has (fst e) g then g else g ++ [e]) l acc = acc ++ l.
Proof.
  induction l as [|e l IH]; intros acc N; [rewrite app_nil_r; reflexivity|]. cbn [fold_left]. replace (has (fst e) acc) with false.
  - rewrite (IH (acc ++ [e])); [rewrite <- app_assoc; reflexivity|rewrite <- app_assoc; exact N].
  - symmetry. apply not_true_iff_false. intros Q. apply has_true in Q. rewrite map_app in N. cbn [map] in N. apply NoDup_remove_2 in N. apply N. apply in_or_app. left. exact Q.
Qed.
Lemma cloud_right : forall template parts junk junk_temp, NoDup (map fst (flat_map pts parts)) ->
  read_cloud (write_cloud template parts) junk junk_temp =
    Some (Part (map (fun e => (fst e, round_point (snd e))) (flat_map pts parts))
               (flat_map (fun p => placed (map fst (flat_map pts parts)) (sc_of template p)) parts)
               (flat_map (fun p => placed (map fst (flat_map pts parts)) (vc_of template p)) parts)).
Proof.
  intros template parts junk junk_temp N. unfold read_cloud, write_cloud. rewrite lines_text.
  2:{ apply Forall_forall. intros r I. apply in_flat_map in I. destruct I as (p & _ & I). exact (proj1 (Forall_forall _ _) (cloud_one_line template p) r I). }
  rewrite !fold_left_app. destruct (first_loop template parts junk []) as (j1 & E1). rewrite E1. rewrite (skip_rows k_point [[]]) by (intros r [<- | []]; discriminate). cbn [app].
  assert (ML : map fst (map (fun e => (fst e, round_point (snd e))) (flat_map pts parts)) = map fst (flat_map pts parts)) by (rewrite map_map; reflexivity). rewrite ML. rewrite fold_left_app. destruct (second_loop (map fst (flat_map pts parts)) template parts j1 junk_temp [] [] N N) as (j2 & t2 & E2); [intros e I; apply in_map; exact I|intros e _; split; intros []|].
  rewrite E2. rewrite (pass_rows _ [[]]) by (intros r [<- | []]; split; discriminate). cbn [app n_sc n_vc]. unfold add_vertices. rewrite add_vertices_right; [reflexivity|]. cbn [app]. rewrite map_map. exact N.
Qed.

(** ** Fields *)
Lemma value_of_in : forall {A : Type} (l : list (Z * A)) id v, value_of id l = Some v -> In (id, v) l.
Proof. intros A l id v. induction l as [|(i, x) l IH]; [discriminate|]. cbn [value_of]. destruct (Z.eqb_spec i id) as [-> |E]; [intros Q; injection Q as ->; left; reflexivity|intros Q; right; apply IH; exact Q]. Qed.
Lemma value_of_none : forall {A : Type} (l : list (Z * A)) id, value_of id l = None -> ~ In id (map fst l).
Proof. intros A l id. induction l as [|(i, x) l IH]; [intros _ []|]. cbn [value_of map fst]. destruct (Z.eqb_spec i id) as [E|E]; [discriminate|]. intros Q [H|H]; [contradiction|exact (IH Q H)]. Qed.
Lemma completed_all : forall {A B : Type} (zero : A) (verts : list (Z * B)) f id, f <> [] -> incl (map fst f) (map fst verts) -> In id (map fst verts) ->
  exists v, value_of id (completed zero verts f) = Some v /\ (In (id, v) f \/ ~ In id (map fst f) /\ v = zero).
Proof.
  intros A B zero verts f id NE I Iv. unfold completed. destruct f as [|e0 f0] eqn:D; [contradiction|]. rewrite <- D in *. clear D e0 f0 NE.
  replace (forallb (fun e => has (fst e) verts) f) with true by (symmetry; apply forallb_forall; intros e Ie; apply has_true; apply I; apply in_map; exact Ie).
  set (m := map (fun e => (fst e, zero)) (filter (fun e => negb (has (fst e) f)) verts)).
  destruct (value_of id (f ++ m)) as [v|] eqn:E.
  - exists v. split; [reflexivity|]. apply value_of_in in E. apply in_app_or in E. destruct E as [E|E]; [left; exact E|]. unfold m in E. apply in_map_iff in E. destruct E as (x & Q & Ix). injection Q as Q1 Q2. apply filter_In in Ix. destruct Ix as (_ & H). right. split; [|auto]. intros Z. apply has_true in Z. rewrite Q1, Z in H. discriminate.
  - exfalso. apply value_of_none in E. apply E. rewrite map_app. apply in_or_app. destruct (has id f) eqn:H; [left; apply has_true; exact H|right]. unfold m. rewrite map_map. cbn [fst]. apply in_map_iff in Iv. destruct Iv as (x & Ex & Ix). apply in_map_iff. exists x. split; [exact Ex|]. apply filter_In. split; [exact Ix|]. rewrite Ex, H. reflexivity.
Qed.
Lemma placed_id : forall {A : Type} n (g : list (Z * A)), (forall id, In id (map fst g) -> In id (map Z.of_nat (seq 0 n))) -> placed (map Z.of_nat (seq 0 n)) g = g.
Proof.
  intros A n g H. unfold placed. rewrite <- (map_id g) at 2. apply map_ext_in. intros (id, x) I. cbn [fst snd]. f_equal. specialize (H id (in_map fst g _ I)). apply in_map_iff in H. destruct H as (k & <- & Ik). apply in_seq in Ik.
  unfold mapP. rewrite (position_right _ 0 0 (Z.of_nat k) k); [lia| |].
  - apply Injective_map_NoDup; [intros a b E; apply Nat2Z.inj; exact E|apply seq_NoDup].
  - rewrite nth_error_map. replace (nth_error (seq 0 n) k) with (Some k); [reflexivity|]. symmetry. rewrite (nth_error_nth' _ 0) by (rewrite seq_length; lia). rewrite seq_nth by lia. reflexivity.
Qed.
Lemma got_right : forall {A : Type} (ok : A -> A -> Prop) (zero : A) back verts f, (forall x, ok x (back x)) -> NoDup (map fst verts) -> f <> [] -> incl (map fst f) (map fst verts) ->
  field_read_back ok zero (map fst verts) f (got false zero back (completed zero verts f) verts).
Proof.
  intros A ok zero back verts f OK N NE I. set (F := completed zero verts f).
  assert (G : forall vs, incl (map fst vs) (map fst verts) -> map fst (got false zero back F vs) = map fst vs /\ forall id, In id (map fst vs) -> exists v, value_of id F = Some v /\ In (id, back v) (got false zero back F vs)).
  { induction vs as [|e vs IH]; intros V; [split; [reflexivity|intros id []]|]. cbn [got flat_map map]. fold (got false zero back F vs).
    destruct IH as (IH1 & IH2); [intros x Ix; apply V; right; exact Ix|]. destruct (completed_all zero verts f (fst e) NE I (V _ (or_introl eq_refl))) as (v & E & _). fold F in E. rewrite E. cbn [app map fst]. rewrite IH1. split; [reflexivity|].
    intros id [<- | Ii]; [exists v; split; [exact E|left; reflexivity]|]. destruct (IH2 id Ii) as (w & E2 & Iw). exists w. split; [exact E2|right; exact Iw]. }
  destruct (G verts (fun x i => i)) as (G1 & G2). split; [rewrite G1; exact N|]. split; [intros id; rewrite G1; reflexivity|].
  intros id Ii. destruct (G2 id Ii) as (v & E & Iv). destruct (completed_all zero verts f id NE I Ii) as (v' & E' & C). fold F in E'. rewrite E in E'. injection E' as <-. exists v, (back v). split; [exact C|]. split; [exact Iv|apply OK].
Qed.
