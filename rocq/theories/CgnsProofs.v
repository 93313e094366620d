(** Facts on the model of CGNS files. *)
From Coq Require Import List ZArith Bool Lia.
From Verif Require Import Cgns CgnsSpec.
Import ListNotations.
Open Scope Z_scope.

Lemma etype_eqb_eq : forall a b, etype_eqb a b = true <-> a = b.
Proof. intros [] []; split; intro H; try reflexivity; discriminate. Qed.
Lemma first_app : forall (l r : list Z) n, length l = n -> firstn n (l ++ r) = l.
Proof. intros l r n <-. rewrite firstn_app, Nat.sub_diag, firstn_O, app_nil_r. apply firstn_all. Qed.
Lemma skip_app : forall (l r : list Z) n, length l = n -> skipn n (l ++ r) = r.
Proof. intros l r n <-. rewrite skipn_app, Nat.sub_diag, skipn_all. reflexivity. Qed.
Lemma elements_read : forall f n ls fuel s, (1 <= n)%nat -> (forall l, In l ls -> length l = n) -> (length ls <= fuel)%nat -> elements fuel f n (concat ls) s = Ok (fold_left (fun s l => f l s) ls s).
Proof.
  intros f n ls. induction ls as [|l ls IH]; intros fuel s N H F; [destruct fuel; reflexivity|]. cbn [concat]. assert (L : length l = n) by (apply H; left; reflexivity).
  destruct fuel as [|k]; [cbn in F; lia|]. destruct l as [|x l]; [cbn in L; lia|]. cbn [app elements]. change (x :: l ++ concat ls) with ((x :: l) ++ concat ls).
  rewrite app_length, L. rewrite (proj2 (Nat.leb_le _ _)) by lia. rewrite (first_app _ _ _ L), (skip_app _ _ _ L).
  rewrite IH by (try exact N; try (intros; apply H; right; assumption); cbn in F; lia). reflexivity.
Qed.
Lemma concat_length : forall (n : nat) (ls : list (list Z)), (1 <= n)%nat -> (forall l, In l ls -> length l = n) -> (length ls <= length (concat ls))%nat.
Proof. intros n ls N H. induction ls as [|l ls IH]; [cbn; lia|]. cbn. rewrite app_length, (H l) by (left; reflexivity). specialize (IH ltac:(intros; apply H; right; assumption)). lia. Qed.

(** ** What a sequence of elements adds *)
Definition cell_of (vo co pid : Z) (k : Z) (t : etype) (l : list Z) : cell := Cell (k + co) t (turn t (map (fun v => vo + (v - 1)) l)) pid.
Lemma number_cons : forall A (k : Z) (x : A) l, number k (x :: l) = (k, x) :: number (k + 1) l.
Proof.
  intros A k x l. unfold number. cbn [length seq map combine]. rewrite Z.add_0_r. f_equal. rewrite <- seq_shift, map_map. f_equal. apply map_ext. intro. lia.
Qed.
Lemma number_app : forall A (l l' : list A) k, number k (l ++ l') = number k l ++ number (k + Z.of_nat (length l)) l'.
Proof.
  induction l as [|x l IH]; intros l' k; [cbn [app length]; rewrite Z.add_0_r; reflexivity|]. cbn [app]. rewrite !number_cons, IH. cbn [app length]. f_equal. f_equal. f_equal. lia.
Qed.
Lemma number_length : forall A (l : list A) k, length (number k l) = length l.
Proof. intros. unfold number. rewrite combine_length, map_length, seq_length. lia. Qed.
Lemma number_nth : forall A (l : list A) k j x, nth_error l j = Some x -> nth_error (number k l) j = Some (k + Z.of_nat j, x).
Proof. induction l as [|y l IH]; intros k j x H; [destruct j; discriminate|]. rewrite number_cons. destruct j as [|j]; [injection H as ->; cbn; rewrite Z.add_0_r; reflexivity|]. cbn [nth_error] in *. rewrite (IH _ _ _ H). do 2 f_equal. lia. Qed.
Lemma number_snd : forall A (l : list A) k, map snd (number k l) = l.
Proof. induction l as [|x l IH]; intro k; [reflexivity|]. rewrite number_cons. cbn. f_equal. apply IH. Qed.
Lemma volume_run : forall vo co pid t ls s, fold_left (fun s l => add_volume vo co pid t l s) (map (map (fun v => v - 1)) ls) s =
  St (s_cells s ++ map (fun e => cell_of vo co pid (fst e) t (snd e)) (number (s_next s) ls)) (s_surf s) (s_next s + Z.of_nat (length ls)).
Proof.
  intros vo co pid t. induction ls as [|l ls IH]; intro s; [destruct s; cbn; rewrite app_nil_r, Z.add_0_r; reflexivity|]. cbn [map fold_left]. rewrite IH. unfold add_volume at 1 2 3. cbn [s_cells s_surf s_next]. rewrite number_cons. cbn [map fst snd length]. rewrite <- app_assoc. cbn [app].
  unfold cell_of at 2. rewrite map_map. unfold add_volume. cbn [s_next]. f_equal. lia.
Qed.
Lemma surface_run : forall vo ls s, fold_left (fun s l => add_surface vo l s) (map (map (fun v => v - 1)) ls) s =
  St (s_cells s) (s_surf s ++ map (fun e => (fst e, map (fun v => vo + (v - 1)) (snd e))) (number (s_next s) ls)) (s_next s + Z.of_nat (length ls)).
Proof.
  intros vo. induction ls as [|l ls IH]; intro s; [destruct s; cbn; rewrite app_nil_r, Z.add_0_r; reflexivity|]. cbn [map fold_left]. rewrite IH. unfold add_surface at 1 2 3. cbn [s_cells s_surf s_next]. rewrite number_cons. cbn [map fst snd length]. rewrite <- app_assoc. cbn [app].
  rewrite map_map. unfold add_surface. cbn [s_next]. f_equal. lia.
Qed.
Lemma kind_tag : forall t, kind_of (tag_of t) = match t with Another => Unknown | Triangle | Quad => Surface (corners t) | _ => Volume t (corners t) end.
Proof. intros []; reflexivity. Qed.
Lemma read_volume : forall vo co pid t ls s, solid t -> (forall l, In l ls -> length l = corners t) ->
  read_section vo co pid s (tag_of t, concat ls) = Ok (St (s_cells s ++ map (fun e => cell_of vo co pid (fst e) t (snd e)) (number (s_next s) ls)) (s_surf s) (s_next s + Z.of_nat (length ls))).
Proof.
  intros vo co pid t ls s T H. unfold read_section. cbn [fst snd]. rewrite concat_map. assert (K : kind_of (tag_of t) = Volume t (corners t)) by (rewrite kind_tag; destruct T as [<- |[<- |[<- |[<- |[]]]]]; reflexivity). rewrite K.
  assert (N : (1 <= corners t)%nat) by (destruct T as [<- |[<- |[<- |[<- |[]]]]]; cbn; lia).
  rewrite elements_read; [rewrite volume_run; reflexivity|exact N| |].
  - intros l I. apply in_map_iff in I. destruct I as (l0 & <- & I). rewrite map_length. apply H, I.
  - apply (concat_length (corners t)); [exact N|]. intros l I. apply in_map_iff in I. destruct I as (l0 & <- & I). rewrite map_length. apply H, I.
Qed.
Lemma read_surface : forall vo co pid t ls s, flat t -> (forall l, In l ls -> length l = corners t) ->
  read_section vo co pid s (tag_of t, concat ls) = Ok (St (s_cells s) (s_surf s ++ map (fun e => (fst e, map (fun v => vo + (v - 1)) (snd e))) (number (s_next s) ls)) (s_next s + Z.of_nat (length ls))).
Proof.
  intros vo co pid t ls s T H. unfold read_section. cbn [fst snd]. rewrite concat_map. assert (K : kind_of (tag_of t) = Surface (corners t)) by (rewrite kind_tag; destruct T as [<- |[<- |[]]]; reflexivity). rewrite K.
  assert (N : (1 <= corners t)%nat) by (destruct T as [<- |[<- |[]]]; cbn; lia).
  rewrite elements_read; [rewrite surface_run; reflexivity|exact N| |].
  - intros l I. apply in_map_iff in I. destruct I as (l0 & <- & I). rewrite map_length. apply H, I.
  - apply (concat_length (corners t)); [exact N|]. intros l I. apply in_map_iff in I. destruct I as (l0 & <- & I). rewrite map_length. apply H, I.
Qed.
Lemma read_sections_app : forall vo co pid a b s, read_sections vo co pid (a ++ b) s = bind (read_sections vo co pid a s) (read_sections vo co pid b).
Proof. intros vo co pid. induction a as [|x a IH]; intros b s; [reflexivity|]. cbn [app read_sections]. destruct (read_section vo co pid s x); cbn [bind]; [apply IH|reflexivity|reflexivity]. Qed.

(** ** Sections as they are written *)
Definition whole (l : list (cell * list Z)) : Prop := forall e, In e l -> length (snd e) = corners (c_type (fst e)).
Definition sorted (types : list etype) (l : list (cell * list Z)) : list (cell * list Z) := flat_map (fun t => of_type t l) types.
Lemma of_type_in : forall t l e, In e (of_type t l) <-> In e l /\ c_type (fst e) = t.
Proof. intros. unfold of_type. rewrite filter_In, etype_eqb_eq. reflexivity. Qed.
Lemma read_solids : forall vo co pid l types s, (forall t, In t types -> solid t) -> whole l ->
  read_sections vo co pid (flat_map (section l) types) s =
  Ok (St (s_cells s ++ map (fun e => cell_of vo co pid (fst e) (c_type (fst (snd e))) (snd (snd e))) (number (s_next s) (sorted types l))) (s_surf s) (s_next s + Z.of_nat (length (sorted types l)))).
Proof.
  intros vo co pid l. induction types as [|t types IH]; intros s T W; [destruct s; cbn; rewrite app_nil_r, Z.add_0_r; reflexivity|]. cbn [flat_map]. rewrite read_sections_app.
  assert (A : read_sections vo co pid (section l t) s = Ok (St (s_cells s ++ map (fun e => cell_of vo co pid (fst e) (c_type (fst (snd e))) (snd (snd e))) (number (s_next s) (of_type t l))) (s_surf s) (s_next s + Z.of_nat (length (of_type t l))))).
  { unfold section. pose proof (fun e => proj1 (of_type_in t l e)) as TI. destruct (of_type t l) as [|e0 r] eqn:E; [destruct s; cbn; rewrite app_nil_r, Z.add_0_r; reflexivity|]. rewrite <- E in *. cbn [read_sections].
    rewrite read_volume; [|apply T; left; reflexivity|intros x I; apply in_map_iff in I; destruct I as (e & <- & I); destruct (TI e I) as (I1 & <-); apply W, I1]. cbn [bind]. rewrite map_length. do 2 f_equal. f_equal.
    assert (G : forall L k, (forall e, In e L -> c_type (fst e) = t) -> map (fun e : Z * list Z => cell_of vo co pid (fst e) t (snd e)) (number k (map snd L)) = map (fun e : Z * (cell * list Z) => cell_of vo co pid (fst e) (c_type (fst (snd e))) (snd (snd e))) (number k L)).
    { induction L as [|x L IHL]; intros k HL; [reflexivity|]. cbn [map]. rewrite !number_cons. cbn [map fst snd]. rewrite (HL x) by (left; reflexivity). f_equal. apply IHL. intros; apply HL; right; assumption. }
    apply G. intros e I. apply TI, I. }
  rewrite A. cbn [bind]. rewrite IH by (try exact W; intros; apply T; right; assumption). cbn [s_cells s_surf s_next]. unfold sorted. cbn [flat_map]. rewrite number_app, map_app, app_length, <- app_assoc. do 2 f_equal. lia.
Qed.
Lemma read_flats : forall vo co pid l types s, (forall t, In t types -> flat t) -> whole l ->
  read_sections vo co pid (flat_map (section l) types) s =
  Ok (St (s_cells s) (s_surf s ++ map (fun e => (fst e, map (fun v => vo + (v - 1)) (snd (snd e)))) (number (s_next s) (sorted types l))) (s_next s + Z.of_nat (length (sorted types l)))).
Proof.
  intros vo co pid l. induction types as [|t types IH]; intros s T W; [destruct s; cbn; rewrite app_nil_r, Z.add_0_r; reflexivity|]. cbn [flat_map]. rewrite read_sections_app.
  assert (A : read_sections vo co pid (section l t) s = Ok (St (s_cells s) (s_surf s ++ map (fun e => (fst e, map (fun v => vo + (v - 1)) (snd (snd e)))) (number (s_next s) (of_type t l))) (s_next s + Z.of_nat (length (of_type t l))))).
  { unfold section. pose proof (fun e => proj1 (of_type_in t l e)) as TI. destruct (of_type t l) as [|e0 r] eqn:E; [destruct s; cbn; rewrite app_nil_r, Z.add_0_r; reflexivity|]. rewrite <- E in *. cbn [read_sections].
    rewrite read_surface; [|apply T; left; reflexivity|intros x I; apply in_map_iff in I; destruct I as (e & <- & I); destruct (TI e I) as (I1 & <-); apply W, I1]. cbn [bind]. rewrite map_length. do 2 f_equal. f_equal.
    clear. generalize (s_next s). induction (of_type t l) as [|x L IHL]; intro k; [reflexivity|]. cbn [map]. rewrite !number_cons. cbn [map fst snd]. f_equal. apply IHL. }
  rewrite A. cbn [bind]. rewrite IH by (try exact W; intros; apply T; right; assumption). cbn [s_cells s_surf s_next]. unfold sorted. cbn [flat_map]. rewrite number_app, map_app, app_length, <- app_assoc. do 2 f_equal. lia.
Qed.

(** ** Boundary conditions *)
Definition conn_of (surf : list (Z * list Z)) (i : Z) : list Z := match look i surf with Some c => c | None => [] end.
Definition lst (b : bc) : list Z := map (fun v => v - 1) (b_list b).
Definition elems_of (surf : list (Z * list Z)) (kb : Z * bc) : list (Z * (Z * list Z)) := if b_elements (snd kb) then map (fun i => (fst kb, (i, conn_of surf i))) (lst (snd kb)) else [].
Definition faces_of (vo : Z) (border : list face) (got : list (face * Z)) (kb : Z * bc) : list (face * Z) :=
  if b_elements (snd kb) then got else of_points (fst kb) (map (fun v => v + vo) (lst (snd kb))) border got.
Lemma look_none : forall A i (l : list (Z * A)), ~ In i (map fst l) -> look i l = None.
Proof. intros A i. induction l as [|(j, x) l IH]; intro H; [reflexivity|]. cbn in *. destruct (Z.eqb_spec i j) as [-> |]; [exfalso; apply H; left; reflexivity|]. apply IH. intro I. apply H. right. exact I. Qed.
Lemma of_elements_run : forall surf l got, NoDup l -> (forall i, In i l -> ~ In i (map fst got)) -> (forall i, In i l -> look i surf <> None) -> of_elements surf l got = Ok (got ++ map (fun i => (i, conn_of surf i)) l).
Proof.
  intros surf. induction l as [|i l IH]; intros got D G H; [cbn; rewrite app_nil_r; reflexivity|]. inversion D as [|? ? NI D']; subst. cbn [of_elements map]. unfold conn_of at 1. destruct (look i surf) as [c|] eqn:E; [|exfalso; apply (H i); [left; reflexivity|exact E]].
  rewrite look_none by (apply G; left; reflexivity). rewrite IH; [rewrite <- app_assoc; reflexivity|exact D'| |intros; apply H; right; assumption]. intros j J. rewrite map_app, in_app_iff. intros [K|[<- |[]]]; [exact (G j (or_intror J) K)|contradiction].
Qed.
Lemma read_bcs_run : forall vo border surf l pid a, (forall b, In b l -> b_elements b = true -> NoDup (lst b) /\ forall i, In i (lst b) -> look i surf <> None) ->
  read_bcs vo border surf l pid a = Ok (Acc (a_verts a) (a_cells a) (a_elems a ++ flat_map (elems_of surf) (number pid l)) (fold_left (faces_of vo border) (number pid l) (a_faces a))
    (a_info a ++ map (fun kb => Info (fst kb) (b_kind (snd kb)) (Some (b_name (snd kb))) (b_elements (snd kb))) (number pid l)) (pid + Z.of_nat (length l)) (a_zone a) (a_zones a)).
Proof.
  intros vo border surf. induction l as [|b l IH]; intros pid a H; [cbn; rewrite !app_nil_r, Z.add_0_r; reflexivity|]. cbn [read_bcs]. rewrite number_cons. cbn [flat_map fold_left map fst snd].
  assert (H' : forall b0, In b0 l -> b_elements b0 = true -> NoDup (lst b0) /\ forall i, In i (lst b0) -> look i surf <> None) by (intros; apply H; [right|]; assumption).
  assert (ZL : pid + 1 + Z.of_nat (length l) = pid + Z.of_nat (length (b :: l))) by (cbn [length]; lia). destruct (b_elements b) eqn:E.
  - destruct (H b (or_introl eq_refl) E) as (D & L). fold (lst b). rewrite of_elements_run; [|exact D|intros i _ []|exact L]. cbn [bind app]. rewrite IH by exact H'. cbn [a_verts a_cells a_elems a_faces a_info a_zone a_zones]. rewrite ZL.
    assert (E1 : elems_of surf (pid, b) = map (fun i => (pid, (i, conn_of surf i))) (lst b)) by (unfold elems_of; cbn [fst snd]; rewrite E; reflexivity).
    assert (E2 : faces_of vo border (a_faces a) (pid, b) = a_faces a) by (unfold faces_of; cbn [fst snd]; rewrite E; reflexivity). rewrite E1, E2, map_map, <- !app_assoc. reflexivity.
  - fold (lst b). rewrite IH by exact H'. cbn [a_verts a_cells a_elems a_faces a_info a_zone a_zones]. rewrite ZL. assert (E1 : elems_of surf (pid, b) = []) by (unfold elems_of; cbn [fst snd]; rewrite E; reflexivity).
    assert (E2 : faces_of vo border (a_faces a) (pid, b) = of_points pid (map (fun v => v + vo) (lst b)) border (a_faces a)) by (unfold faces_of; cbn [fst snd]; rewrite E; reflexivity). rewrite E1, E2, <- !app_assoc. reflexivity.
Qed.
Lemma add_cells_run : forall new cells, NoDup (map c_id (cells ++ new)) -> add_cells cells new = cells ++ new.
Proof.
  induction new as [|c new IH]; intros cells D; [cbn; rewrite app_nil_r; reflexivity|]. unfold add_cells. cbn [fold_left]. assert (M : mem (c_id c) (map c_id cells) = false).
  { apply not_true_is_false. intro M. unfold mem in M. apply existsb_exists in M. destruct M as (x & I & Q). apply Z.eqb_eq in Q. subst x. rewrite map_app in D. apply NoDup_remove_2 in D. apply D. apply in_app_iff. left. exact I. }
  rewrite M. fold (add_cells (cells ++ [c]) new). rewrite IH by (rewrite <- app_assoc; exact D). rewrite <- app_assoc. reflexivity.
Qed.
(** faces taken by conditions on points *)
Lemma pool_in : forall conn pool, belongToPool conn pool = true <-> conn <> [] /\ forall v, In v conn -> In v pool.
Proof.
  intros conn pool. unfold belongToPool. destruct conn as [|c r]; [split; [discriminate|intros (H & _); contradiction]|]. rewrite forallb_forall. split.
  - intro H. split; [discriminate|]. intros v I. specialize (H v I). unfold mem in H. apply existsb_exists in H. destruct H as (x & J & Q). apply Z.eqb_eq in Q. subst. exact J.
  - intros (_ & H) v I. unfold mem. apply existsb_exists. exists v. split; [apply H, I|apply Z.eqb_refl].
Qed.
Lemma points_in : forall pid pool border got e, In e (of_points pid pool border got) -> In e got \/ (In (fst e) border /\ snd e = pid /\ belongToPool (snd (fst e)) pool = true).
Proof.
  intros pid pool. unfold of_points. induction border as [|f border IH]; intros got e H; [left; exact H|]. cbn [fold_left] in H. apply IH in H. destruct H as [H|(H & R)]; [|right; split; [right; exact H|exact R]].
  destruct (belongToPool (snd f) pool) eqn:B; cbn [andb] in H; [|left; exact H]. destruct (existsb _ got); cbn [negb] in H; [left; exact H|]. apply in_app_iff in H. destruct H as [H|[<- |[]]]; [left; exact H|right]. split; [left; reflexivity|]. split; [reflexivity|exact B].
Qed.
Lemma points_keep : forall pid pool border got e, In e got -> In e (of_points pid pool border got).
Proof. intros pid pool. unfold of_points. induction border as [|f border IH]; intros got e H; [exact H|]. cbn [fold_left]. apply IH. destruct (_ && _)%bool; [apply in_app_iff; left|]; exact H. Qed.
Lemma points_take : forall pid pool border got f, In f border -> belongToPool (snd f) pool = true -> exists g p, In (g, p) (of_points pid pool border got) /\ face_eqb f g = true.
Proof.
  intros pid pool. unfold of_points. induction border as [|x border IH]; intros got f I B; [destruct I|]. cbn [fold_left]. destruct I as [-> |I]; [|apply IH; assumption]. rewrite B. cbn [andb]. destruct (existsb _ got) eqn:E; cbn [negb].
  - apply existsb_exists in E. destruct E as ((g, p) & J & Q). exists g, p. split; [|exact Q]. fold (of_points pid pool border got). apply points_keep, J.
  - exists f, pid. split; [fold (of_points pid pool border (got ++ [(f, pid)])); apply points_keep, in_app_iff; right; left; reflexivity|]. unfold face_eqb. rewrite Z.eqb_refl, Nat.eqb_refl. reflexivity.
Qed.

(** ** Writing *)
Definition one_based (ids new old : list Z) : Prop := Forall2 (fun i v => exists k, i = 1 + Z.of_nat k /\ nth_error ids k = Some v) new old.
Lemma place_in : forall ids v k, In v ids -> exists j, place_from k ids v = Some (k + Z.of_nat j) /\ nth_error ids j = Some v.
Proof.
  induction ids as [|i ids IH]; intros v k H; [destruct H|]. cbn [place_from]. destruct (Z.eqb_spec v i) as [-> |N]; [exists 0%nat; split; [rewrite Z.add_0_r; reflexivity|reflexivity]|]. destruct H as [H|H]; [congruence|].
  destruct (IH v (k + 1) H) as (j & E & G). exists (S j). split; [rewrite E; f_equal; lia|exact G].
Qed.
Lemma places_ok : forall ids conn, (forall v, In v conn -> In v ids) -> exists l, places ids conn = Ok l /\ one_based ids l conn.
Proof.
  intros ids. induction conn as [|v conn IH]; intro H; [exists []; split; [reflexivity|constructor]|]. destruct (place_in ids v 1 (H v (or_introl eq_refl))) as (j & E & G). destruct (IH ltac:(intros; apply H; right; assumption)) as (l & P & O).
  exists (1 + Z.of_nat j :: l). cbn [places]. unfold place. rewrite E, P. split; [reflexivity|]. constructor; [exists j; split; [reflexivity|exact G]|exact O].
Qed.
Definition written (ids : list Z) (e : cell * list Z) : Prop := exists y, snd e = turn (c_type (fst e)) y /\ one_based ids y (c_conn (fst e)).
Lemma conns_ok : forall good ids cells, (forall c, In c cells -> good (c_type c) = true /\ forall v, In v (c_conn c) -> In v ids) -> exists l, conns good ids cells false = Ok l /\ map fst l = cells /\ forall e, In e l -> written ids e.
Proof.
  intros good ids. induction cells as [|c cells IH]; intro H; [exists []; repeat split; intros e []|]. destruct (H c (or_introl eq_refl)) as (G & V). destruct (places_ok ids (c_conn c) V) as (y & P & O). destruct (IH ltac:(intros; apply H; right; assumption)) as (l & C & M & W).
  exists ((c, turn (c_type c) y) :: l). cbn [conns]. rewrite G. cbn [negb orb]. rewrite P. cbn [bind]. rewrite C. cbn [bind map fst]. rewrite M. repeat split. intros e [<- |I]; [exists y; split; [reflexivity|exact O]|apply W, I].
Qed.
Lemma turn_length : forall t l, length (turn t l) = length l.
Proof. intros t l. destruct t; try reflexivity. destruct l as [|a [|b [|c [|d [|e [|f [|g l]]]]]]]; reflexivity. Qed.
Lemma turn_map : forall t f l, turn t (map f l) = map f (turn t l).
Proof. intros t f l. destruct t; try reflexivity. destruct l as [|a [|b [|c [|d [|e [|g [|h l]]]]]]]; reflexivity. Qed.
Lemma turn_twice : forall t l, turn t (turn t l) = l.
Proof. intros t l. destruct t; try reflexivity. destruct l as [|a [|b [|c [|d [|e [|g [|h l]]]]]]]; reflexivity. Qed.
Lemma based_length : forall ids new old, one_based ids new old -> length new = length old.
Proof. intros ids new old H. induction H; cbn; [reflexivity|f_equal; assumption]. Qed.
Lemma based_new : forall ids new old, one_based ids new old -> renumbered ids (map (fun v => 0 + (v - 1)) new) old.
Proof. intros ids new old H. induction H as [|i v new old (k & -> & G) _ IH]; [constructor|]. cbn [map]. constructor; [exists k; split; [lia|exact G]|exact IH]. Qed.
Lemma back : forall ids k e, written ids e -> c_id (cell_of 0 0 0 k (c_type (fst e)) (snd e)) = k /\ c_type (cell_of 0 0 0 k (c_type (fst e)) (snd e)) = c_type (fst e) /\
  c_pid (cell_of 0 0 0 k (c_type (fst e)) (snd e)) = 0 /\ renumbered ids (c_conn (cell_of 0 0 0 k (c_type (fst e)) (snd e))) (c_conn (fst e)).
Proof.
  intros ids k [c x] (y & E & O). cbn [fst snd] in *. subst x. unfold cell_of. cbn [c_id c_type c_pid c_conn]. rewrite Z.add_0_r. repeat split. rewrite turn_map, turn_twice. apply based_new, O.
Qed.
Lemma sorted_map : forall types l, map fst (sorted types l) = by_types types (map fst l).
Proof.
  intros types l. unfold sorted, by_types. induction types as [|t types IH]; [reflexivity|]. cbn [flat_map]. rewrite map_app, IH. f_equal. unfold of_type. clear. induction l as [|e l IH]; [reflexivity|]. cbn. destruct (etype_eqb _ _); cbn; [f_equal|]; exact IH.
Qed.
Lemma sorted_in : forall types l e, In e (sorted types l) <-> In e l /\ In (c_type (fst e)) types.
Proof.
  intros types l e. unfold sorted. rewrite in_flat_map. split.
  - intros (t & T & I). apply of_type_in in I. destruct I as (I & <-). split; assumption.
  - intros (I & T). exists (c_type (fst e)). split; [exact T|]. apply of_type_in. split; [exact I|reflexivity].
Qed.

(** ** Written and read *)
Lemma number_in : forall A (l : list A) k i x, In (i, x) (number k l) -> exists j, i = k + Z.of_nat j /\ nth_error l j = Some x.
Proof.
  induction l as [|y l IH]; intros k i x H; [destruct H|]. rewrite number_cons in H. destruct H as [H|H]; [injection H as <- <-; exists 0%nat; split; [lia|reflexivity]|]. apply IH in H. destruct H as (j & -> & G). exists (S j). split; [lia|exact G].
Qed.
Lemma look_number : forall A B (g : A -> B) (l : list A) k j x, nth_error l j = Some x -> look (k + Z.of_nat j) (map (fun e => (fst e, g (snd e))) (number k l)) = Some (g x).
Proof.
  intros A B g. induction l as [|y l IH]; intros k j x H; [destruct j; discriminate|]. rewrite number_cons. cbn [map fst snd look]. destruct j as [|j].
  - injection H as ->. rewrite Z.add_0_r, Z.eqb_refl. reflexivity.
  - destruct (Z.eqb_spec (k + Z.of_nat (S j)) k); [lia|]. cbn in H. replace (k + Z.of_nat (S j)) with (k + 1 + Z.of_nat j) by lia. apply IH, H.
Qed.
Lemma look_in : forall A i (l : list (Z * A)) x, look i l = Some x -> In (i, x) l.
Proof. intros A i. induction l as [|(j, y) l IH]; intros x H; [discriminate|]. cbn in H. destruct (Z.eqb_spec i j) as [-> |]; [injection H as ->; left; reflexivity|right; apply IH, H]. Qed.
Lemma rep_id : forall same verts i, NoDup (map fst verts) -> apart same verts -> rep same (number 0 (map snd verts)) i = i.
Proof.
  intros same verts i D A. unfold rep. destruct (look i (number 0 (map snd verts))) as [p|] eqn:L; [|reflexivity]. destruct (find _ _) as [(j, q)|] eqn:F; [|reflexivity]. apply find_some in F. destruct F as (I & S). cbn [snd fst] in *.
  apply look_in in L. apply number_in in L, I. destruct L as (a & -> & LA). destruct I as (b & -> & LB). rewrite nth_error_map in LA, LB.
  destruct (nth_error verts a) as [va|] eqn:EA; [|discriminate]. destruct (nth_error verts b) as [vb|] eqn:EB; [|discriminate]. injection LA as <-. injection LB as <-.
  assert (E : vb = va) by (apply A; [eapply nth_error_In; exact EB|eapply nth_error_In; exact EA|exact S]). subst vb. f_equal. f_equal.
  apply (proj1 (NoDup_nth_error (map fst verts)) D); [rewrite map_length; apply nth_error_Some; congruence|]. rewrite !nth_error_map, EA, EB. reflexivity.
Qed.
Lemma keys_in : forall A (l : list A) k, (k < length l)%nat -> In (Z.of_nat k) (map fst (number 0 l)).
Proof. intros A l k H. destruct (nth_error l k) as [x|] eqn:E; [|apply nth_error_None in E; lia]. apply in_map_iff. exists (Z.of_nat k, x). split; [reflexivity|]. eapply nth_error_In. rewrite (number_nth _ _ 0 _ _ E). reflexivity. Qed.
Lemma nodup_on : forall A B (f : A -> B) l, NoDup l -> (forall a b, In a l -> In b l -> f a = f b -> a = b) -> NoDup (map f l).
Proof.
  intros A B f. induction l as [|x l IH]; intros D H; [constructor|]. inversion D; subst. cbn. constructor; [|apply IH; [assumption|intros; apply H; try right; assumption]].
  intro I. apply in_map_iff in I. destruct I as (y & E & I). apply H in E; [subst; contradiction|right; exact I|left; reflexivity].
Qed.
Lemma nodup_inj : forall A B (f : A -> B) l a b, NoDup (map f l) -> In a l -> In b l -> f a = f b -> a = b.
Proof.
  intros A B f. induction l as [|x l IH]; intros a b D I J E; [destruct I|]. cbn in D. inversion D as [|? ? N D']; subst. destruct I as [<- |I], J as [<- |J]; [reflexivity| | |apply IH; assumption]; exfalso; apply N; apply in_map_iff; [exists b|exists a]; split; congruence || assumption.
Qed.
Lemma all_sorted : forall l, (forall e, In e l -> solid (c_type (fst e))) -> length (sorted volume_types l) = length l.
Proof.
  unfold sorted, volume_types. induction l as [|e l IH]; intro H; [reflexivity|]. specialize (IH ltac:(intros; apply H; right; assumption)). cbn [flat_map] in *. rewrite !app_length in *. cbn [length] in *.
  unfold of_type in *. cbn [filter]. destruct (H e (or_introl eq_refl)) as [E|[E|[E|[E|[]]]]]; rewrite <- E; cbn [etype_eqb length]; lia.
Qed.
Lemma number_map : forall A B (f : A -> B) l k, number k (map f l) = map (fun e => (fst e, f (snd e))) (number k l).
Proof. intros A B f. induction l as [|x l IH]; intro k; [reflexivity|]. cbn [map]. rewrite !number_cons. cbn [map fst snd]. f_equal. apply IH. Qed.

Section Round.
  Variables (border : list cell -> list face) (same : point -> point -> bool) (name : list N) (verts : list vertex) (cells bnd : list cell) (infos : list info).
  Hypothesis HV : NoDup (map fst verts).
  Hypothesis HA : apart same verts.
  Hypothesis HC : forall c, In c cells -> solid (c_type c) /\ on (map fst verts) c.
  Hypothesis HB : forall c, In c bnd -> flat (c_type c) /\ on (map fst verts) c.
  Hypothesis HD : NoDup (map c_id bnd).
  Notation ids := (map fst verts).
  Definition listed : list cell := flat_map (fun i => if i_elements i then of_pid (i_pid i) bnd else []) infos.

  Lemma whole_written : forall l, (forall e, In e l -> written ids e) -> (forall e, In e l -> on ids (fst e)) -> whole l.
  Proof. intros l W O e I. destruct (W e I) as (y & E & B). rewrite E, turn_length, (based_length _ _ _ B). apply (O e I). Qed.
  Lemma listed_bnd : forall c, In c listed -> In c bnd.
  Proof. intros c I. unfold listed in I. apply in_flat_map in I. destruct I as (i & _ & I). destruct (i_elements i); [|destruct I]. unfold of_pid in I. apply filter_In in I. tauto. Qed.

  Section Lists.
    Variables (surf : list (cell * list Z)) (nvol : Z).
    Hypothesis SF : map fst surf = listed.
    Hypothesis SW : forall e, In e surf -> written ids e.
    Definition table : list (Z * list Z) := map (fun e => (fst e, map (fun v => 0 + (v - 1)) (snd (snd e)))) (number nvol (sorted surface_types surf)).
    Lemma surf_found : forall c, In c listed -> exists j e, surf_place surf (c_id c) = Z.of_nat j /\ nth_error (sorted surface_types surf) j = Some e /\ fst e = c.
    Proof.
      intros c I. assert (I0 := I). rewrite <- SF in I0. apply in_map_iff in I0. destruct I0 as (e0 & E0 & I0). assert (IS : In e0 (sorted surface_types surf)) by (apply sorted_in; split; [exact I0|rewrite E0; apply HB, listed_bnd, I]).
      assert (IK : In (c_id c) (map (fun e => c_id (fst e)) (sorted surface_types surf))) by (apply in_map_iff; exists e0; split; [rewrite E0; reflexivity|exact IS]).
      destruct (place_in _ _ 0 IK) as (j & P & N). rewrite nth_error_map in N. destruct (nth_error (sorted surface_types surf) j) as [e|] eqn:NE; [|discriminate]. exists j, e. split; [|split; [exact NE|]].
      - unfold surf_place. fold (sorted surface_types surf). rewrite P. lia.
      - injection N as N. apply (nodup_inj _ _ c_id bnd); [exact HD| |apply listed_bnd, I|exact N]. apply listed_bnd. rewrite <- SF. apply in_map. apply nth_error_In in NE. apply sorted_in in NE. tauto.
    Qed.
    Lemma table_look : forall c, In c listed -> exists x, look (surf_place surf (c_id c) + nvol) table = Some x /\ renumbered ids x (c_conn c).
    Proof.
      intros c I. destruct (surf_found c I) as (j & e & P & N & E). exists (map (fun v => 0 + (v - 1)) (snd e)). split.
      - rewrite P, Z.add_comm. unfold table. exact (look_number _ _ (fun x : cell * list Z => map (fun v => 0 + (v - 1)) (snd x)) _ _ _ _ N).
      - assert (IE : In e surf) by (apply nth_error_In in N; apply sorted_in in N; tauto). destruct (SW e IE) as (y & Y & B). rewrite Y. rewrite E in *. assert (T : turn (c_type c) y = y) by (destruct (proj1 (HB c (listed_bnd c I))) as [<- |[<- |[]]]; reflexivity). rewrite T. apply based_new, B.
    Qed.
    Lemma lists_good : forall i, In i infos -> i_elements i = true -> NoDup (lst (bc_of ids (1 + nvol) surf bnd i)) /\ forall k, In k (lst (bc_of ids (1 + nvol) surf bnd i)) -> look k table <> None.
    Proof.
      intros i I E. assert (SUB : forall c, In c (of_pid (i_pid i) bnd) -> In c listed) by (intros c C; unfold listed; apply in_flat_map; exists i; split; [exact I|rewrite E; exact C]).
      unfold lst, bc_of. cbn [b_list]. rewrite E, map_map. split.
      - apply nodup_on.
        + unfold of_pid. apply NoDup_filter. eapply NoDup_map_inv. exact HD.
        + intros a b A B Q. destruct (surf_found a (SUB a A)) as (j & e & P & N & F). destruct (surf_found b (SUB b B)) as (j' & e' & P' & N' & F'). rewrite P, P' in Q. assert (j = j') by lia. subst j'. congruence.
      - intros k K. apply in_map_iff in K. destruct K as (c & <- & C). destruct (table_look c (SUB c C)) as (x & L & _). replace (surf_place surf (c_id c) + (1 + nvol) - 1) with (surf_place surf (c_id c) + nvol) by lia. rewrite L. discriminate.
    Qed.
    Lemma elems_same : forall l k, (forall i, In i l -> In i infos) ->
      same_patches ids (map (fun e => (fst e, snd (snd e))) (flat_map (elems_of table) (number k (map (bc_of ids (1 + nvol) surf bnd) l)))) (patches k l bnd).
    Proof.
      induction l as [|i l IH]; intros k H; [constructor|]. cbn [map]. rewrite number_cons. cbn [flat_map patches]. rewrite map_app. apply Forall2_app; [|apply IH; intros; apply H; right; assumption]. unfold elems_of. cbn [fst snd].
      change (b_elements (bc_of ids (1 + nvol) surf bnd i)) with (i_elements i). destruct (i_elements i) eqn:E; [|constructor]. unfold lst, bc_of. cbn [b_list]. rewrite E, !map_map. cbn [fst snd]. fold (of_pid (i_pid i) bnd).
      assert (SUB : forall c, In c (of_pid (i_pid i) bnd) -> In c listed) by (intros c C; unfold listed; apply in_flat_map; exists i; split; [apply H; left; reflexivity|rewrite E; exact C]).
      revert SUB. generalize (of_pid (i_pid i) bnd). intro L. induction L as [|c L IHL]; intro SUB; [constructor|]. cbn [map]. constructor; [|apply IHL; intros; apply SUB; right; assumption]. cbn [fst snd]. split; [reflexivity|].
      destruct (table_look c (SUB c (or_introl eq_refl))) as (x & Q & R). unfold conn_of. replace (surf_place surf (c_id c) + (1 + nvol) - 1) with (surf_place surf (c_id c) + nvol) by lia. rewrite Q. exact R.
    Qed.
  End Lists.

  Definition bcs (vol surf : list (cell * list Z)) : list bc := map (bc_of ids (1 + Z.of_nat (length vol)) surf bnd) infos.
  Definition new_cells (vol : list (cell * list Z)) : list cell := map (fun e => cell_of 0 0 0 (fst e) (c_type (fst (snd e))) (snd (snd e))) (number 0 (sorted volume_types vol)).
  Lemma round : exists vol surf file g, write name verts cells bnd infos = Ok file /\ read border same file = Ok g /\
    map fst vol = cells /\ (forall e, In e vol -> written ids e) /\ map fst surf = listed /\ (forall e, In e surf -> written ids e) /\
    g_verts g = number 0 (map snd verts) /\ g_cells g = new_cells vol /\ g_zones g = [(0, name)] /\
    g_surf g = map (fun f => (snd f, snd (fst f))) (fold_left (faces_of 0 (border (new_cells vol))) (number 1 (bcs vol surf)) []) ++
               map (fun e => (fst e, snd (snd e))) (flat_map (elems_of (table surf (Z.of_nat (length vol)))) (number 1 (bcs vol surf))) /\
    g_info g = map (fun kb => Info (fst kb) (b_kind (snd kb)) (Some (b_name (snd kb))) (b_elements (snd kb))) (number 1 (bcs vol surf)).
  Proof.
    destruct (conns_ok is_volume ids cells) as (vol & CV & MV & WV).
    { intros c I. destruct (HC c I) as (T & _ & V). split; [destruct T as [<- |[<- |[<- |[<- |[]]]]]; reflexivity|exact V]. }
    destruct (conns_ok is_surface ids listed) as (surf & CS & MS & WS).
    { intros c I. destruct (HB c (listed_bnd c I)) as (T & _ & V). split; [destruct T as [<- |[<- |[]]]; reflexivity|exact V]. }
    assert (OV : forall e, In e vol -> solid (c_type (fst e)) /\ on ids (fst e)) by (intros e I; apply HC; rewrite <- MV; apply in_map, I).
    assert (OS : forall e, In e surf -> on ids (fst e)) by (intros e I; apply HB, listed_bnd; rewrite <- MS; apply in_map, I).
    assert (LV : length (sorted volume_types vol) = length vol) by (apply all_sorted; intros e I; apply OV, I).
    exists vol, surf. eexists. eexists. split; [unfold write; rewrite CV; cbn [bind]; fold listed; rewrite CS; cbn [bind]; reflexivity|]. split; [|split; [exact MV|split; [exact WV|split; [exact MS|split; [exact WS|]]]]].
    - unfold read. cbn [read_zones]. unfold read_zone. cbn [a_verts a_cells a_elems a_faces a_info a_pid a_zone a_zones length z_sections z_points z_bcs z_name]. change (Z.of_nat 0) with 0.
      rewrite read_sections_app, read_solids; [|intros t T; exact T|apply whole_written; [exact WV|intros e I; apply OV, I]]. cbn [bind]. rewrite read_flats; [|intros t T; exact T|apply whole_written; [exact WS|exact OS]]. cbn [bind s_cells s_surf s_next app].
      rewrite LV. replace (0 + Z.of_nat (length vol)) with (Z.of_nat (length vol)) by lia. fold (table surf (Z.of_nat (length vol))). fold (new_cells vol). fold (bcs vol surf).
      rewrite read_bcs_run.
      2: { intros b I E. unfold bcs in I. apply in_map_iff in I. destruct I as (i & <- & I). apply (lists_good surf (Z.of_nat (length vol)) MS WS i I E). }
      cbn [bind a_verts a_cells a_elems a_faces a_info a_pid a_zone a_zones app]. rewrite add_cells_run.
      2: { cbn [app]. unfold new_cells. rewrite map_map. cbn [c_id cell_of]. unfold cell_of. cbn [c_id]. assert (G : forall (A : Type) (l : list A) k, NoDup (map (fun e : Z * A => fst e + 0) (number k l)) /\ forall z, In z (map (fun e : Z * A => fst e + 0) (number k l)) -> k <= z).
           { intro A. induction l as [|x l IH]; intro k; [split; [constructor|intros z []]|]. rewrite number_cons. cbn [map fst]. destruct (IH (k + 1)) as (D & L). split; [constructor; [intro I; apply L in I; lia|exact D]|]. intros z [<- |I]; [lia|apply L in I; lia]. }
           apply G. }
      cbn [app]. unfold finish. cbn [a_verts a_cells a_elems a_faces a_info a_pid a_zone a_zones].
      assert (RI : forall l, map (rep same (number 0 (map snd verts))) l = l) by (intro l; rewrite <- (map_id l) at 2; apply map_ext; intro; apply rep_id; assumption).
      assert (KV : filter (fun v => Z.eqb (rep same (number 0 (map snd verts)) (fst v)) (fst v)) (number 0 (map snd verts)) = number 0 (map snd verts)).
      { generalize (number 0 (map snd verts)) at 2 3. intro l. induction l as [|v l IH]; [reflexivity|]. cbn [filter]. rewrite rep_id, Z.eqb_refl by assumption. f_equal. exact IH. }
      rewrite KV.
      assert (FB : forallb (fun e : Z * (Z * list Z) => forallb (fun v => mem v (map fst (number 0 (map snd verts)))) (snd (snd e))) (flat_map (elems_of (table surf (Z.of_nat (length vol)))) (number 1 (bcs vol surf))) = true).
      { pose proof (elems_same surf (Z.of_nat (length vol)) MS WS infos 1 (fun i I => I)) as SP. fold (bcs vol surf) in SP. apply forallb_forall. intros e I. apply forallb_forall. intros v IV. apply (in_map (fun e : Z * (Z * list Z) => (fst e, snd (snd e)))) in I. revert SP I.
        generalize (map (fun e0 : Z * (Z * list Z) => (fst e0, snd (snd e0))) (flat_map (elems_of (table surf (Z.of_nat (length vol)))) (number 1 (bcs vol surf)))). intros L SP I. induction SP as [|a b L L' (_ & R) SP IH]; [destruct I|]. destruct I as [-> |I]; [|apply IH, I]. cbn [snd] in R.
        clear - R IV. induction R as [|x y X Y (k & -> & N) R IH]; [destruct IV|]. destruct IV as [<- |IV]; [|apply IH, IV]. unfold mem. apply existsb_exists. exists (Z.of_nat k). split; [|apply Z.eqb_refl]. apply keys_in. rewrite map_length. apply nth_error_Some. rewrite nth_error_map in N. intro Q; rewrite Q in N; discriminate N. }
      rewrite FB. reflexivity.
    - cbn [g_verts g_cells g_surf g_info g_zones]. repeat split.
      + rewrite <- (map_id (new_cells vol)) at 2. apply map_ext. intros [i t l p]. cbn [c_id c_type c_conn c_pid]. f_equal. rewrite <- (map_id l) at 2. apply map_ext. intro. apply rep_id; assumption.
      + f_equal. apply map_ext. intros [f p]. cbn [fst snd]. f_equal. rewrite <- (map_id (snd f)) at 2. apply map_ext. intro. apply rep_id; assumption.
  Qed.
End Round.
