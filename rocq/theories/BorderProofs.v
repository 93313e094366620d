From Coq Require Import String List Arith Bool ZArith Lia Permutation.
From Verif Require Import Vec SharedPtr Obj ObjSpec ObjProofs Select SelectProofs TriProofs Topo TopoSpec TopoProofs BorderSpec.
Import ListNotations.
Open Scope list_scope.
Open Scope nat_scope.

(** * The free faces *)
Lemma border_faces_in : forall fs k i, In i (border_faces k fs) <-> k <= i /\ nth_error fs (i - k) = Some [].
Proof.
  induction fs as [|ns fs IH]; intros k i; cbn [border_faces].
  - split; [intros []|]. intros (_ & H). destruct (i - k); discriminate.
  - assert (Tail : In i (border_faces (S k) fs) <-> k < i /\ nth_error (ns :: fs) (i - k) = Some []).
    { rewrite IH. split; intros (A & B); (split; [lia|]).
      - replace (i - k) with (S (i - S k)) by lia. exact B.
      - replace (i - k) with (S (i - S k)) in B by lia. exact B. }
    unfold border. destruct ns as [|n ns]; cbn [length Nat.eqb].
    + cbn [In]. rewrite Tail. split.
      * intros [<- | (A & B)]; [split; [lia|]; replace (k - k) with 0 by lia; reflexivity|split; [lia|exact B]].
      * intros (A & B). destruct (Nat.eq_dec k i) as [E|E]; [left; exact E|right; split; [lia|exact B]].
    + rewrite Tail. split; intros (A & B); (split; [|exact B]); [lia|].
      destruct (Nat.eq_dec k i) as [E|E]; [|lia]. subst i. replace (k - k) with 0 in B by lia. discriminate.
Qed.
Lemma border_faces_nodup : forall fs k, NoDup (border_faces k fs).
Proof.
  induction fs as [|ns fs IH]; intros k; cbn [border_faces]; [constructor|]. destruct (border ns); [|apply IH]. constructor; [|apply IH].
  rewrite border_faces_in. lia.
Qed.
Lemma forall2_nth : forall A B (P : A -> B -> Prop) l l', Forall2 P l l' -> forall i,
  match nth_error l i, nth_error l' i with Some a, Some b => P a b | None, None => True | _, _ => False end.
Proof. intros A B P l l' H. induction H as [|a b l l' Hab H IH]; intros i; destruct i; cbn; auto. apply IH. Qed.

Section Border.
Variable m : mesh.
Variable adj : adjacency.
Hypothesis Hid : NoDup (map fst m).
Hypothesis Hadj : adjacent_right m adj.

Lemma border_at : forall c i, In c (map fst m) -> (In i (border_faces 0 (adj c)) <-> exists f, free_at m c i f).
Proof.
  intros c i Hc. destruct (known_faces m c Hc) as (fs & Hfs). rewrite border_faces_in, Nat.sub_0_r.
  pose proof (forall2_nth _ _ _ _ _ (Hadj c fs Hfs) i) as Q. split.
  - intros (_ & B). rewrite B in Q. destruct (nth_error fs i) as [f|] eqn:E; [|destruct Q]. exists f. split; [exists fs; split; assumption|].
    intros n Hn. apply Q in Hn. destruct Hn.
  - intros (f & (fs' & Hfs' & E) & Hn). rewrite <- (faces_unique m Hid c fs fs' Hfs Hfs') in E. rewrite E in Q. split; [lia|].
    destruct (nth_error (adj c) i) as [ns|]; [|destruct Q]. destruct ns as [|n ns]; [reflexivity|]. exfalso. apply (Hn n), Q. left. reflexivity.
Qed.

Definition table (t : nat) := extractBoundaryFaceCellID t adj (map fst m).
Lemma face_known : forall c i f, face_at m c i f -> In c (map fst m).
Proof. intros c i f (fs & H & _). apply (in_map fst) in H. exact H. Qed.
Lemma table_in : forall t c l, t <> 3 -> (In (c, l) (table t) <-> In c (map fst m) /\ l = border_faces 0 (adj c) /\ l <> []).
Proof.
  intros t c l Ht. unfold table, extractBoundaryFaceCellID. rewrite (proj2 (Nat.eqb_neq t 3) Ht), filter_In, in_map_iff. cbn [snd]. split.
  - intros ((d & E & Hd) & Hl). injection E as -> <-. split; [exact Hd|]. split; [reflexivity|]. intros F. rewrite F in Hl. discriminate.
  - intros (Hc & -> & Hl). split; [exists c; split; [reflexivity|exact Hc]|]. destruct (border_faces 0 (adj c)); [contradiction|reflexivity].
Qed.
Lemma table_free : forall t c i, t <> 3 -> ((exists l, In (c, l) (table t) /\ In i l) <-> exists f, free_at m c i f).
Proof.
  intros t c i Ht. split.
  - intros (l & H & Hi). apply (table_in t c l Ht) in H. destruct H as (Hc & -> & _). apply (border_at c i Hc), Hi.
  - intros (f & H). pose proof (face_known c i f (proj1 H)) as Hc. exists (border_faces 0 (adj c)).
    assert (B : In i (border_faces 0 (adj c))) by (apply (border_at c i Hc); exists f; exact H). split; [|exact B].
    apply (table_in t c _ Ht). split; [exact Hc|]. split; [reflexivity|]. intros F. rewrite F in B. destruct B.
Qed.
Lemma filtered_nodup : forall l, NoDup l ->
  NoDup (map fst (filter (fun e : nat * list nat => negb (Nat.eqb (length (snd e)) 0)) (map (fun c => (c, border_faces 0 (adj c))) l))).
Proof.
  induction l as [|c l IH]; intros N; cbn [map filter snd]; [constructor|]. inversion N as [|x y Hx Hy Q].
  destruct (negb (length (border_faces 0 (adj c)) =? 0)); [|apply IH, Hy]. cbn [map fst]. constructor; [|apply IH, Hy].
  intros F. apply in_map_iff in F. destruct F as ((d, ls) & E & F). cbn in E. subst d. apply filter_In in F. destruct F as (F & _).
  apply in_map_iff in F. destruct F as (d & E & F). injection E as -> _. contradiction.
Qed.
Lemma table_nodup : forall t, NoDup (map fst (table t)).
Proof.
  intros t. unfold table, extractBoundaryFaceCellID. destruct (Nat.eqb t 3); [constructor|]. apply filtered_nodup, Hid.
Qed.

Lemma vertices_in : forall t face v, t <> 3 -> faces_right m face ->
  (In v (extractBoundaryVertexID face (table t)) <-> exists c i f, free_at m c i f /\ In v f).
Proof.
  intros t face v Ht Hf. unfold extractBoundaryVertexID. rewrite nodup_In, in_flat_map. split.
  - intros ((c, l) & H & V). cbn [fst snd] in V. apply in_flat_map in V. destruct V as (i & Hi & V).
    destruct (proj1 (table_free t c i Ht) (ex_intro _ l (conj H Hi))) as (f & F). exists c, i, f. split; [exact F|]. rewrite <- (Hf c i f (proj1 F)). exact V.
  - intros (c & i & f & F & V). destruct (proj2 (table_free t c i Ht) (ex_intro _ f F)) as (l & H & Hi). exists (c, l). split; [exact H|]. cbn [fst snd].
    apply in_flat_map. exists i. split; [exact Hi|]. rewrite (Hf c i f (proj1 F)). exact V.
Qed.
Lemma interfaces_in : forall t interf k, t <> 3 -> (In k (extractBoundaryInterfaceID interf (table t)) <-> exists c i f, free_at m c i f /\ interf c i = k).
Proof.
  intros t interf k Ht. unfold extractBoundaryInterfaceID. rewrite nodup_In, in_flat_map. split.
  - intros ((c, l) & H & V). cbn [fst snd] in V. apply in_map_iff in V. destruct V as (i & E & Hi).
    destruct (proj1 (table_free t c i Ht) (ex_intro _ l (conj H Hi))) as (f & F). exists c, i, f. split; [exact F|exact E].
  - intros (c & i & f & F & E). destruct (proj2 (table_free t c i Ht) (ex_intro _ f F)) as (l & H & Hi). exists (c, l). split; [exact H|]. cbn [fst snd].
    apply in_map_iff. exists i. split; [exact E|exact Hi].
Qed.
End Border.

(** * The mesh of the border *)
Definition bcell (shape : nat -> elem * list nat) (owner : nat -> nat) (g : obj) (k : nat) : nat * cell :=
  (k, Cl (fst (shape k)) (snd (shape k)) (match find (owner k) (o_cells g) with Some c => c_pid c | None => 0%Z end)).
Lemma border_cells_ok : forall shape owner g ks r, NoDup ks -> (forall k, In k ks -> ~ In k (map fst (o_cells r))) -> pid_ok r ->
  (forall p, In p (o_pids r) -> exists id, carries r id p) -> (forall e, In e (o_names r) -> snd e = EmptyString) ->
  (forall k, In k ks -> checkCellConnCoherence (fst (shape k)) (snd (shape k)) = true /\ snd (shape k) <> [] /\ exists c, find (owner k) (o_cells g) = Some c /\ int_range (c_pid c)) ->
  exists r', fold_left (fun r k => match r, find (owner k) (o_cells g) with
                            | Some r, Some c => Some (snd (addConnectedCell (@length nat) (snd (shape k)) (fst (shape k)) (c_pid c) (Some k) r))
                            | _, _ => None
                            end) ks (Some r) = Some r' /\
   o_type r' = o_type r /\ o_tol r' = o_tol r /\ o_verts r' = o_verts r /\ o_cells r' = o_cells r ++ map (bcell shape owner g) ks /\ pid_ok r' /\
   (forall p, In p (o_pids r') -> exists id, carries r' id p) /\ forall e, In e (o_names r') -> snd e = EmptyString.
Proof.
  intros shape owner g. induction ks as [|k ks IH]; intros r N New Ok Car Bl Ex; cbn [fold_left map].
  - exists r. rewrite app_nil_r. repeat (split; [first [reflexivity|assumption]|]). exact Bl.
  - inversion N as [|x y Hx Hy Q]. destruct (Ex k (or_introl eq_refl)) as (Co & Ne & c & Hc & R1). rewrite Hc.
    pose proof (New k (or_introl eq_refl)) as Nk.
    assert (E : snd (addConnectedCell (@length nat) (snd (shape k)) (fst (shape k)) (c_pid c) (Some k) r) = add_cell k (fst (shape k)) (snd (shape k)) (c_pid c) r).
    { unfold addConnectedCell. destruct (snd (shape k)) as [|a l]; [contradiction|]. rewrite (proj2 (has_false _ k (o_cells r)) Nk), Co. reflexivity. }
    rewrite E. clear E. pose proof (add_cell_ok k (fst (shape k)) (snd (shape k)) (c_pid c) r R1 Nk Ok) as Ok'.
    assert (B : bcell shape owner g k = (k, Cl (fst (shape k)) (snd (shape k)) (c_pid c))) by (unfold bcell; rewrite Hc; reflexivity).
    rewrite add_cell_eq in * by exact Nk. rewrite (to_int_id (c_pid c)) in * by exact R1. rewrite <- B in *.
    match goal with |- context [fold_left _ ks (Some ?r1)] => set (r1' := r1) in * end.
    destruct (IH r1' Hy) as (r' & E1 & E2 & E3 & E4 & E5 & E6).
    + intros j Hj. unfold r1'. cbn [o_cells]. rewrite map_app, in_app_iff. intros [F|[F|[]]]; [apply (New j (or_intror Hj) F)|].
      cbn [bcell fst] in F. subst j. contradiction.
    + exact Ok'.
    + intros p Hp. unfold r1' in Hp. cbn [o_pids] in Hp. apply in_zadd in Hp. unfold carries, r1'. cbn [o_cells]. destruct Hp as [-> | Hp].
      * exists k, (snd (bcell shape owner g k)). split; [apply in_app_iff; right; left; reflexivity|]. rewrite B. reflexivity.
      * destruct (Car p Hp) as (i & d & Hd & Ed). exists i, d. split; [apply in_app_iff; left; exact Hd|exact Ed].
    + unfold r1'. cbn [o_names]. apply nadd_blank, Bl.
    + intros j Hj. apply Ex. right. exact Hj.
    + exists r'. split; [exact E1|]. split; [exact E2|]. split; [exact E3|]. split; [exact E4|]. split; [|exact E6].
      rewrite E5. unfold r1'. cbn [o_cells]. rewrite <- app_assoc. reflexivity.
Qed.

(** * Things that go in pairs are even in number *)
Lemma paired : forall A (dec : forall x y : A, {x = y} + {x <> y}) (R : A -> A -> Prop) n l, length l <= n -> NoDup l ->
  (forall x, In x l -> exists y, In y l /\ y <> x /\ R x y) -> (forall x y, In x l -> In y l -> R x y -> R y x) ->
  (forall x y z, In x l -> In y l -> In z l -> y <> x -> z <> x -> R x y -> R x z -> y = z) -> Nat.even (length l) = true.
Proof.
  intros A dec R. induction n as [|n IH]; intros l L N E Sy Fu; [destruct l; [reflexivity|cbn in L; lia]|].
  destruct l as [|x l]; [reflexivity|]. destruct (E x (or_introl eq_refl)) as (y & Hy & Ne & Rxy).
  assert (Hyl : In y l) by (destruct Hy as [F|F]; [congruence|exact F]). clear Hy.
  inversion N as [|u v Hx Hl Q].
  destruct (in_split y l Hyl) as (l1 & l2 & ->).
  assert (N' : NoDup (l1 ++ l2) /\ ~ In y (l1 ++ l2)) by (split; [apply (NoDup_remove_1 l1 l2 y Hl)|apply (NoDup_remove_2 l1 l2 y Hl)]).
  assert (Sub : forall z, In z (l1 ++ l2) -> In z (x :: l1 ++ y :: l2)).
  { intros z Hz. right. apply in_app_iff in Hz. apply in_app_iff. cbn. tauto. }
  assert (Iy : In y (x :: l1 ++ y :: l2)) by (right; exact Hyl).
  replace (length (x :: l1 ++ y :: l2)) with (S (S (length (l1 ++ l2)))) by (cbn [length]; rewrite !app_length; cbn [length]; lia).
  cbn [Nat.even]. apply IH.
  - cbn [length] in L. rewrite app_length in *. cbn [length] in L. lia.
  - apply N'.
  - intros z Hz. destruct (E z (Sub z Hz)) as (w & Hw & Nw & Rzw). exists w. split; [|split; assumption].
    assert (w <> x).
    { intros ->. pose proof (Sy z x (Sub z Hz) (or_introl eq_refl) Rzw) as Rxz. apply (proj2 N'). 
      rewrite (Fu x y z (or_introl eq_refl) Iy (Sub z Hz) Ne (fun F => Nw (eq_sym F)) Rxy Rxz). exact Hz. }
    assert (w <> y).
    { intros ->. pose proof (Sy z y (Sub z Hz) Iy Rzw) as Ryz. pose proof (Sy x y (or_introl eq_refl) Iy Rxy) as Ryx.
      assert (x = z) by (apply (Fu y x z Iy (or_introl eq_refl) (Sub z Hz)); [congruence|congruence|exact Ryx|exact Ryz]).
      subst z. apply Hx. apply in_app_iff. apply in_app_iff in Hz. cbn. tauto. }
    destruct Hw as [F|Hw]; [congruence|]. apply in_app_iff in Hw. apply in_app_iff. destruct Hw as [Hw|[F|Hw]]; [left; exact Hw|congruence|right; exact Hw].
  - intros z w Hz Hw. apply Sy; apply Sub; assumption.
  - intros a b d Ha Hb Hd. apply Fu; apply Sub; assumption.
Qed.

Lemma even_filter : forall A (p : A -> bool) l, Nat.even (length l) = true -> Nat.even (length (filter p l)) = true -> Nat.even (length (filter (fun x => negb (p x)) l)) = true.
Proof.
  intros A p l H J. assert (E : length l = length (filter p l) + length (filter (fun x => negb (p x)) l)).
  { clear. induction l as [|a l IH]; [reflexivity|]. cbn [filter length]. destruct (p a); cbn [negb length]; lia. }
  rewrite E, Nat.even_add, J in H. destruct (Nat.even (length (filter (fun x => negb (p x)) l))); [reflexivity|discriminate].
Qed.

(** * The sides of the free faces of a volume *)
Definition places (m : mesh) : list (nat * nat) := flat_map (fun e => map (pair (fst e)) (seq 0 (length (snd e)))) m.
Lemma places_in : forall m c i, In (c, i) (places m) <-> exists f, face_at m c i f.
Proof.
  intros m c i. unfold places. rewrite in_flat_map. split.
  - intros ((d, fs) & H & P). cbn [fst snd] in P. apply in_map_iff in P. destruct P as (j & E & P). injection E as E1 E2. subst d j. apply in_seq in P.
    destruct (nth_error fs i) as [f|] eqn:F; [|apply nth_error_None in F; lia]. exists f, fs. split; assumption.
  - intros (f & fs & H & F). exists (c, fs). split; [exact H|]. cbn [fst snd]. apply in_map_iff. exists i. split; [reflexivity|]. apply in_seq.
    assert (i < length fs) by (apply nth_error_Some; congruence). lia.
Qed.
Lemma places_nodup : forall m, NoDup (map fst m) -> NoDup (places m).
Proof.
  unfold places. induction m as [|(c, fs) m IH]; intros N; cbn [flat_map fst snd]; [constructor|]. inversion N as [|x y Hx Hy Q]. apply nodup_app.
  - apply FinFun.Injective_map_NoDup; [intros i j E; congruence|apply seq_NoDup].
  - apply IH, Hy.
  - intros (d, i) H9 J. apply in_map_iff in H9. destruct H9 as (j & E & _). injection E as E _. subst d. apply (proj1 (places_in m c i)) in J.
    destruct J as (f & ls & J & _). apply Hx. apply (in_map fst) in J. exact J.
Qed.
Definition get_face (m : mesh) (x : nat * nat) : list nat := match find (fst x) m with Some fs => nth (snd x) fs [] | None => [] end.
Lemma get_face_at : forall m c i f, NoDup (map fst m) -> face_at m c i f -> get_face m (c, i) = f.
Proof.
  intros m c i f N (fs & H & E). unfold get_face. cbn [fst snd]. rewrite (in_find _ c m fs N H). apply nth_error_nth, E.
Qed.
Definition pair_dec : forall x y : nat * nat, {x = y} + {x <> y}.
Proof. decide equality; apply Nat.eq_dec. Defined.
Definition sideb (f : list nat) (a b : nat) : bool :=
  if in_dec pair_dec (a, b) (ring_sides f) then true else if in_dec pair_dec (b, a) (ring_sides f) then true else false.
Lemma sideb_iff : forall f a b, sideb f a b = true <-> side f a b.
Proof.
  intros f a b. unfold sideb, side. destruct (in_dec pair_dec (a, b) (ring_sides f)) as [H|H]; [tauto|].
  destruct (in_dec pair_dec (b, a) (ring_sides f)) as [J|J]; [tauto|]. split; [discriminate|tauto].
Qed.
Definition sameb (f h : list nat) : bool := forallb (fun v => nin v h) f && forallb (fun v => nin v f) h.
Lemma sameb_iff : forall f h, sameb f h = true <-> same f h.
Proof.
  intros f h. unfold sameb, same. rewrite andb_true_iff, !forallb_forall. split.
  - intros (A & B) v. split; intros H; apply nin_iff; [apply A|apply B]; exact H.
  - intros H. split; intros v Hv; apply nin_iff, H, Hv.
Qed.
(** some other cell has the face *)
Definition sharedb (m : mesh) (x : nat * nat) : bool :=
  existsb (fun y => negb (Nat.eqb (fst y) (fst x)) && sameb (get_face m x) (get_face m y)) (places m).
Lemma sharedb_iff : forall m c i f, NoDup (map fst m) -> face_at m c i f -> (sharedb m (c, i) = true <-> exists n, across m c f n).
Proof.
  intros m c i f N F. unfold sharedb. rewrite existsb_exists, (get_face_at m c i f N F). cbn [fst]. split.
  - intros ((d, j) & H & E). cbn [fst] in E. apply andb_true_iff in E. destruct E as (E1 & E2). apply negb_true_iff, Nat.eqb_neq in E1.
    apply (proj1 (places_in m d j)) in H. destruct H as (h & H). rewrite (get_face_at m d j h N H) in E2. apply sameb_iff in E2.
    exists d. split; [exact E1|]. exists h. split; [|exact E2]. destruct H as (fs & A & B). exists fs. split; [exact A|]. apply (nth_error_In _ _ B).
  - intros (n & Ne & h & (fs & A & B) & S0). apply In_nth_error in B. destruct B as (j & B). exists (n, j).
    assert (H : face_at m n j h) by (exists fs; split; assumption). split; [apply places_in; exists h; exact H|].
    apply andb_true_iff. split; [apply negb_true_iff, Nat.eqb_neq, Ne|]. rewrite (get_face_at m n j h N H). apply sameb_iff, S0.
Qed.

Lemma border_sides : forall m, NoDup (map fst m) -> solid_cells m -> conforming m ->
  forall c i f a b, free_at m c i f -> side f a b -> exists d j h, free_at m d j h /\ side h a b /\ (d, j) <> (c, i).
Proof.
  intros m N So (Co1 & Co2 & Co3) c i f a b (Fa & Fr) Si.
  set (l := filter (fun x => sideb (get_face m x) a b) (places m)).
  assert (InL : forall d j, In (d, j) l <-> exists h, face_at m d j h /\ side h a b).
  { intros d j. unfold l. rewrite filter_In, places_in. split.
    - intros ((h & H) & B). rewrite (get_face_at m d j h N H) in B. exists h. split; [exact H|apply sideb_iff, B].
    - intros (h & H & B). split; [exists h; exact H|]. rewrite (get_face_at m d j h N H). apply sideb_iff, B. }
  assert (NL : NoDup l) by (apply NoDup_filter, places_nodup, N).
  assert (FU : forall d j h h', face_at m d j h -> face_at m d j h' -> h = h').
  { intros d j h h' (fs & A & B) (fs' & A' & B'). rewrite (faces_unique m N d fs fs' A A') in B. congruence. }
  (* in each cell the faces with the side go in pairs *)
  assert (E1 : Nat.even (length l) = true).
  { apply (paired _ pair_dec (fun x y => fst x = fst y) (length l)); [lia|exact NL| | |].
    - intros (d, j) H. apply InL in H. destruct H as (h & H & B). destruct (So d j h a b H B) as (k & g & Nk & G & Sg & _).
      exists (d, k). split; [apply InL; exists g; split; assumption|]. split; [congruence|reflexivity].
    - intros x y _ _ E. symmetry. exact E.
    - intros (d, j) (d1, j1) (d2, j2) H H1 H2 N1 N2 Q1 Q2. cbn [fst] in Q1, Q2. subst d1 d2.
      apply InL in H, H1, H2. destruct H as (h & H & B). destruct H1 as (h1 & H1 & B1). destruct H2 as (h2 & H2 & B2).
      destruct (So d j h a b H B) as (k & g & Nk & G & Sg & U). destruct (U j1 h1 H1 B1) as [-> | ->]; [congruence|].
      destruct (U j2 h2 H2 B2) as [-> | ->]; [congruence|reflexivity]. }
  (* the shared faces with the side go in pairs *)
  assert (InS : forall d j, In (d, j) (filter (sharedb m) l) <-> exists h, face_at m d j h /\ side h a b /\ exists n, across m d h n).
  { intros d j. rewrite filter_In, InL. split.
    - intros ((h & H & B) & E). exists h. split; [exact H|]. split; [exact B|]. apply (sharedb_iff m d j h N H), E.
    - intros (h & H & B & E). split; [exists h; split; assumption|]. apply (sharedb_iff m d j h N H), E. }
  assert (E2 : Nat.even (length (filter (sharedb m) l)) = true).
  { apply (paired _ pair_dec (fun x y => fst x <> fst y /\ same (get_face m x) (get_face m y)) (length (filter (sharedb m) l))); [lia|apply NoDup_filter, NL| | |].
    - intros (d, j) H. apply InS in H. destruct H as (h & H & B & n & Nn & g & (fs & G1 & G2) & Sg). apply In_nth_error in G2. destruct G2 as (k & G2).
      assert (G : face_at m n k g) by (exists fs; split; assumption). exists (n, k). split.
      + apply InS. exists g. split; [exact G|]. split; [apply (Co1 d j h n k g H G Sg a b B)|]. exists d. split; [congruence|]. exists h. split.
        * destruct H as (hs & A1 & A2). exists hs. split; [exact A1|apply (nth_error_In _ _ A2)].
        * apply same_sym, Sg.
      + split; [congruence|]. cbn [fst]. split; [congruence|]. rewrite (get_face_at m d j h N H), (get_face_at m n k g N G). exact Sg.
    - intros x y _ _ (A & B). split; [congruence|apply same_sym, B].
    - intros (d, j) (d1, j1) (d2, j2) H H1 H2 N1 N2 (Q1 & S1) (Q2 & S2). cbn [fst] in Q1, Q2.
      apply InS in H, H1, H2. destruct H as (h & H & _). destruct H1 as (h1 & H1 & _). destruct H2 as (h2 & H2 & _).
      rewrite (get_face_at m d j h N H), (get_face_at m d1 j1 h1 N H1) in S1. rewrite (get_face_at m d j h N H), (get_face_at m d2 j2 h2 N H2) in S2.
      assert (Ac : forall n k g, face_at m n k g -> d <> n -> same h g -> across m d h n).
      { intros n k g (fs & G1 & G2) Ne Sg. split; [congruence|]. exists g. split; [|exact Sg]. exists fs. split; [exact G1|apply (nth_error_In _ _ G2)]. }
      assert (d1 = d2) by (apply (Co3 d j h d1 d2 H); [apply (Ac d1 j1 h1 H1 Q1 S1)|apply (Ac d2 j2 h2 H2 Q2 S2)]). subst d2.
      rewrite (Co2 d1 j1 h1 j2 h2 H1 H2); [reflexivity|]. apply (same_trans h1 h h2); [apply same_sym, S1|exact S2]. }
  pose proof (even_filter _ (sharedb m) l E1 E2) as E3.
  set (u := filter (fun x => negb (sharedb m x)) l) in *.
  assert (InU : forall d j, In (d, j) u <-> exists h, free_at m d j h /\ side h a b).
  { intros d j. unfold u. rewrite filter_In, InL, negb_true_iff. split.
    - intros ((h & H & B) & E). exists h. split; [|exact B]. split; [exact H|]. intros n Hn.
      pose proof (proj2 (sharedb_iff m d j h N H) (ex_intro _ n Hn)). congruence.
    - intros (h & (H & Q) & B). split; [exists h; split; assumption|]. destruct (sharedb m (d, j)) eqn:E; [|reflexivity]. exfalso.
      apply (sharedb_iff m d j h N H) in E. destruct E as (n & E). apply (Q n E). }
  assert (Iu : In (c, i) u) by (apply InU; exists f; split; [split; assumption|exact Si]).
  assert (NU : NoDup u) by apply NoDup_filter, NL.
  destruct u as [|x [|y u']]; [destruct Iu|discriminate E3|].
  assert (D : exists z, In z (x :: y :: u') /\ z <> (c, i)).
  { destruct (pair_dec x (c, i)) as [E|E]; [|exists x; split; [left; reflexivity|exact E]]. exists y. split; [right; left; reflexivity|].
    intros F. inversion NU as [|p q Hp Hq Q]. apply Hp. left. congruence. }
  destruct D as ((d, j) & D1 & D2). apply InU in D1. destruct D1 as (h & H & B). exists d, j, h. split; [exact H|]. split; [exact B|exact D2].
Qed.

(** * Every mesh has right adjacencies *)
Definition adj_of (m : mesh) (c : nat) : list (list nat) :=
  match find c m with
  | None => []
  | Some fs => map (fun f => map fst (filter (fun e => negb (Nat.eqb (fst e) c) && existsb (sameb f) (snd e)) m)) fs
  end.
Lemma adj_of_right : forall m, NoDup (map fst m) -> adjacent_right m (adj_of m).
Proof.
  intros m N c fs H. unfold adj_of. rewrite (in_find _ c m fs N H). clear H. induction fs as [|f fs IH]; cbn [map]; constructor; [|exact IH].
  intros n. rewrite in_map_iff. split.
  - intros ((d, hs) & E & F). cbn [fst] in E. subst d. apply filter_In in F. destruct F as (F & E). cbn [fst snd] in E. apply andb_true_iff in E. destruct E as (E1 & E2).
    apply negb_true_iff, Nat.eqb_neq in E1. apply existsb_exists in E2. destruct E2 as (h & Hh & E2). split; [exact E1|]. exists h. split; [exists hs; split; assumption|apply sameb_iff, E2].
  - intros (Ne & h & (hs & A & B) & S0). exists (n, hs). split; [reflexivity|]. apply filter_In. split; [exact A|]. cbn [fst snd]. apply andb_true_iff. split.
    + apply negb_true_iff, Nat.eqb_neq, Ne.
    + apply existsb_exists. exists h. split; [exact B|apply sameb_iff, S0].
Qed.
