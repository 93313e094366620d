(** Properties of the reading and of the writing of Wavefront OBJ files. *)
From Coq Require Import Reals List Arith ZArith Bool Lia Lra Permutation.
From Verif Require Import Vec CurveProofs Wavefront WavefrontSpec WavefrontProofs WavefrontWrite.
Import ListNotations.
Open Scope R_scope.

(** C132: a file of parts laid out as the reader expects gives the vertices, the textures and the normals of all the parts in order, and
    a cell for each facet, in the part it is in, with the vertices it names, the material, the group and the smoothing said last before it
    in the part. *)
Theorem C132_reads : forall ign pre parts, (forall n, ~ In (Lo n) pre) -> Forall laid_out parts ->
  exists st, read_lines ign (pre ++ flat_map text parts) = Some st /\ s_v st = flat_map p_v parts /\ s_t st = map padded (flat_map p_t parts) /\
    s_n st = flat_map p_n parts /\ s_cells st = cells_of ign 0 0 0 0 parts /\
    (s_t st <> [] -> s_n st <> [] -> read ign (pre ++ flat_map text parts) = Some st).
Proof.
  intros ign pre parts P F. destruct (reads_all ign parts 0 blank_state F) as (st & R & V & T & N & C). exists st.
  assert (RL : read_lines ign (pre ++ flat_map text parts) = Some st). { unfold read_lines. rewrite objects_skip; [exact R|]. intros l I. destruct l as [n| | | | | | | | | |]; try reflexivity. destruct (P n I). }
  split; [exact RL|]. split; [exact V|]. split; [exact T|]. split; [exact N|]. split; [exact C|]. intros NT NN. unfold read. rewrite RL. destruct (s_t st); [contradiction|]. destruct (s_n st); [contradiction|]. reflexivity.
Qed.
Print Assumptions C132_reads.
(** C132 refuted: no file without textures, nor without normals, can be read. *)
Theorem C132_no_textures_refuted : forall ign ls, (forall c b, ~ In (Lvt c b) ls) \/ (forall p, ~ In (Lvn p) ls) -> read ign ls = None.
Proof.
  intros ign ls H. unfold read. destruct (read_lines ign ls) as [st|] eqn:E; [|reflexivity]. unfold read_lines in E. destruct H as [H|H].
  - assert (Q : s_t st = s_t blank_state).
    { apply (read_objects_none is_vt s_t ltac:(auto) (or_introl (conj eq_refl eq_refl)) ign (objects ls) 0 blank_state st); [|exact E].
      intros n r I l L. apply (objects_lines _ _ _ I) in L. destruct l; try reflexivity. destruct (H _ _ L). }
    rewrite Q. reflexivity.
  - assert (Q : s_n st = s_n blank_state).
    { apply (read_objects_none is_vn s_n ltac:(auto) (or_intror (conj eq_refl eq_refl)) ign (objects ls) 0 blank_state st); [|exact E].
      intros n r I l L. apply (objects_lines _ _ _ I) in L. destruct l; try reflexivity. destruct (H _ L). }
    rewrite Q. destruct (s_t st); reflexivity.
Qed.
Print Assumptions C132_no_textures_refuted.
(** C132 refuted: a facet of vertices only, without a blank at the end of its line, loses the last of them; a triangle is lost. *)
Lemma plain_last : forall l, plain false l = removelast l.
Proof. induction l as [|x [|y l] IH]; [reflexivity..|]. cbn [plain removelast] in *. rewrite IH. reflexivity. Qed.
Theorem C132_last_vertex_refuted : forall ign n v ks, v <> [] -> ks <> [] ->
  exists st, read_lines ign (Lo n :: map Lv v ++ [Lf (map (fun k => (k, None, None)) ks) false]) = Some st /\ s_v st = v /\
    s_cells st = if le_dec (length ks) 3 then [] else [RCell 0 (map (counted (length v)) (removelast ks)) [] [] [] [] 0%Z].
Proof.
  intros ign n v ks NV NK. unfold read_lines. cbn [objects]. set (l := Lf _ false).
  assert (S0 : forall x, In x (map Lv v ++ [l]) -> is_o x = false) by (intros x I; apply in_app_iff in I; destruct I as [I|[<- |[]]]; [apply in_map_iff in I; destruct I as (y & <- & _)|]; reflexivity).
  assert (OB : objects (map Lv v ++ [l]) = []) by (rewrite <- (app_nil_r (map Lv v ++ [l])), objects_skip by exact S0; reflexivity). rewrite OB. cbn [read_objects].
  set (p := Part n v [] [] [l]). assert (ST : forall x, In x (p_body p) -> statement x) by (intros x [<- |[]]; exact I).
  assert (IN : map Lv v ++ [l] = inner p ++ []) by (unfold inner; rewrite app_nil_r; reflexivity). rewrite IN.
  destruct (many_inner p [] ST (or_introl eq_refl)) as (-> & -> & ->). change n with (p_name p).
  rewrite read_part; [|intros c []|exact ST|right; exists l, []; split; [reflexivity|discriminate]|left; reflexivity].
  cbn [p_name p_v p_t p_n p_body p map run]. unfold l. cbn [switch]. destruct ks as [|k ks]; [contradiction|]. cbn [map add_facet].
  assert (TK : flat_map tokens ((k, None, None) :: map (fun x : Z => (x, None, None)) ks) = k :: ks) by (cbn; f_equal; clear; induction ks as [|x ks IH]; [reflexivity|]; cbn; f_equal; exact IH).
  rewrite TK. cbn [s_fd add_vertices definition facet]. rewrite plain_last. set (cs := removelast (k :: ks)). cbn [s_v s_t s_n s_cells s_mat s_grp s_smooth app map blank_state].
  assert (LC : length cs = length ks). { pose proof (app_removelast_last 0%Z (l := k :: ks) ltac:(discriminate)) as A. apply (f_equal (@length Z)) in A. rewrite app_length in A. cbn [length] in A. fold cs in A. lia. }
  unfold supported. rewrite map_length, LC. eexists. split; [reflexivity|]. split; [reflexivity|]. cbn [s_cells].
  change (length (k :: ks)) with (S (length ks)). destruct (Nat.leb_spec 3 (length ks)), (le_dec (S (length ks)) 3); try lia; [|reflexivity]. cbn [add_vertices s_v s_mat s_grp s_smooth app]. rewrite (map_ext _ _ (resolve_counted (length v))). reflexivity.
Qed.
Print Assumptions C132_last_vertex_refuted.
(** C132 refuted: of a file that names no part, nothing is read. *)
Theorem C132_no_part_refuted : forall ign ls, (forall n, ~ In (Lo n) ls) -> exists st, read_lines ign ls = Some st /\ s_v st = [] /\ s_t st = [] /\ s_n st = [] /\ s_cells st = [].
Proof.
  intros ign ls H. exists blank_state. split; [|auto]. unfold read_lines. rewrite <- (app_nil_r ls), objects_skip; [reflexivity|]. intros l I. destruct l as [n| | | | | | | | | |]; try reflexivity. destruct (H n I).
Qed.
Print Assumptions C132_no_part_refuted.
(** C132 refuted: an empty line after the vertices of the first part, or the end of the file, is an exception. *)
Lemma block_fails : forall parse ps tail, (tail = [] \/ exists r, tail = Lempty :: r) -> forall cur rest, ps <> [] -> cur :: rest = map Lv ps ++ tail -> block parse (length ps) cur rest = None.
Proof.
  intros parse ps tail T. induction ps as [|p ps IH]; intros cur rest N E; [contradiction|]. cbn in E. injection E as -> ->. cbn [length block]. destruct (parse (Lv p)); [|reflexivity].
  destruct ps as [|q ps]; [cbn; destruct T as [-> |(r & ->)]; reflexivity|]. cbn [map app]. rewrite (IH (Lv q) (map Lv ps ++ tail)); [reflexivity|discriminate|reflexivity].
Qed.
Theorem C132_empty_line_refuted : forall ign pre n v rest, (forall m, ~ In (Lo m) pre) -> v <> [] -> (forall p, ~ In (Lv p) rest) -> (rest = [] \/ exists r, rest = Lempty :: r) ->
  read_lines ign (pre ++ Lo n :: map Lv v ++ rest) = None.
Proof.
  intros ign pre n v rest P NV NR T. unfold read_lines. rewrite objects_skip by (intros l I; destruct l as [m| | | | | | | | | |]; try reflexivity; destruct (P m I)). cbn [objects read_objects].
  assert (M : many is_v (map Lv v ++ rest) = length v).
  { unfold many. assert (TN : to_next (map Lv v ++ rest) = map Lv v ++ to_next rest) by (clear; induction v as [|p v IH]; [reflexivity|]; cbn; f_equal; exact IH). rewrite TN, filter_app.
    rewrite filter_all by (intros x I; apply in_map_iff in I; destruct I as (y & <- & _); reflexivity). rewrite filter_none, app_nil_r, map_length; [reflexivity|].
    intros x I. assert (In x rest). { clear - I. induction rest as [|y rest IH]; [destruct I|]. destruct y; cbn in I; try (destruct I as [<- |I]; [left; reflexivity|right; exact (IH I)]). destruct I. }
    destruct x; try reflexivity. destruct (NR _ H). }
  rewrite M. destruct v as [|p v]; [contradiction|]. cbn [map app read_object]. unfold blocks. cbn [is_v]. rewrite (block_fails parse3 (p :: v) rest T (Lv p) (map Lv v ++ rest)); [reflexivity|discriminate|reflexivity].
Qed.
Print Assumptions C132_empty_line_refuted.
(** C132 refuted: a normal between the vertices is taken for a vertex, and the last vertex is lost. *)
Theorem C132_order_refuted : forall ign n a b c, exists st, read_lines ign [Lo n; Lv a; Lvn b; Lv c; Lother] = Some st /\ s_v st = [a; b] /\ s_n st = [].
Proof. intros ign n a b c. eexists. split; [reflexivity|]. split; reflexivity. Qed.
Print Assumptions C132_order_refuted.
(** a file of two parts, with textures and normals, that meets the hypotheses *)
Definition tri (a b c : Z) : line := Lf [(a, Some a, Some a); (b, Some b, Some b); (c, Some c, Some c)] false.
Definition some_parts : list part :=
  [Part [1%nat] [V3 0 0 0; V3 1 0 0; V3 0 1 0] [[0]; [1; 0]; [0; 1; 0]] [V3 0 0 1; V3 0 0 1; V3 0 0 1] [Lg [1%nat]; Lu [7%nat]; Ls (Some 3%Z); tri 1 2 3; Lempty; Lg [5%nat; 6%nat]; tri (-3) (-2) (-1)];
   Part [2%nat] [V3 0 0 1] [[0; 0]] [V3 0 0 1] [Lother; tri 1 2 (-1)]].
Example C132_nonvacuous : Forall laid_out some_parts /\
  cells_of false 0 0 0 0 some_parts =
    [RCell 0 [1; 2; 3]%Z [1; 2; 3]%Z [1; 2; 3]%Z [7%nat] [] 3; RCell 0 [1; 2; 3]%Z [1; 2; 3]%Z [1; 2; 3]%Z [7%nat] [5%nat] 3; RCell 1 [1; 2; 4]%Z [1; 2; 4]%Z [1; 2; 4]%Z [] [] 0].
Proof.
  split; [|reflexivity]. unfold some_parts. apply Forall_cons; [|apply Forall_cons; [|constructor]]; unfold laid_out; cbn [p_name p_v p_t p_n p_body].
  all: split; [intros c I; repeat destruct I as [<- |I]; try (cbn; lia); destruct I|]. all: split; [intros l I; repeat destruct I as [<- |I]; try exact Logic.I; destruct I|].
  all: split; [right; eexists _, _; split; [reflexivity|discriminate]|].
  all: exists (true, true); intros es b I; unfold tri in I; cbn in I; repeat (match type of I with _ \/ _ => destruct I as [I|I] end); try discriminate I; try contradiction; injection I as <- <-.
  all: split; [discriminate|split; [|discriminate]]; intros e E; repeat destruct E as [<- |E]; try reflexivity; destruct E.
Qed.

(** C133: a mesh with textures and normals, written and read: for each part the cells of the part, in some order, with the points, the
    textures and the normals of their corners as printed, and with vertices in common when they had them; the groups, if their names and
    that of the part are of a word; in the first part, the smoothing, and the materials if their names are of a word and all the
    cells or none have one.
    Missing: the materials and the smoothing in the other parts, names of more words, cells with and without material. *)
Theorem C133_written_partial : forall pos tex nrm shown order_v order_t order_n mats grps parts,
  set_order order_v -> set_order order_t -> set_order order_n ->
  (forall n cells c, In (n, cells) parts -> In c cells -> sound c /\ In (w_mat c) mats /\ In (w_grp c) grps) ->
  (exists n c r, In (n, c :: r) parts) ->
  exists st num, read false (write pos tex nrm true true false shown order_v order_t order_n mats grps parts) = Some st /\
    (forall n cells c n' cells' c' x y, In (n, cells) parts -> In c cells -> In x (w_conn c) -> In (n', cells') parts -> In c' cells' -> In y (w_conn c') -> (num x = num y <-> x = y)) /\
    (forall r, In r (s_cells st) -> (r_pid r < length parts)%nat) /\
    forall k n cells, nth_error parts k = Some (n, cells) -> exists l, Permutation cells l /\
      Forall2 (fun c r =>
        r_conn r = map num (w_conn c) /\
        corners_read st r = corners_of (map (fun i => printed shown (pos i)) (w_conn c)) (map (fun i => printed shown (tex i)) (w_txt c)) (map (fun i => printed shown (nrm i)) (w_nrm c)) /\
        (one_word n -> (forall d, In d cells -> one_word (w_grp d) /\ (w_grp d = n -> n = [])) -> r_grp r = w_grp c) /\
        (k = 0%nat -> (forall d, In d cells -> one_word (w_mat d)) -> (forall d, In d cells -> w_mat d <> []) \/ (forall d, In d cells -> w_mat d = []) -> r_mat r = w_mat c) /\
        (k = 0%nat -> r_smooth r = w_smooth c)) l (cells_read st k).
Proof.
  intros pos tex nrm shown order_v order_t order_n mats grps parts OV OT ON HP (n0 & c0 & r0 & H0).
  destruct (parts_sim pos tex nrm shown order_v order_t order_n mats grps OV OT ON false parts 0 [] [] [] 0 0%Z blank_state HP eq_refl eq_refl eq_refl ltac:(intros r []) (NoDup_nil _) (NoDup_nil _) (NoDup_nil _))
    as (st & iv & it & im & R & V & T & N & DV & DT & DN & _ & LT & MEM & FA). cbn [app] in *. exists st, (index iv).
  assert (NE : s_t st <> [] /\ s_n st <> []).
  { destruct (In_nth_error _ _ H0) as (k & K). destruct (FA k n0 _ K) as (l & PL & FL). assert (IC : In c0 l) by (apply (Permutation_in _ PL); left; reflexivity).
    assert (W : exists r, whole iv it im c0 r). { clear - FL IC. revert IC FL. generalize (cells_read st k) as rs. intros rs IC FL. induction FL as [|c r l' rs' (H & _) FL IH]; [destruct IC|]. destruct IC as [-> |IC]; [exists r; exact H|exact (IH IC)]. }
    destruct W as (r & W1 & W2 & W3 & _). destruct (HP n0 (c0 :: r0) c0 H0 (or_introl eq_refl)) as ((S1 & S2 & S3) & _).
    assert (Q : forall (l m : list nat) (f : nat -> vec), incl l m -> (3 <= length l)%nat -> map f m <> []) by (intros [|x l0] m f I L E; [cbn in L; lia|]; destruct m; [exact (I x (or_introl eq_refl))|discriminate]).
    rewrite T, N. split; [apply (Q (w_txt c0)); [exact W2|lia]|apply (Q (w_nrm c0)); [exact W3|lia]]. }
  split.
  { unfold read, read_lines, write. cbn [objects]. rewrite R. destruct NE as (NT & NN). destruct (s_t st); [contradiction|]. destruct (s_n st); [contradiction|]. reflexivity. }
  split.
  { intros n cells c n' cells' c' x y P1 P2 P3 Q1 Q2 Q3. split; [|intros ->; reflexivity]. intro E. unfold index in E. apply Nat2Z.inj in E.
    assert (IX : In x iv) by (apply MEM; right; exists n, cells, c; auto). assert (IY : In y iv) by (apply MEM; right; exists n', cells', c'; auto).
    pose proof (place_nth nat (fun i => i) 0%nat x iv IX) as (_ & EX). pose proof (place_nth nat (fun i => i) 0%nat y iv IY) as (_ & EY). rewrite E in EX. congruence. }
  split; [exact LT|]. intros k n cells K. destruct (FA k n cells K) as (l & PL & FL). exists l. split; [exact PL|]. refine (forall2_impl _ _ _ _ _ FL). cbn [Nat.add]. intros c r ((I1 & I2 & I3 & E1 & E2 & E3) & G & M & S0).
  split; [exact E1|]. split.
  { unfold corners_read. rewrite E1, E2, E3, !map_map, V, T, N.
    assert (Q : forall (f : nat -> vec) l m, incl l m -> map (fun i => vertex (map f m) (index m i)) l = map f l) by (intros f l0 m I; apply map_ext_in; intros i J; apply vertex_index, I, J).
    rewrite !Q by assumption. reflexivity. }
  split; [intros O D; apply G; [reflexivity|]; split; [exact O|]; intros d ID; destruct (D d ID) as (A & B); split; [exact A|]; intro E; rewrite E; exact (B E)|].
  split; [intros K0 O D; apply M; [exact K0|reflexivity|split; assumption]|]. intro K0. apply S0; [exact K0|reflexivity].
Qed.
Print Assumptions C133_written_partial.

(** a triangle with something given with it *)
Definition triangle (m g : name) (s : Z) : wcell := WCell [1; 2; 3]%nat [1; 2; 3]%nat [1; 2; 3]%nat m g s.
Definition once (l : list nat) : list nat := nodup Nat.eq_dec l.
Lemma once_set : set_order once.
Proof. intro l. split; [apply NoDup_nodup|]. intro x. apply nodup_In. Qed.
(** the file of some parts read *)
Definition back (uv : bool) (mats grps : list name) (parts : list (name * list wcell)) : option state :=
  read false (write (fun i => V3 (INR i) 0 0) (fun i => V3 0 1 2) (fun _ => V3 0 0 1) true true uv (fun x => x) once once once mats grps parts).
(** C133 refuted: without normals, or without textures, what is written cannot be read. *)
Lemma written_kinds : forall pos tex nrm ht hn uv shown ov ot on mats grps parts iv it im mat ws, (forall n cells c, In (n, cells) parts -> In c cells -> sound c) ->
  let f := write_parts pos tex nrm ht hn uv shown ov ot on mats grps parts iv it im mat ws in (ht = false -> forall c b, ~ In (Lvt c b) f) /\ (hn = false -> forall p, ~ In (Lvn p) f).
Proof.
  intros pos tex nrm ht hn uv shown ov ot on mats grps. induction parts as [|[n cells] parts IH]; intros iv it im mat ws HS; [cbn; auto|]. cbn [write_parts].
  set (fv := fresh iv _). set (ft := if ht then _ else _). set (fn := if hn then _ else _).
  pose proof (body_statement ht hn mats grps n (iv ++ fv) (it ++ ft) (im ++ fn) cells (keys grps) mat ws (fun c I => HS n cells c (or_introl eq_refl) I)) as BS.
  destruct (write_groups ht hn mats grps n (iv ++ fv) (it ++ ft) (im ++ fn) cells (keys grps) mat ws) as [[body m1] s1]. cbn [fst] in BS.
  destruct (IH (iv ++ fv) (it ++ ft) (im ++ fn) m1 s1 (fun n' cs c I J => HS n' cs c (or_intror I) J)) as (IT & IN). split.
  - intros H c b I. cbn [In] in I. rewrite !in_app_iff, !in_map_iff in I. destruct I as [I|[(x & I & _)|[(x & _ & I)|[(x & I & _)|[I|I]]]]]; try discriminate I; [unfold ft in I; rewrite H in I; destruct I|exact (BS _ I)|exact (IT H c b I)].
  - intros H p I. cbn [In] in I. rewrite !in_app_iff, !in_map_iff in I. destruct I as [I|[(x & I & _)|[(x & I & _)|[(x & _ & I)|[I|I]]]]]; try discriminate I; [unfold line_t in I; destruct uv; discriminate I|unfold fn in I; rewrite H in I; destruct I|exact (BS _ I)|exact (IN H p I)].
Qed.
Theorem C133_no_normals_refuted : forall pos tex nrm ht hn uv shown ov ot on mats grps parts, ht = false \/ hn = false -> (forall n cells c, In (n, cells) parts -> In c cells -> sound c) ->
  read false (write pos tex nrm ht hn uv shown ov ot on mats grps parts) = None.
Proof.
  intros pos tex nrm ht hn uv shown ov ot on mats grps parts H HS. destruct (written_kinds pos tex nrm ht hn uv shown ov ot on mats grps parts [] [] [] 0 0%Z HS) as (A & B).
  apply C132_no_textures_refuted. destruct H as [H|H]; [left; intros c b I|right; intros p I]; unfold write in I; do 3 (destruct I as [I|I]; [discriminate|]); [exact (A H c b I)|exact (B H p I)].
Qed.
Print Assumptions C133_no_normals_refuted.
(** C133 refuted: the third coordinate of the textures, in a file that has two of them, is the second. *)
Theorem C133_textures_refuted : exists st, back true [[]] [[]] [([9%nat], [triangle [] [] 0])] = Some st /\ s_t st = [V3 0 1 1; V3 0 1 1; V3 0 1 1].
Proof. eexists. split; reflexivity. Qed.
Print Assumptions C133_textures_refuted.
(** C133 refuted: a second part of the smoothing and of the material of the first loses them. *)
Theorem C133_second_part_refuted : exists st, back false [[7%nat]] [[]] [([8%nat], [triangle [7%nat] [] 3]); ([9%nat], [triangle [7%nat] [] 3])] = Some st /\
  map r_smooth (cells_read st 0) = [3%Z] /\ map r_smooth (cells_read st 1) = [0%Z] /\ map r_mat (cells_read st 0) = [[7%nat]] /\ map r_mat (cells_read st 1) = [[]].
Proof. eexists. split; [vm_compute; reflexivity|]. repeat split. Qed.
Print Assumptions C133_second_part_refuted.
(** C133 refuted: a cell without material after one with a material, in another group, takes its material. *)
Theorem C133_no_material_refuted : exists st, back false [[7%nat]; []] [[]; [5%nat]] [([9%nat], [triangle [7%nat] [] 0; triangle [] [5%nat] 0])] = Some st /\
  map r_mat (cells_read st 0) = [[7%nat]; [7%nat]].
Proof. eexists. split; [vm_compute; reflexivity|]. reflexivity. Qed.
Print Assumptions C133_no_material_refuted.
(** C133 refuted: of names of more words the first is read; in a part with such a name, the cells without group are given one. *)
Theorem C133_words_refuted : (exists st, back false [[7; 8]%nat] [[5; 6]%nat] [([9%nat], [triangle [7; 8]%nat [5; 6]%nat 0])] = Some st /\
  map r_mat (cells_read st 0) = [[7%nat]] /\ map r_grp (cells_read st 0) = [[5%nat]]) /\
  exists st, back false [[]] [[]] [([8; 9]%nat, [triangle [] [] 0])] = Some st /\ map r_grp (cells_read st 0) = [[8%nat]].
Proof. split; eexists; (split; [vm_compute; reflexivity|]); repeat split. Qed.
Print Assumptions C133_words_refuted.
(** a mesh of two parts that meets the hypotheses, with cells that change place *)
Example C133_nonvacuous : let parts := [([8%nat], [triangle [7%nat] [5%nat] 3; triangle [6%nat] [] 0]); ([9%nat], [triangle [7%nat] [] 1])] in let mats := [[7%nat]; [6%nat]] in let grps := [[5%nat]; []] in
  (forall n cells c, In (n, cells) parts -> In c cells -> sound c /\ In (w_mat c) mats /\ In (w_grp c) grps) /\
  exists st, back false mats grps parts = Some st /\ map r_grp (cells_read st 0) = [[]; [5%nat]] /\ map r_mat (cells_read st 0) = [[6%nat]; [7%nat]] /\ map r_smooth (cells_read st 0) = [0; 3]%Z.
Proof.
  cbn zeta. split.
  - intros n cells c I J. assert (Q : In c [triangle [7%nat] [5%nat] 3; triangle [6%nat] [] 0; triangle [7%nat] [] 1]) by (destruct I as [I|[I|[]]]; injection I as <- <-; cbn in *; tauto).
    repeat destruct Q as [<- |Q]; try destruct Q; unfold sound; cbn; repeat split; auto; lia.
  - eexists. split; [vm_compute; reflexivity|]. repeat split.
Qed.
