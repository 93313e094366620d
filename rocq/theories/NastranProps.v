(** Surfaces in Nastran files. *)
From Coq Require Import String Ascii List Arith NArith ZArith Bool Lia Reals Lra.
From Verif Require Import Text TextSpec TextProofs Nastran NastranSpec NastranProofs.
Import ListNotations.
Open Scope list_scope.

(** ** Written and read back *)
Theorem C144_short_partial : forall name points labels faces pids,
  (forall p, In p points -> label (fst p) /\ small_point (snd p)) -> length labels = length faces ->
  (forall f, In f faces -> (length f = 3 \/ length f = 4)%nat /\ forall v, In v f -> label v) -> (forall l, In l labels -> label (fst l) /\ label (snd l)) ->
  exists qs, read (write Short name points labels faces pids) = Some (Data (combine (map fst points) qs) (combine labels faces)) /\ Forall2 near (map snd points) qs.
Proof.
  intros name points labels faces pids HP L HF HL. destruct (run_points points (Data [] []) HP) as (qs & R & F & PL). destruct (run_faces faces labels (Data (combine (map fst points) qs) []) L HF HL) as (RF & PF).
  exists qs. split; [|exact F]. unfold write. rewrite (app_assoc (flat_map _ points)). rewrite read_lines by (intros l I; apply in_app_iff in I; destruct I as [I|I]; [apply PL, I|apply PF, I]).
  rewrite run_app, R. cbn [bind d_points d_faces app] in *. exact RF.
Qed.
Print Assumptions C144_short_partial.

Theorem C144_large_refuted : forall name id x y z pids, label id -> small y -> small z -> (100000000 <= coordinate 8 x)%R ->
  exists dx dy dz, read (write Short name [(id, (x, y, z))] [] [] pids) = Some (Data [(id, (dx, dy, dz))] []) /\ (real dx < 100000000)%R.
Proof.
  intros name id x y z pids L SY SZ B. destruct (coord_read y SY) as (dy & EY & _). destruct (coord_read z SZ) as (dz & EZ & _).
  assert (X : exists dx, field x = Some dx /\ (real dx < 100000000)%R).
  { destruct x as [neg n]. unfold coordinate in B. cbn [fst snd] in B. assert (E : powerRZ 10 (- (8)) = (/ 100000000)%R) by (change (/ (10 ^ 8) = / 100000000)%R; f_equal; cbn [pow]; lra). rewrite E in B.
    assert (NN : (0 <= IZR (Z.of_N n))%R) by (apply IZR_le; lia). destruct neg; [exfalso; lra|]. assert (G : (10000000000000000 <= IZR (Z.of_N n))%R) by lra. apply le_IZR in G. assert (NB : (10000000000000000 <= n)%N) by lia.
    unfold field, show_fixed. cbn [fst snd app]. change (10 ^ N.of_nat 8)%N with 100000000%N. set (q := (n / 100000000)%N). assert (QB : (100000000 <= q)%N) by (apply N.div_le_lower_bound; lia).
    assert (LD : (9 <= length (show_nat q))%nat) by (apply (show_N_long _ q 8%nat); [lia|exact QB]). set (D := firstn 8 (show_nat q)).
    assert (DD : all_digits D) by (intros c I; apply (show_nat_digits q); rewrite <- (firstn_skipn 8 (show_nat q)); apply in_app_iff; left; exact I). assert (L8 : length D = 8%nat) by (unfold D; rewrite firstn_length; lia).
    assert (V : value Short (show_nat q ++ c_dot :: fixed_digits 8 (n mod 100000000)) = D).
    { unfold value, pad_left. cbn [width]. rewrite firstn_app. replace (8 - length (show_nat q))%nat with 0%nat by lia. rewrite firstn_O, app_nil_r. fold D. rewrite L8. reflexivity. }
    rewrite V, digits_trim, digits_convert, stod_digits by (try exact DD; intro E1; rewrite E1 in L8; discriminate). eexists. split; [reflexivity|]. unfold real. cbn [fst snd powerRZ]. rewrite Rmult_1_r. destruct (value_bound D DD) as (_ & U). rewrite L8 in U. apply IZR_lt. exact U. }
  destruct X as (dx & EX & RX). exists dx, dy, dz. split; [|exact RX]. destruct (process_fields id x y z dx dy dz (Data [] []) L EX EY EZ) as (l & W & C & P).
  unfold write. cbn [flat_map fst snd write_faces]. rewrite W. cbn [app]. change (read ([chars "TITLE=mimmo " ++ name ++ chars " mesh"; chars "$"; chars "BEGIN BULK"] ++ [l] ++ footer Short pids ++ [chars "ENDDATA"; []]) = Some (Data [(id, (dx, dy, dz))] [])).
  rewrite read_lines by (intros l0 [<- |[]]; left; rewrite C; reflexivity). cbn [run]. rewrite P. reflexivity.
Qed.
Print Assumptions C144_large_refuted.

Lemma long_line : forall id x y z, exists a b, write_coord Long id (x, y, z) = [a; b] /\ card_of a = Grid 16 /\ length a = 72%nat.
Proof.
  intros id x y z. eexists. eexists. split; [reflexivity|]. split.
  - rewrite card_first by reflexivity. reflexivity.
  - rewrite !app_length, !value_length. reflexivity.
Qed.
Theorem C144_long_refuted : forall name p points labels faces pids, read (write Long name (p :: points) labels faces pids) = None.
Proof.
  intros name [id [[x y] z]] points labels faces pids. destruct (long_line id x y z) as (a & b & W & C & L). unfold write. cbn [flat_map fst snd]. rewrite W. cbn [app]. unfold read.
  assert (P : forall d, process a d = None).
  { intro d. unfold process. rewrite C. destruct (int_at a 16 16); [cbn [bind]|reflexivity]. destruct (num_at a (3 * 16) 16); [cbn [bind]|reflexivity]. destruct (num_at a (4 * 16) 16); [cbn [bind]|reflexivity]. unfold num_at, substr. rewrite L. reflexivity. }
  cbn [go enabled]. change (card_of []) with Another. cbn [enabled]. change (card_of (chars "TITLE=mimmo " ++ name ++ chars " mesh")) with Another. cbn [enabled]. change (card_of (chars "$")) with Another. change (card_of (chars "BEGIN BULK")) with Another. cbn [enabled].
  rewrite C. cbn [enabled]. rewrite P. reflexivity.
Qed.
Print Assumptions C144_long_refuted.

(** what the long format holds: for every point a card of two lines, in fields of sixteen characters that are the numbers *)
Theorem C144_long : forall name before id x y z after labels faces pids, label id -> (snd x < 10 ^ 30)%N -> (snd y < 10 ^ 30)%N -> (snd z < 10 ^ 30)%N ->
  exists h t I X Y Z dx dy dz,
    write Long name (before ++ (id, (x, y, z)) :: after) labels faces pids = h ++ ([71; 82; 73; 68; 42]%N ++ blanks 3 ++ I ++ blanks 16 ++ X ++ Y) :: ([42%N] ++ blanks 7 ++ Z) :: t /\
    length h = (3 + 2 * length before)%nat /\ length I = 16%nat /\ length X = 16%nat /\ length Y = 16%nat /\ length Z = 16%nat /\
    stoi I = Some id /\ stod (convert_vertex (trim X)) = Some dx /\ stod (convert_vertex (trim Y)) = Some dy /\ stod (convert_vertex (trim Z)) = Some dz /\
    fourteen_digits x dx /\ fourteen_digits y dy /\ fourteen_digits z dz.
Proof.
  intros name before id x y z after labels faces pids L HX HY HZ. change (10 ^ 30)%N with 1000000000000000000000000000000%N in *.
  destruct (coord_long x HX) as (dx & EX & NX). destruct (coord_long y HY) as (dy & EY & NY). destruct (coord_long z HZ) as (dz & EZ & NZ).
  exists ([chars "TITLE=mimmo " ++ name ++ chars " mesh"; chars "$"; chars "BEGIN BULK"] ++ flat_map (fun p => write_coord Long (fst p) (snd p)) before).
  exists (flat_map (fun p => write_coord Long (fst p) (snd p)) after ++ write_faces labels faces ++ footer Long pids ++ [chars "ENDDATA"; []]).
  exists (value Long (show_int id)), (value Long (show_fixed 16 x)), (value Long (show_fixed 16 y)), (value Long (show_fixed 16 z)), dx, dy, dz.
  split; [|split; [|repeat split; try (apply value_length); try assumption; try (apply stoi_long; exact L)]].
  - unfold write. rewrite flat_map_app. cbn [flat_map]. rewrite <- !app_assoc. reflexivity.
  - rewrite app_length. assert (E : length (flat_map (fun p => write_coord Long (fst p) (snd p)) before) = (2 * length before)%nat).
    { clear. induction before as [|(i, ((a, b), c)) r IH]; [reflexivity|]. cbn [flat_map fst snd]. rewrite app_length, IH. cbn [write_coord length]. lia. }
    transitivity (3 + length (flat_map (fun p : Z * point => write_coord Long (fst p) (snd p)) before))%nat; [reflexivity|]. rewrite E. reflexivity.
Qed.
Print Assumptions C144_long.
Example C144_long_nonvacuous : label 7 /\ (snd (true, 15000000000000000%N) < 10 ^ 30)%N /\ value Long (show_fixed 16 (true, 15000000000000000%N)) = chars "-1.5000000000000".
Proof. unfold label. split; [lia|]. split; [reflexivity|]. vm_compute. reflexivity. Qed.

Theorem C144_polygon_refuted : forall name points id1 pid1 id2 pid2 polygon face pids,
  (forall p, In p points -> label (fst p) /\ small_point (snd p)) -> label id1 -> label pid1 -> (5 <= length polygon)%nat -> length face = 3%nat -> (forall v, In v face -> label v) ->
  exists qs, read (write Short name points [(id1, pid1); (id2, pid2)] [polygon; face] pids) = Some (Data (combine (map fst points) qs) [(id1, pid1, face)]).
Proof.
  intros name points id1 pid1 id2 pid2 polygon face pids HP L1 LP LG LF VF.
  assert (E : write_faces [(id1, pid1); (id2, pid2)] [polygon; face] = write_faces [(id1, pid1)] [face]).
  { cbn [write_faces]. destruct (Nat.eqb_spec (length polygon) 3) as [X|_]; [lia|]. destruct (Nat.eqb_spec (length polygon) 4) as [X|_]; [lia|]. rewrite LF. reflexivity. }
  destruct (C144_short_partial name points [(id1, pid1)] [face] pids HP eq_refl) as (qs & R & _).
  - intros f [<- |[]]. split; [left; exact LF|exact VF].
  - intros l [<- |[]]. split; assumption.
  - exists qs. cbn [combine] in R. rewrite <- R. unfold write. rewrite E. reflexivity.
Qed.
Print Assumptions C144_polygon_refuted.

Theorem C144_pids : forall pids, (forall p, In p pids -> (-1 <= p)%Z) -> exists k, (0 <= k)%Z /\ written_pids pids = map (fun p => (p + k)%Z) pids /\ (forall p, In p (written_pids pids) -> (1 <= p)%Z) /\ ((forall p, In p pids -> (1 <= p)%Z) -> k = 0%Z).
Proof.
  intros pids H. exists (offset pids). unfold written_pids.
  assert (E : forall z, existsb (Z.eqb z) pids = true <-> In z pids).
  { intro z. rewrite existsb_exists. split; [intros (x & I & Q); apply Z.eqb_eq in Q; subst; exact I|intro I; exists z; split; [exact I|apply Z.eqb_refl]]. }
  unfold offset. cbv zeta. destruct (existsb (Z.eqb (-1)) pids) eqn:A; cbn [orb]; [|destruct (existsb (Z.eqb 0) pids) eqn:B; cbn [orb]].
  - split; [lia|]. split; [reflexivity|]. split; [intros p I; apply in_map_iff in I; destruct I as (q & <- & I); specialize (H q I); lia|]. intro P. apply E in A. specialize (P _ A). lia.
  - split; [lia|]. split; [reflexivity|]. split.
    + intros p I. apply in_map_iff in I. destruct I as (q & <- & I). specialize (H q I). assert (q <> (-1)%Z) by (intros ->; apply E in I; congruence). lia.
    + intro P. apply E in B. specialize (P _ B). lia.
  - split; [lia|]. split; [reflexivity|]. split; [|reflexivity]. intros p I. apply in_map_iff in I. destruct I as (q & <- & I). specialize (H q I). assert (q <> (-1)%Z) by (intros ->; apply E in I; congruence). assert (q <> 0%Z) by (intros ->; apply E in I; congruence). lia.
Qed.
Print Assumptions C144_pids.

Theorem C144_low_pids_refuted : forall pids p, In p pids -> (p < -1)%Z -> exists q, In q (written_pids pids) /\ (q < 1)%Z.
Proof.
  intros pids p I L. exists (p + offset pids)%Z. split; [apply in_map_iff; exists p; split; [reflexivity|exact I]|]. unfold offset. cbv zeta. destruct (existsb (Z.eqb (-1)) pids), (existsb (Z.eqb 0) pids); cbn [orb]; lia.
Qed.
Print Assumptions C144_low_pids_refuted.

Definition triangle_file : list line :=
  write Short (chars "wing") [(1%Z, ((false, 150000000%N), (true, 25000000%N), (false, 12345678900000%N))); (2%Z, ((false, 0%N), (false, 0%N), (false, 0%N))); (3%Z, ((true, 1%N), (false, 0%N), (false, 0%N)))]
    [(10%Z, 1%Z)] [[1; 2; 3]%Z] [1%Z].
Example C144_nonvacuous : length triangle_file = 11%nat /\ (exists d, read triangle_file = Some d /\ d_faces d = [(10, 1, [1; 2; 3])]%Z /\ map fst (d_points d) = [1; 2; 3]%Z) /\ written_pids [-1; 0; 4]%Z = [1; 2; 6]%Z.
Proof. split; [vm_compute; reflexivity|]. split; [eexists; vm_compute; repeat split; reflexivity|vm_compute; reflexivity]. Qed.

(** ** Cards *)
Theorem C145_ignored : forall before l m after, foreign l -> after <> [] -> read (before ++ l :: m :: after) = read (before ++ m :: after).
Proof.
  intros before l m after C A. apply foreign_card in C. destruct after as [|x after]; [contradiction|]. unfold read. apply go_ignored. exact C.
Qed.
Print Assumptions C145_ignored.

(** the last of two cards at the end, without an end of line, is lost *)
Theorem C145_last_refuted : forall before l m, enabled (card_of l) = true -> read (before ++ [l; m]) = read (before ++ [l; []]).
Proof. intros before l m E. unfold read. apply go_last. exact E. Qed.
Print Assumptions C145_last_refuted.

(** a number with its exponent: 1.5-3 *)
Theorem C145_exponent : forall i j neg a b eneg e, digits a -> digits b -> digits e -> a <> [] -> e <> [] -> length (blanks i ++ scientific neg a b false eneg e ++ blanks j) = 8%nat ->
  exists x y z, read [grid_card (blanks i ++ scientific neg a b false eneg e ++ blanks j); []; []] = Some (Data [(1%Z, (x, y, z))] []) /\
  real x = (mantissa neg a b * powerRZ 10 (if eneg then - decimal e else decimal e))%R /\ real y = 0%R /\ real z = 0%R.
Proof.
  intros i j neg a b eneg e A B E NA NE L. apply digits_all in A, B, E. eexists. eexists. eexists. split.
  - apply card_read; [exact L|]. rewrite trim_blanks; [|intro X; unfold scientific in X; destruct neg, a; try discriminate; contradiction|intros c0 I0; eapply scientific_chars; [exact A|exact B|exact E|exact I0]]. rewrite (convert_scientific neg a b false eneg e) by assumption. exact (stod_scientific neg a b false eneg e A B E NA NE).
  - unfold real, mantissa. cbn [fst snd]. split; [|split; ring]. rewrite !decimal_value. unfold Z.sub. rewrite Rmult_assoc, <- powerRZ_add by lra. rewrite (Z.add_comm (- _)). destruct neg, eneg; cbn [signed]; rewrite ?opp_IZR; ring.
Qed.
Print Assumptions C145_exponent.

(** with the letter, 1.5E-3, the exponent is lost *)
Theorem C145_letter_refuted : forall i j neg a b eneg e, digits a -> digits b -> digits e -> a <> [] -> e <> [] -> length (blanks i ++ scientific neg a b true eneg e ++ blanks j) = 8%nat ->
  exists x y z, read [grid_card (blanks i ++ scientific neg a b true eneg e ++ blanks j); []; []] = Some (Data [(1%Z, (x, y, z))] []) /\ real x = mantissa neg a b.
Proof.
  intros i j neg a b eneg e A B E NA NE L. apply digits_all in A, B, E. eexists. eexists. eexists. split.
  - apply card_read; [exact L|]. rewrite trim_blanks; [|intro X; unfold scientific in X; destruct neg, a; try discriminate; contradiction|intros c0 I0; eapply scientific_chars; [exact A|exact B|exact E|exact I0]]. rewrite (convert_scientific neg a b true eneg e) by assumption. exact (stod_scientific neg a b true eneg e A B E NA NE).
  - unfold real, mantissa. cbn [fst snd]. rewrite !decimal_value. change (0 - Z.of_nat (length b))%Z with (- Z.of_nat (length b))%Z. destruct neg; cbn [signed]; rewrite ?opp_IZR; ring.
Qed.
Print Assumptions C145_letter_refuted.

(** a blank field stands for zero: an exception *)
Theorem C145_blank_refuted : forall rest, read (grid_card (blanks 8) :: rest) = None.
Proof. intros [|m rest]; reflexivity. Qed.
Print Assumptions C145_blank_refuted.
Theorem C145_short_line_refuted : forall l rest, (length l < 32)%nat -> read ((chars "GRID    " ++ l) :: rest) = None.
Proof.
  intros l rest L. assert (C : card_of (chars "GRID    " ++ l) = Grid 8) by (rewrite card_first by reflexivity; reflexivity).
  assert (P : process (chars "GRID    " ++ l) (Data [] []) = None).
  { unfold process. rewrite card_first by reflexivity. change (card_of (chars "GRID    ")) with (Grid 8). set (g := chars "GRID    " ++ l). assert (LG : (length g < 40)%nat) by (unfold g; rewrite app_length; cbn [chars length]; lia). clearbody g.
    cbv beta iota; destruct (int_at g 8 8); [cbn [bind]|reflexivity]. destruct (num_at g (3 * 8) 8); [cbn [bind]|reflexivity]. destruct (num_at g (4 * 8) 8); [cbn [bind]|reflexivity]. unfold num_at, substr. destruct (Nat.ltb_spec (length g) (5 * 8)); [reflexivity|lia]. }
  unfold read. generalize dependent (chars "GRID    " ++ l). intros g C P. destruct rest; cbn [go]; change (card_of []) with Another; cbn [enabled]; rewrite C; cbn [enabled]; rewrite P; reflexivity.
Qed.
Print Assumptions C145_short_line_refuted.

(** bars are not enabled: one is read only if it ends the file *)
Theorem C145_bar_refuted : forall id pid a b, label id -> label pid -> label a -> label b ->
  read [write_face "CBAR" [a; b] id pid] = Some (Data [] [(id, pid, [a; b])]) /\ read [write_face "CBAR" [a; b] id pid; []] = Some (Data [] []).
Proof.
  intros id pid a b LI LP LA LB. assert (C : card_of (write_face "CBAR" [a; b] id pid) = Bar) by (unfold write_face; rewrite card_first by reflexivity; reflexivity).
  assert (B8 : forall t, In t [keyword Short (chars "CBAR"); value Short (show_int id); value Short (show_int pid); value Short (show_int a); value Short (show_int b)] -> length t = 8%nat) by (intros t [<- |[<- |[<- |[<- |[<- |[]]]]]]; try apply value_length; reflexivity).
  assert (CB : write_face "CBAR" [a; b] id pid = concat [keyword Short (chars "CBAR"); value Short (show_int id); value Short (show_int pid); value Short (show_int a); value Short (show_int b)]) by (unfold write_face; cbn [concat flat_map]; reflexivity).
  assert (P : process (write_face "CBAR" [a; b] id pid) (Data [] []) = Some (Data [] [(id, pid, [a; b])])).
  { unfold process. rewrite C, CB. set (blocks := [keyword Short (chars "CBAR"); value Short (show_int id); value Short (show_int pid); value Short (show_int a); value Short (show_int b)]) in *. unfold read_face.
    pose proof (int_at_blocks blocks 1 id B8 ltac:(cbn; lia) eq_refl LI) as I1. pose proof (int_at_blocks blocks 2 pid B8 ltac:(cbn; lia) eq_refl LP) as I2. pose proof (ints_at_blocks blocks [a; b] 3 B8 ltac:(intros v [<- |[<- |[]]]; assumption) eq_refl) as I3. cbn [length] in I3.
    change (2 * 8)%nat with 16%nat in *. change (1 * 8)%nat with 8%nat in *. change (3 * 8)%nat with 24%nat in *. rewrite I1. cbn [bind]. rewrite I2. cbn [bind]. rewrite I3. reflexivity. }
  split; unfold read; cbn [go]; change (card_of []) with Another; cbn [enabled]; rewrite C; cbn [enabled].
  - exact P.
  - reflexivity.
Qed.
Print Assumptions C145_bar_refuted.

Example C145_nonvacuous : foreign (chars "$ a comment") /\ (exists x y z, read [grid_card (chars "  -1.5-3"); []; []] = Some (Data [(1%Z, (x, y, z))] []) /\ x = (-15, -4)%Z) /\
  (exists x y z, read [grid_card (chars " -1.5E-3"); []; []] = Some (Data [(1%Z, (x, y, z))] []) /\ x = (-15, -1)%Z) /\
  chars "  -1.5-3" = blanks 2 ++ scientific true [49%N] [53%N] false true [51%N] ++ blanks 0 /\ chars " -1.5E-3" = blanks 1 ++ scientific true [49%N] [53%N] true true [51%N] ++ blanks 0.
Proof.
  split; [exists 36%N; eexists; split; [reflexivity|]; repeat split; try lia; discriminate|]. split; [do 3 eexists; split; vm_compute; reflexivity|]. split; [do 3 eexists; split; vm_compute; reflexivity|]. split; reflexivity.
Qed.
