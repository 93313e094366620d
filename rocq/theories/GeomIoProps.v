(** Settings of MimmoGeometry. *)
From Coq Require Import String List Arith NArith ZArith Bool Lia.
From Verif Require Import Text TextProofs Nastran NastranSpec NastranProofs Obj ObjSpec ObjProofs GeomIo GeomIoSpec.
Import ListNotations.
Open Scope list_scope.
Open Scope nat_scope.

(** ** XML *)
Lemma white_space : forall c, ~ white c -> is_space c = false.
Proof.
  intros c H. destruct (is_space c) eqn:E; [|reflexivity]. exfalso. apply H. unfold is_space in E. apply orb_true_iff in E. destruct E as [E|E]; [left; apply N.eqb_eq in E; exact E|right]. apply andb_true_iff in E. destruct E as (A & B). apply N.leb_le in A, B. lia.
Qed.
Lemma tidy_trim : forall l, tidy l -> trim l = l.
Proof.
  intros l (NE & A & B). unfold trim. assert (S1 : skip_space l = l) by (destruct l as [|c r]; [reflexivity|]; apply no_skip, white_space, (A c r), eq_refl). rewrite S1.
  assert (S2 : skip_space (rev l) = rev l). { destruct (rev l) as [|c r] eqn:E; [reflexivity|]. apply no_skip, white_space. apply (B c (rev r)). rewrite <- (rev_involutive l), E. reflexivity. }
  rewrite S2. apply rev_involutive.
Qed.
Lemma known_named : forall t, known t -> type_named (trim (name_of t)) = Some t /\ name_of t <> [] /\ trim (name_of t) <> [].
Proof. intros t H. repeat (destruct H as [<- |H]; [vm_compute; repeat split; discriminate|]). destruct H. Qed.
Lemma bool_shown : forall d b, to_bool d (show_bool b) = b.
Proof. intros d []; reflexivity. Qed.
Lemma long_shown : forall z, to_long (show_int z) = z.
Proof.
  intro z. unfold to_long. destruct (show_int_head z []) as (c & r & E & H). rewrite app_nil_r in E. pose proof (scan_show z [] I) as S1. rewrite app_nil_r in S1. rewrite E in *. rewrite no_skip by exact H. rewrite S1. reflexivity.
Qed.
Lemma or_else_tidy : forall d l, l <> [] -> or_else d l = l.
Proof. intros d [|c l] H; [contradiction|reflexivity]. Qed.
Lemma unless_tidy : forall f l b, l <> [] -> unless_empty f l b = f l b.
Proof. intros f [|c l] b H; [contradiction|reflexivity]. Qed.
Lemma match_tidy : forall (A : Type) (l : line) (x y : A), l <> [] -> match l with [] => x | _ => y end = y.
Proof. intros A [|c l] x y H; [contradiction|reflexivity]. Qed.

Ltac options := unfold absorb_with, flag; repeat match goal with |- context [option_of (flush ?b) ?k] => let v := eval cbv [option_of flush option_map List.find String.eqb Ascii.eqb Bool.eqb fst snd app andb negb b_read b_write b_r b_w b_codex b_skd b_kd b_ref b_multi b_clean b_long b_parallel f_dir f_name f_type] in (option_of (flush b) k) in change (option_of (flush b) k) with v end; cbv beta iota.

Theorem C146_convert : forall mpi b, b_read b = true -> b_write b = true -> good_info (b_r b) -> good_info (b_w b) -> (0 <= b_ref b)%Z -> restore mpi (flush b) = b.
Proof.
  intros mpi [rd wr [rd1 rn1 rt1] [wd1 wn1 wt1] cx sk kd rf mu cl lo pa]. cbn [b_read b_write b_r b_w b_ref]. intros -> -> (RD & RN & RT) (WD & WN & WT) RF. cbn [f_dir f_name f_type] in *.
  destruct (known_named rt1 RT) as (TR & NR & NR2). destruct (known_named wt1 WT) as (TW & NW & NW2). assert (RD0 := proj1 RD). assert (RN0 := proj1 RN). assert (WD0 := proj1 WD). assert (WN0 := proj1 WN). apply tidy_trim in RD, RN, WD, WN.
  unfold restore, absorb. options. change (same (trim (chars "CONVERT")) (chars "WRITE")) with false. change (same (trim (chars "CONVERT")) (chars "CONVERT")) with true. cbv iota.
  rewrite RD, RN, WD, WN. unfold a_rtype, a_wtype, a_rdir, a_rname, a_wdir, a_wname. rewrite !unless_tidy by assumption. unfold typed. rewrite TR, TW. unfold a_flags. options. rewrite !bool_shown, long_shown. rewrite Z.max_r by exact RF. reflexivity.
Qed.
Print Assumptions C146_convert.

Lemma restored : forall mpi b, (b_read b && b_write b)%bool = false -> (b_read b || b_write b)%bool = true -> good_info (b_r b) -> (0 <= b_ref b)%Z -> same_but_written (restore mpi (flush b)) b /\ b_w (restore mpi (flush b)) = b_r b.
Proof.
  intros mpi [rd wr [rd1 rn1 rt1] wi cx sk kd rf mu cl lo pa]. cbn [b_read b_write b_r b_w b_ref]. intros NB OR (RD & RN & RT) RF. cbn [f_dir f_name f_type] in *. destruct (known_named rt1 RT) as (TR & NR & NR2).
  assert (RD0 := proj1 RD). assert (RN0 := proj1 RN). apply tidy_trim in RD, RN. set (i := Info rd1 rn1 rt1).
  assert (E : restore mpi (flush (Block rd wr i wi cx sk kd rf mu cl lo pa)) = Block rd wr i i cx sk kd rf mu cl lo pa).
  { unfold i. destruct rd, wr; try discriminate; unfold restore, absorb; options.
    - change (same (trim (chars "READ")) (chars "WRITE")) with false. change (same (trim (chars "READ")) (chars "CONVERT")) with false. cbv iota. rewrite RD, RN. unfold a_type, a_dir, a_name. rewrite !or_else_tidy by assumption. rewrite match_tidy by exact NR2. unfold typed. rewrite TR. unfold a_flags. options. rewrite !bool_shown, long_shown. rewrite Z.max_r by exact RF. reflexivity.
    - change (same (trim (chars "WRITE")) (chars "WRITE")) with true. change (same (trim (chars "WRITE")) (chars "CONVERT")) with false. cbv iota. rewrite RD, RN. unfold a_type, a_dir, a_name. rewrite !or_else_tidy by assumption. rewrite match_tidy by exact NR2. unfold typed. rewrite TR. unfold a_flags. options. rewrite !bool_shown, long_shown. rewrite Z.max_r by exact RF. reflexivity. }
  rewrite E. repeat split.
Qed.
Theorem C146_one_mode_partial : forall mpi b, (b_read b = true /\ b_write b = false) \/ (b_read b = false /\ b_write b = true) -> good_info (b_r b) -> b_w b = b_r b -> (0 <= b_ref b)%Z -> restore mpi (flush b) = b.
Proof.
  intros mpi b M G W RF. destruct (restored mpi b ltac:(destruct M as [(-> & ->)|(-> & ->)]; reflexivity) ltac:(destruct M as [(-> & ->)|(-> & ->)]; reflexivity) G RF) as (S1 & S2).
  rewrite <- W in S2. destruct S1 as (A1 & A2 & A3 & A4 & A5 & A6 & A7 & A8 & A9 & A10 & A11). destruct (restore mpi (flush b)), b. cbn in *. subst. reflexivity.
Qed.
Print Assumptions C146_one_mode_partial.
(** the file to write is lost: it is restored as the one to read *)
Theorem C146_written_refuted : forall mpi b, b_read b = false -> b_write b = true -> good_info (b_r b) -> (0 <= b_ref b)%Z -> b_w (restore mpi (flush b)) = b_r b /\ (b_w b <> b_r b -> restore mpi (flush b) <> b).
Proof.
  intros mpi b R W G RF. destruct (restored mpi b ltac:(rewrite R, W; reflexivity) ltac:(rewrite R, W; reflexivity) G RF) as (_ & S2). split; [exact S2|]. intros N E. apply N. rewrite E in S2. exact S2.
Qed.
Print Assumptions C146_written_refuted.
(** C146: options that are not given leave the settings as they are, those of a block that reads a file with the default name *)
Theorem C146_absent : forall mpi s, foreign s -> (forall b, absorb s b = b) /\
  restore mpi s = Block true false (Info (chars "./") (chars "mimmoGeometry") 0%Z) (Info (chars "./") (chars "mimmoGeometry") 0%Z) true false false 0%Z false true false mpi.
Proof.
  intros mpi s F. assert (N : forall k, In k options_known -> option_of s k = None).
  { intros k K. unfold option_of. destruct (List.find (fun e : string * line => String.eqb (fst e) k) s) as [(k0, v)|] eqn:E; [|reflexivity]. exfalso. apply find_some in E. destruct E as (I & Q). apply String.eqb_eq in Q. cbn [fst] in Q. subst k0. exact (F k v I K). }
  assert (A : forall b, absorb s b = b). { intro b. unfold absorb, a_flags, absorb_with, flag. rewrite !N by (unfold options_known; cbn [In]; tauto). destruct b. reflexivity. }
  split; [exact A|]. unfold restore. rewrite A, N by (left; reflexivity). reflexivity.
Qed.
Print Assumptions C146_absent.
Example C146_absent_nonvacuous : foreign [("Name"%string, chars "wing"); ("Apply"%string, chars "1")].
Proof. intros k v [E|[E|[]]]; injection E as <- <-; unfold options_known; cbn; intuition discriminate. Qed.
Theorem C146_types : forall t, (known t -> right_type t = t) /\ (~ known t -> right_type t = 0%Z) /\ known (right_type t).
Proof.
  intro t. assert (E : valid t = true <-> known t).
  { unfold valid, known, types. cbn [existsb snd In]. rewrite !orb_true_iff, !Z.eqb_eq. intuition congruence. }
  unfold right_type. destruct (valid t) eqn:V; [assert (K : known t) by (apply E; reflexivity)|assert (K : ~ known t) by (intro K; apply E in K; discriminate)]; repeat split; try contradiction; try assumption. left. reflexivity.
Qed.
Print Assumptions C146_types.
Example C146_nonvacuous :
  let b := Block true true (Info (chars "in") (chars "a wing") 3%Z) (Info (chars "out") (chars "wing") 1%Z) false true true 7%Z true false true false in
  good_info (b_r b) /\ good_info (b_w b) /\ flush b <> [] /\ restore true (flush b) = b.
Proof.
  cbv zeta. cbn [b_r b_w]. split; [|split; [|split; [discriminate|vm_compute; reflexivity]]]; (split; [|split]); cbn [f_dir f_name f_type];
    try (unfold known; cbn; tauto); (split; [discriminate|]); (split; [intros c r E; injection E as <- _; unfold white; cbn; lia|]); intros c r E; apply (f_equal (@rev N)) in E; rewrite rev_app_distr in E; cbn in E; injection E as <- _; unfold white; lia.
Qed.

(** ** Reference part identifier *)
Lemma names_cells : forall f ps g, let g' := fold_left (fun g p => snd (setPIDName p (f p) g)) ps g in o_cells g' = o_cells g /\ o_pids g' = o_pids g /\
  (forall q, nfind q (o_names g') = match nfind q (o_names g) with None => None | Some s => if zin q ps then Some (f q) else Some s end).
Proof.
  intros f. induction ps as [|p ps IH]; intro g; cbn zeta; cbn [fold_left]; [split; [reflexivity|]; split; [reflexivity|]; intro q; destruct (nfind q (o_names g)); reflexivity|].
  destruct (IH (snd (setPIDName p (f p) g))) as (A & B & C). assert (S1 : o_cells (snd (setPIDName p (f p) g)) = o_cells g /\ o_pids (snd (setPIDName p (f p) g)) = o_pids g) by (unfold setPIDName; destruct (nfind p (o_names g)); split; reflexivity).
  split; [rewrite A; apply S1|]. split; [rewrite B; apply S1|]. intro q. rewrite C. unfold setPIDName. cbn [zin existsb]. destruct (nfind p (o_names g)) eqn:E; cbn [snd with_pids o_names].
  - rewrite nfind_nput. destruct (Z.eqb_spec p q) as [-> |N].
    + rewrite E, Z.eqb_refl. cbn [orb]. destruct (zin q ps); reflexivity.
    + destruct (Z.eqb_spec q p) as [-> |_]; [contradiction|]. reflexivity.
  - destruct (Z.eqb_spec q p) as [-> |_]; [rewrite E; reflexivity|reflexivity].
Qed.
Lemma compact_cells : forall g, listed g -> getCompactPID g = map (fun e => c_pid (snd e)) (o_cells g).
Proof. intros g H. unfold getCompactPID. destruct (o_pids g) eqn:E; [|reflexivity]. destruct (o_cells g) as [|e es] eqn:C; [reflexivity|]. exfalso. specialize (H e). rewrite C, E in H. apply H. left. reflexivity. Qed.
Lemma combine_map : forall (A B : Type) (f : A -> B) l, combine l (map f l) = map (fun x => (x, f x)) l.
Proof. induction l as [|x l IH]; [reflexivity|]. cbn. rewrite IH. reflexivity. Qed.

Theorem C147_shifted : forall b g, listed g -> (forall e, In e (o_cells g) -> in_int (c_pid (snd e) + b_ref b)) ->
  let g' := snd (shift_pids b g) in
  o_cells g' = map (moved (b_ref b)) (o_cells g) /\ listed g' /\ (forall q, In q (o_pids g') -> exists e, In e (o_cells g') /\ c_pid (snd e) = q) /\
  (forall e s, In e (o_cells g) -> nfind (c_pid (snd e)) (o_names g) = Some s -> nfind (c_pid (snd e) + b_ref b)%Z (o_names g') = Some s).
Proof.
  intros b g L R. cbv zeta. unfold shift_pids. cbn [snd]. rewrite compact_cells by exact L. rewrite map_map. set (k := b_ref b) in *. set (h := fun e : nat * cell => (c_pid (snd e) + k)%Z).
  set (g1 := setPID (map h (o_cells g)) g). set (old := fun p : Z => match nfind (p - k) (o_names g) with Some s => s | None => EmptyString end). change (map (fun x : nat * cell => (c_pid (snd x) + k)%Z) (o_cells g)) with (map h (o_cells g)). fold g1.
  match goal with |- context [fold_left ?f (o_pids g1) g1] => set (g2 := fold_left f (o_pids g1) g1) end.
  assert (N2 : o_cells g2 = o_cells g1 /\ o_pids g2 = o_pids g1 /\ forall q, nfind q (o_names g2) = match nfind q (o_names g1) with None => None | Some s => if zin q (o_pids g1) then Some (old q) else Some s end) by exact (names_cells old (o_pids g1) g1).
  clearbody g2. destruct N2 as (A & B & C).
  assert (C1 : o_cells g1 = map (moved k) (o_cells g)).
  { unfold g1, setPID. rewrite map_length, Nat.eqb_refl. cbn [with_pids with_cells o_cells]. rewrite combine_map, map_map. apply map_ext_in. intros e I. unfold moved, put_pid, h. cbn [fst snd]. rewrite to_int_id; [reflexivity|]. specialize (R e I). unfold in_int, int_range in *. lia. }
  assert (P1 : forall q, In q (o_pids g1) <-> exists e, In e (o_cells g) /\ h e = q).
  { intro q. unfold g1, setPID. rewrite map_length, Nat.eqb_refl. cbn [with_pids with_cells o_pids]. rewrite (in_fold_zadd Z (fun p => p)). split; [intros [[]|(e & I & <-)]; apply in_map_iff in I; destruct I as (c & <- & I); exists c; split; [exact I|reflexivity]|intros (e & I & <-); right; exists (h e); split; [apply in_map; exact I|reflexivity]]. }
  assert (N1 : forall q, In q (o_pids g1) -> nfind q (o_names g1) = Some EmptyString).
  { intros q. unfold g1, setPID. rewrite map_length, Nat.eqb_refl. cbn [with_pids with_cells o_pids o_names]. apply blank_ok. }
  split; [rewrite A; exact C1|]. split.
  - intros e I. rewrite A, C1 in I. rewrite B. apply in_map_iff in I. destruct I as (c & <- & I). apply P1. exists c. split; [exact I|reflexivity].
  - split.
    + intros q Q. rewrite B in Q. apply P1 in Q. destruct Q as (e & I & <-). exists (moved k e). split; [rewrite A, C1; apply in_map, I|reflexivity].
    + intros e s I E. rewrite C. assert (Q : In (c_pid (snd e) + k)%Z (o_pids g1)) by (apply P1; exists e; split; [exact I|reflexivity]). rewrite (N1 _ Q). apply zin_iff in Q. rewrite Q. unfold old. replace (c_pid (snd e) + k - k)%Z with (c_pid (snd e)) by lia. rewrite E. reflexivity.
Qed.
Print Assumptions C147_shifted.
(** once: after it the reference is zero, and doing it again moves nothing *)
Theorem C147_once : forall b g, listed g -> (forall e, In e (o_cells g) -> in_int (c_pid (snd e) + b_ref b)) ->
  let (b', g') := shift_pids b g in b_ref b' = 0%Z /\ o_cells (snd (shift_pids b' g')) = o_cells g'.
Proof.
  intros b g L R. destruct (shift_pids b g) as (b' & g') eqn:E. pose proof (C147_shifted b g L R) as S1. rewrite E in S1. cbn [snd] in S1. destruct S1 as (C & L' & _). assert (B : b_ref b' = 0%Z) by (unfold shift_pids in E; injection E as <- _; reflexivity). split; [exact B|].
  destruct (C147_shifted b' g' L') as (C2 & _).
  - intros e I. rewrite B, Z.add_0_r. rewrite C in I. apply in_map_iff in I. destruct I as (c & <- & I). exact (R c I).
  - rewrite C2, B. rewrite <- (map_id (o_cells g')) at 2. apply map_ext. intros [i [t cn p]]. unfold moved. cbn. rewrite Z.add_0_r. reflexivity.
Qed.
Print Assumptions C147_once.
(** the reference has no greatest value: the parts go past the ints of the cells, and are not those listed *)
Theorem C147_wraps_refuted : forall b g i c, listed g -> In (i, c) (o_cells g) -> (2147483648 <= c_pid c + b_ref b < 4294967296)%Z ->
  exists c', In (i, c') (o_cells (snd (shift_pids b g))) /\ c_pid c' = (c_pid c + b_ref b - 4294967296)%Z /\ In (c_pid c + b_ref b)%Z (o_pids (snd (shift_pids b g))).
Proof.
  intros b g i c L I R. unfold shift_pids. cbn [snd]. rewrite compact_cells by exact L. rewrite map_map. set (k := b_ref b) in *. set (h := fun e : nat * cell => (c_pid (snd e) + k)%Z). change (map (fun x : nat * cell => (c_pid (snd x) + k)%Z) (o_cells g)) with (map h (o_cells g)).
  destruct (names_cells (fun p : Z => match nfind (p - k) (o_names g) with Some s => s | None => EmptyString end) (o_pids (setPID (map h (o_cells g)) g)) (setPID (map h (o_cells g)) g)) as (A & B & _). rewrite A, B. unfold setPID. rewrite map_length, Nat.eqb_refl. cbn [with_pids with_cells o_cells o_pids]. exists (put_pid (h (i, c)) c). split; [|split].
  - rewrite combine_map, map_map. apply in_map_iff. exists (i, c). split; [reflexivity|exact I].
  - unfold put_pid, h, to_int. cbn [snd c_pid]. replace (c_pid c + k + 2 ^ 31)%Z with (c_pid c + k - 2147483648 + 1 * 2 ^ 32)%Z by lia. rewrite Z.mod_add by lia. rewrite Z.mod_small by lia. lia.
  - apply (in_fold_zadd Z (fun p => p)). right. exists (h (i, c)). split; [apply in_map; exact I|reflexivity].
Qed.
Print Assumptions C147_wraps_refuted.
(** a negative reference is zero *)
Theorem C147_reference : forall z b, b_ref (set_ref z b) = (if Z.ltb z 0 then 0 else z)%Z.
Proof. intros z b. cbn. destruct (Z.ltb_spec z 0); lia. Qed.
Print Assumptions C147_reference.
Example C147_nonvacuous : exists g, o_cells g <> [] /\ listed g /\ (forall e, In e (o_cells g) -> in_int (c_pid (snd e) + 10)) /\
  let g' := snd (shift_pids (set_ref 10 (defaults false)) g) in map (fun e => c_pid (snd e)) (o_cells g') = [11; 12; 11]%Z /\ nfind 12%Z (o_names g') = Some "tail"%string.
Proof.
  exists (Ob 1 (o_tol (new_obj 1)) [] [(0, Cl ETriangle [0; 1; 2] 1%Z); (1, Cl ETriangle [0; 1; 3] 2%Z); (2, Cl ETriangle [0; 2; 3] 1%Z)] [1; 2]%Z [(1%Z, EmptyString); (2%Z, "tail"%string)]).
  cbn [o_cells]. split; [discriminate|]. split; [intros e [<- |[<- |[<- |[]]]]; cbn; tauto|]. split; [intros e [<- |[<- |[<- |[]]]]; unfold in_int; cbn; lia|]. cbv zeta. split; reflexivity.
Qed.
