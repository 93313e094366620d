(** What is asked of the settings of MimmoGeometry. *)
From Coq Require Import String List NArith ZArith.
From Verif Require Import Text Nastran Obj GeomIo.
Import ListNotations.

(** a text with no white space at its ends *)
Definition white (c : N) : Prop := (c = 32 \/ 9 <= c <= 13)%N.
Definition tidy (l : list N) : Prop := l <> [] /\ (forall c r, l = c :: r -> ~ white c) /\ (forall c r, l = r ++ [c] -> ~ white c).
(** the types of files there are *)
Definition known (t : Z) : Prop := In t [0; 1; 2; 3; 4; 5; 99]%Z.
Definition good_info (i : info) : Prop := tidy (f_dir i) /\ tidy (f_name i) /\ known (f_type i).
(** the same but for the file written *)
Definition same_but_written (a b : block) : Prop :=
  b_read a = b_read b /\ b_write a = b_write b /\ b_r a = b_r b /\ b_codex a = b_codex b /\ b_skd a = b_skd b /\ b_kd a = b_kd b /\ b_ref a = b_ref b /\
  b_multi a = b_multi b /\ b_clean a = b_clean b /\ b_long a = b_long b /\ b_parallel a = b_parallel b.
(** an int *)
Definition in_int (z : Z) : Prop := (-2147483648 <= z < 2147483648)%Z.
(** a cell with another part *)
Definition moved (k : Z) (e : nat * cell) : nat * cell := (fst e, Cl (c_type (snd e)) (c_conn (snd e)) (c_pid (snd e) + k)%Z).
(** the parts of the cells are listed *)
Definition listed (g : obj) : Prop := forall e, In e (o_cells g) -> In (c_pid (snd e)) (o_pids g).
(** the options there are *)
Definition options_known : list string := ["IOMode"; "FileType"; "ReadFileType"; "WriteFileType"; "Dir"; "Filename"; "ReadDir"; "ReadFilename"; "WriteDir"; "WriteFilename"; "Codex"; "BvTree"; "SkdTree"; "KdTree"; "AssignRefPID"; "WriteMultiSolidSTL"; "Clean"; "FormatNAS"; "ParallelRestore"]%string.
(** a section with none of them *)
Definition foreign (s : list (string * list N)) : Prop := forall k v, In (k, v) s -> ~ In k options_known.
