(** Model of the settings of MimmoGeometry, src/iogeneric/MimmoGeometry.cpp: modes, files, XML and the reference part identifier.

    Texts are lists of characters.  An XML section is the list of its options.  A number in an option is of any size.  The tolerance, and the options of BaseManipulation, are not
    modelled. *)
From Coq Require Import String List NArith ZArith Bool.
From Verif Require Import Text Nastran Obj.
Import ListNotations.
Open Scope list_scope.
Open Scope nat_scope.

(** ** Settings *)
Record info := Info { f_dir : line; f_name : line; f_type : Z }.
Record block := Block { b_read : bool; b_write : bool; b_r : info; b_w : info; b_codex : bool; b_skd : bool; b_kd : bool; b_ref : Z;
                        b_multi : bool; b_clean : bool; b_long : bool; b_parallel : bool }.
(** FileType, MimmoGeometry.hpp 32 *)
Definition types : list (string * Z) :=
  [("STL", 0); ("SURFVTU", 1); ("VOLVTU", 2); ("NAS", 3); ("PCVTU", 4); ("CURVEVTU", 5); ("MIMMO", 99)]%Z%string.
Definition valid (t : Z) : bool := existsb (fun e => Z.eqb (snd e) t) types.
Definition type_named (l : line) : option Z := option_map snd (List.find (fun e => same l (chars (fst e))) types).
Definition name_of (t : Z) : line := match List.find (fun e => Z.eqb (snd e) t) types with Some e => chars (fst e) | None => [] end.
(** setDefaults, 154-177 *)
Definition nowhere : info := Info (chars "./") (chars "mimmoGeometry") 0.
Definition defaults (mpi : bool) : block := Block false false nowhere nowhere true false false 0 false true false mpi.
(** setIOMode, 279-299 *)
Inductive mode := Reading | Writing | Converting.
Definition set_mode (m : mode) (b : block) : block :=
  Block (match m with Writing => false | _ => true end) (match m with Reading => false | _ => true end)
        (b_r b) (b_w b) (b_codex b) (b_skd b) (b_kd b) (b_ref b) (b_multi b) (b_clean b) (b_long b) (b_parallel b).
(** setReadFileType and setWriteFileType of an int, 200-205, 238-243; setFileType, 343-349 *)
Definition right_type (t : Z) : Z := if valid t then t else 0%Z.
Definition set_r (i : info) (b : block) : block := Block (b_read b) (b_write b) i (b_w b) (b_codex b) (b_skd b) (b_kd b) (b_ref b) (b_multi b) (b_clean b) (b_long b) (b_parallel b).
Definition set_w (i : info) (b : block) : block := Block (b_read b) (b_write b) (b_r b) i (b_codex b) (b_skd b) (b_kd b) (b_ref b) (b_multi b) (b_clean b) (b_long b) (b_parallel b).
Definition with_dir (d : line) (i : info) : info := Info d (f_name i) (f_type i).
Definition with_name (n : line) (i : info) : info := Info (f_dir i) n (f_type i).
Definition with_type (t : Z) (i : info) : info := Info (f_dir i) (f_name i) t.
Definition both (f : info -> info) (b : block) : block := set_r (f (b_r b)) (set_w (f (b_w b)) b).
(** setReferencePID, 455-458 *)
Definition set_ref (z : Z) (b : block) : block := Block (b_read b) (b_write b) (b_r b) (b_w b) (b_codex b) (b_skd b) (b_kd b) (Z.max 0 z) (b_multi b) (b_clean b) (b_long b) (b_parallel b).

(** ** XML *)
Definition section : Type := list (string * line).
Definition option_of (s : section) (key : string) : option line := option_map snd (List.find (fun e => String.eqb (fst e) key) s).
(** ss >> value, a bool with a default *)
Definition to_bool (dflt : bool) (l : line) : bool :=
  match skip_space l with [] => dflt | t => match fst (scan_int t) with Some z => negb (Z.eqb z 0) | None => false end end.
Definition to_long (l : line) : Z := match skip_space l with [] => 0%Z | t => match fst (scan_int t) with Some z => z | None => 0%Z end end.
Definition absorb_with (s : section) (key : string) (f : line -> block -> block) (b : block) : block := match option_of s key with Some l => f (trim l) b | None => b end.
Definition unless_empty (f : line -> block -> block) (l : line) (b : block) : block := match l with [] => b | _ => f l b end.
Definition or_else (dflt : line) (l : line) : line := match l with [] => dflt | _ => l end.
(** absorbSectionXML, 1003-1201, option by option *)
Definition typed (f : Z -> block -> block) (l : line) (b : block) : block := match type_named l with Some t => f t b | None => b end.
Definition a_type (l : line) (b : block) : block := match l with [] => both (with_type 0) b | _ => typed (fun t => both (with_type t)) l b end.
Definition a_rtype : line -> block -> block := unless_empty (typed (fun t b => set_r (with_type t (b_r b)) b)).
Definition a_wtype : line -> block -> block := unless_empty (typed (fun t b => set_w (with_type t (b_w b)) b)).
Definition a_dir (l : line) (b : block) : block := both (with_dir (or_else (chars "./") l)) b.
Definition a_name (l : line) (b : block) : block := both (with_name (or_else (chars "mimmoGeometry") l)) b.
Definition a_rdir : line -> block -> block := unless_empty (fun l b => set_r (with_dir l (b_r b)) b).
Definition a_rname : line -> block -> block := unless_empty (fun l b => set_r (with_name l (b_r b)) b).
Definition a_wdir : line -> block -> block := unless_empty (fun l b => set_w (with_dir l (b_w b)) b).
Definition a_wname : line -> block -> block := unless_empty (fun l b => set_w (with_name l (b_w b)) b).
Definition flag (s : section) (key : string) (dflt old : bool) : bool := match option_of s key with Some l => to_bool dflt l | None => old end.
Definition a_flags (s : section) (b : block) : block :=
  Block (b_read b) (b_write b) (b_r b) (b_w b) (flag s "Codex"%string true (b_codex b)) (flag s "SkdTree"%string false (flag s "BvTree"%string false (b_skd b)))
        (flag s "KdTree"%string false (b_kd b)) (match option_of s "AssignRefPID"%string with Some l => Z.max 0 (to_long l) | None => b_ref b end)
        (flag s "WriteMultiSolidSTL"%string true (b_multi b)) (flag s "Clean"%string true (b_clean b)) (flag s "FormatNAS"%string false (b_long b)) (flag s "ParallelRestore"%string true (b_parallel b)).
Definition absorb (s : section) (b : block) : block :=
  a_flags s (absorb_with s "WriteFilename" a_wname (absorb_with s "WriteDir" a_wdir (absorb_with s "ReadFilename" a_rname (absorb_with s "ReadDir" a_rdir
    (absorb_with s "Filename" a_name (absorb_with s "Dir" a_dir (absorb_with s "WriteFileType" a_wtype (absorb_with s "ReadFileType" a_rtype (absorb_with s "FileType" a_type b))))))))).
(** flushSectionXML, 1208-1271 *)
Definition show_bool (b : bool) : line := chars (if b then "1" else "0").
Definition flush (b : block) : section :=
  let two := (b_read b && b_write b)%bool in
  [("IOMode"%string, chars (if two then "CONVERT" else if (negb (b_read b) && b_write b)%bool then "WRITE" else "READ"))] ++
  (if two then [("ReadDir"%string, f_dir (b_r b)); ("ReadFilename"%string, f_name (b_r b)); ("WriteDir"%string, f_dir (b_w b)); ("WriteFilename"%string, f_name (b_w b))]
   else [("Dir"%string, f_dir (b_r b)); ("Filename"%string, f_name (b_r b))]) ++
  (if two then [("ReadFileType"%string, name_of (f_type (b_r b))); ("WriteFileType"%string, name_of (f_type (b_w b)))] else [("FileType"%string, name_of (f_type (b_r b)))]) ++
  [("Codex"%string, show_bool (b_codex b)); ("SkdTree"%string, show_bool (b_skd b)); ("KdTree"%string, show_bool (b_kd b)); ("AssignRefPID"%string, show_int (b_ref b));
   ("WriteMultiSolidSTL"%string, show_bool (b_multi b)); ("Clean"%string, show_bool (b_clean b)); ("FormatNAS"%string, show_bool (b_long b)); ("ParallelRestore"%string, show_bool (b_parallel b))].
(** the constructor from XML, 50-71, for a section of the class *)
Definition restore (mpi : bool) (s : section) : block :=
  let t := match option_of s "IOMode" with Some l => trim l | None => chars "READ" end in
  let b := set_mode Reading (defaults mpi) in
  let b := if same t (chars "WRITE") then set_mode Writing b else b in
  let b := if same t (chars "CONVERT") then set_mode Converting b else b in
  absorb s b.

(** ** Reference part identifier *)
(** in write, 512-522, and read, 933-942; the identifier is zero after *)
Definition shift_pids (b : block) (g : obj) : block * obj :=
  let pids := map (fun p => (p + b_ref b)%Z) (getCompactPID g) in
  let old := fun p => match nfind p (o_names g) with Some s => s | None => EmptyString end in
  let g1 := setPID pids g in
  (set_ref 0 b, fold_left (fun g p => snd (setPIDName p (old (p - b_ref b)%Z) g)) (o_pids g1) g1).
