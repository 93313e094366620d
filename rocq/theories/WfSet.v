(** The settings of the blocks of Wavefront OBJ meshes and their XML sections: ManipulateWFOBJData and
    IOWavefrontOBJ, src/iogeneric/IOWavefrontOBJ.cpp.  The settings of BaseManipulation are left out.
    An unordered_set is a list without repetitions; the order in which it is written is any. *)
From Coq Require Import String List NArith ZArith Bool.
From Verif Require Import Text Nastran GeomIo.
Import ListNotations.
Open Scope list_scope.
Open Scope nat_scope.

(** ** ManipulateWFOBJData *)
(** The enums OverlapAnnotationMode (0 HARD, 1 SOFT, 2 GETALL, 3 GETALLNOBLANKS) and NormalsComputeMode
    (0 to 2) are their numbers: IOWavefrontOBJ.hpp 165-181. *)
Record pins := Pins { p_check : bool; p_ann : Z; p_norm : Z; p_mats : list line; p_groups : list line; p_smooth : list Z; p_objs : list line }.
(** The constructor, 307-313, 319-324. *)
Definition fresh_pins : pins := Pins false 0 0 [] [] [] [].

Definition line_dec : forall a b : line, {a = b} + {a <> b} := list_eq_dec N.eq_dec.
(** setPinMaterials, setPinCellGroups, setPinObjects: 526-537, 543-553, 570-580. *)
Definition names_set (l : list line) : list line := nodup line_dec (map trim l).
(** setPinSmoothIds: 559-562. *)
Definition ids_set (l : list Z) : list Z := nodup Z.eq_dec l.

(** The loops 669-676, 683-690, 710-717: while(ss.good()){ ss >> entry; entry = trim(entry);
    if(!entry.empty()) value.push_back(entry); }.  When nothing is left to read entry is as it was. *)
Fixpoint read_names (fuel : nat) (s : stream) (entry : line) : list line :=
  match fuel with
  | O => []
  | S f =>
      if good s then
        let (x, s') := get_word s in
        let e := trim (match x with Some w => w | None => entry end) in
        match e with [] => read_names f s' e | _ => e :: read_names f s' e end
      else []
  end.
(** The loop 697-702: int entry; while(ss.good()){ ss >> entry; value.push_back(entry); }.  [None]: a
    number that was never set is used (undefined).  What is not a number is zero. *)
Fixpoint read_ids (fuel : nat) (s : stream) (entry : option Z) : option (list Z) :=
  match fuel with
  | O => Some []
  | S f =>
      if good s then
        let (x, s') := get_int s in
        let e := match x with Some z => Some z | None => if attempted s then Some 0%Z else entry end in
        match e with
        | None => None
        | Some z => option_map (cons z) (read_ids f s' e)
        end
      else Some []
  end.
Definition names_of (text : line) : list line := let t := trim text in read_names (S (length t)) (opened t) [].
Definition ids_of (text : line) : option (list Z) := let t := trim text in read_ids (S (length t)) (opened t) None.

(** 642-653, 655-664: value = 0 when empty, then std::min(2, std::max(0, value)). *)
Definition strategy (s : section) (key : string) (old : Z) : Z :=
  match option_of s key with Some l => Z.min 2 (Z.max 0 (to_long (trim l))) | None => old end.
(** 631-640: false when empty. *)
Definition switch (s : section) (key : string) (old : bool) : bool :=
  match option_of s key with Some l => match trim l with [] => false | t => to_bool false t end | None => old end.
Definition names_option (s : section) (key : string) (old : list line) : list line :=
  match option_of s key with Some l => names_set (names_of l) | None => old end.
(** absorbSectionXML, 625-720; None: undefined. *)
Definition absorb_pins (s : section) (p : pins) : option pins :=
  let ids := match option_of s "PinSmoothIds" with Some l => option_map ids_set (ids_of l) | None => Some (p_smooth p) end in
  option_map (fun ids =>
    Pins (switch s "CheckNormalsMagnitude" (p_check p)) (strategy s "MultipleAnnotationStrategy" (p_ann p)) (strategy s "NormalsComputeStrategy" (p_norm p))
      (names_option s "PinMaterials" (p_mats p)) (names_option s "PinCellGroups" (p_groups p)) ids (names_option s "PinObjects" (p_objs p))) ids.
(** 735-759: each followed by a blank. *)
Definition spaced (l : list line) : line := flat_map (fun v => v ++ [c_space]) l.
(** flushSectionXML, 728-760. *)
Definition flush_pins (p : pins) : section :=
  [("CheckNormalsMagnitude"%string, show_bool (p_check p)); ("MultipleAnnotationStrategy"%string, show_int (p_ann p)); ("NormalsComputeStrategy"%string, show_int (p_norm p));
   ("PinMaterials"%string, spaced (p_mats p)); ("PinCellGroups"%string, spaced (p_groups p)); ("PinSmoothIds"%string, spaced (map show_int (p_smooth p)));
   ("PinObjects"%string, spaced (p_objs p))].
(** The constructor from XML, 319-337 (ClassName is another option). *)
Definition made (class : line) (s : section) : option pins :=
  if same (trim class) (Nastran.chars "mimmo.ManipulateWFOBJData") then absorb_pins s fresh_pins else Some fresh_pins.

(** ** IOWavefrontOBJ *)
(** The tolerance is a number of 1e-12, zero standing for the least positive double. *)
Record io := Io { i_mode : Z; i_dir : line; i_name : line; i_resume : bool; i_tol : Z; i_clean : bool; i_ignore : bool; i_uv : bool }.
(** 1155-1166 *)
Definition fresh_io : io := Io 0 (Nastran.chars ".") (Nastran.chars "iowavefrontobj") false 0 false false false.
(** setGeometryTolerance, 1401-1403. *)
Definition tolerance (t : Z) : Z := Z.max 0 t.
(** std::to_string of the tolerance, 1537: six decimals, written as the number of millionths (the layout
    is not modelled); what is read, 1476-1484: the least double when empty. *)
Definition show_tol (t : Z) : line := show_int (nearest t 1000000).
Definition read_tol (l : line) : Z := match trim l with [] => 0%Z | t => tolerance (1000000 * to_long t) end.
Definition text_or (s : section) (key dflt : string) (old : line) : line :=
  match option_of s key with Some l => or_else (Nastran.chars dflt) (trim l) | None => old end.
(** absorbSectionXML, 1445-1520. *)
Definition absorb_io (s : section) (b : io) : io :=
  Io (i_mode b) (text_or s "Dir" "./" (i_dir b)) (text_or s "Filename" "iowavefrontobj" (i_name b)) (switch s "PrintResumeFile" (i_resume b))
     (match option_of s "GeometryTolerance" with Some l => read_tol l | None => i_tol b end)
     (switch s "CleanDoubleMeshVertices" (i_clean b)) (switch s "IgnoreCellGroups" (i_ignore b)) (switch s "TextureUVMode" (i_uv b)).
(** flushSectionXML, 1528-1541. *)
Definition flush_io (b : io) : section :=
  [("IOMode"%string, show_int (i_mode b)); ("Dir"%string, i_dir b); ("Filename"%string, i_name b); ("PrintResumeFile"%string, show_bool (i_resume b));
   ("GeometryTolerance"%string, show_tol (i_tol b)); ("CleanDoubleMeshVertices"%string, show_bool (i_clean b));
   ("IgnoreCellGroups"%string, show_bool (i_ignore b)); ("TextureUVMode"%string, show_bool (i_uv b))].
(** The constructor from XML, 1155-1184: IOMode is "0" when not there; int locmode is not set when the
    option is blank (None: undefined), zero when not a number. *)
Definition made_io (class : line) (s : section) : option io :=
  if same (trim class) (Nastran.chars "mimmo.IOWavefrontOBJ") then
    let t := trim (match option_of s "IOMode" with Some l => l | None => Nastran.chars "0" end) in
    match t with
    | [] => None
    | _ => let m := Z.max 0 (Z.min 3 (to_long t)) in
           let b := fresh_io in
           Some (absorb_io s (Io m (i_dir b) (i_name b) (i_resume b) (i_tol b) (i_clean b) (i_ignore b) (i_uv b)))
    end
  else Some fresh_io.
