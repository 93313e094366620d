(** Model of the files of labelled displacements (GenericDispls, src/iogeneric/GenericDispls.cpp 383-515)
    and of clouds of points with their fields (IOCloudPoints, src/iogeneric/IOCloudPoints.cpp 391-600).

    The files are the lists of characters written; opening a file never fails.  The broadcast of the
    displacements to the other processes is not modelled. *)
From Coq Require Import List NArith ZArith Bool.
From Verif Require Import Text.
Import ListNotations.

Definition point : Type := dec * dec * dec.
Definition zero_num : dec := (0, 0)%Z.
Definition zero_point : point := (zero_num, zero_num, zero_num).

(** ** Lines *)
(** the lines given by std::getline until the end is met (the last has no end of line) *)
Fixpoint lines (l : list N) : list (list N) :=
  match l with
  | [] => [[]]
  | c :: r => if N.eqb c c_line then [] :: lines r
              else match lines r with [] => [[c]] | h :: t => (c :: h) :: t end
  end.
(** bitpit::utils::string::trim *)
Definition trim (l : list N) : list N := rev (skip_space (rev (skip_space l))).
(** std::stringstream ss(line); ss >> keyword *)
Definition keyword (line : list N) : list N * stream :=
  match get_word (opened (trim line)) with (Some w, s) => (w, s) | (None, s) => ([], s) end.
Definition same_word (a b : list N) : bool := if list_eq_dec N.eq_dec a b then true else false.
(** ss >> x: a value that cannot be read is zero, unless nothing was left to read (attempted, Text.v) *)
Definition into {A : Type} (get : stream -> option A * stream) (zero old : A) (s : stream) : A * stream :=
  match get s with (Some x, s') => (x, s') | (None, s') => (if attempted s then zero else old, s') end.
Definition into_int : Z -> stream -> Z * stream := into get_int 0%Z.
Definition into_num : dec -> stream -> dec * stream := into get_num zero_num.
(** dtrial.fill(0.0); ss >> dtrial[0] >> dtrial[1] >> dtrial[2] *)
Definition into_point (s : stream) : point :=
  let (x, s1) := into_num zero_num s in let (y, s2) := into_num zero_num s1 in let (z, s3) := into_num zero_num s2 in (x, y, z).

(** "$DISPL", "$POINT", "$SCALARF", "$VECTORF" *)
Definition k_displ : list N := [36; 68; 73; 83; 80; 76]%N.
Definition k_point : list N := [36; 80; 79; 73; 78; 84]%N.
Definition k_scalar : list N := [36; 83; 67; 65; 76; 65; 82; 70]%N.
Definition k_vector : list N := [36; 86; 69; 67; 84; 79; 82; 70]%N.
(** writing << key << '\t' << label << '\t' << ...; the digits are those of a new stream *)
Definition row (key : list N) (label : Z) (vals : list (list N)) : list N := key ++ c_tab :: show_int label ++ flat_map (fun v => c_tab :: v) vals.
Definition out : dec -> list N := show_num 6.
Definition out_point (p : point) : list (list N) := let '(x, y, z) := p in [out x; out y; out z].
(** "{x" + label + "}" *)
Definition token (c : N) (label : Z) : list N := 123%N :: c :: show_int label ++ [125%N].
Definition tokens (label : Z) : list (list N) := [token 120 label; token 121 label; token 122 label].
(** std::endl *)
Definition text (rows : list (list N)) : list N := flat_map (fun r => r ++ [c_line]) rows.

(** ** Labelled points *)
(** the loops GenericDispls.cpp 403-423 and IOCloudPoints.cpp 419-436; [label] is the variable declared
    before the loop *)
Definition take_point (key : list N) (st : Z * list (Z * point)) (line : list N) : Z * list (Z * point) :=
  let (kw, s) := keyword line in
  if same_word kw key then
    let (label, s1) := into_int (fst st) s in (label, snd st ++ [(label, into_point s1)])
  else st.
Definition take_points (key : list N) (file : list N) (junk : Z) : list (Z * point) := snd (fold_left (take_point key) (lines file) (junk, [])).

(** ** GenericDispls *)
(** read, 383-446: m_labels and m_displ *)
Definition read_displs (file : list N) (junk : Z) : list Z * list point :=
  let l := take_points k_displ file junk in (map fst l, map snd l).
(** write, 460-473: the labels *)
Definition max_label (labels : list Z) : Z := fold_left Z.max labels 0%Z.
Definition complete_labels (labels : list Z) (n : nat) : list Z :=
  firstn n labels ++ map (fun i => (max_label labels + 1 + Z.of_nat i)%Z) (seq 0 (n - length labels)).
(** write, 475-505: the name of the file (computed but not used when a template is written) and its
    content *)
Definition write_displs (template : bool) (filename : list N) (labels : list Z) (displs : list point) : list N * list N :=
  (filename,
   text (map (fun e => row k_displ (fst e) (if template then tokens (fst e) else out_point (snd e))) (combine (complete_labels labels (length displs)) displs))).

(** ** IOCloudPoints *)
(** what a process has: the vertices of the geometry and two fields *)
Record part := Part { pts : list (Z * point); sc : list (Z * dec); vc : list (Z * point) }.
Definition has {A : Type} (id : Z) (l : list (Z * A)) : bool := existsb (fun e => Z.eqb (fst e) id) l.
Fixpoint value_of {A : Type} (id : Z) (l : list (Z * A)) : option A :=
  match l with [] => None | (i, x) :: r => if Z.eqb i id then Some x else value_of id r end.
(** if(!field.empty()) field.completeMissingData(zero), 519-520; MimmoPiercedVector.tpp 567-579 *)
Definition completed {A B : Type} (zero : A) (verts : list (Z * B)) (f : list (Z * A)) : list (Z * A) :=
  match f with
  | [] => []
  | _ => if forallb (fun e => has (fst e) verts) f then f ++ map (fun e => (fst e, zero)) (filter (fun e => negb (has (fst e) f)) verts) else f
  end.
(** the lines of a process, 549-584 *)
Definition field_rows {A : Type} (key : list N) (template : bool) (tok : Z -> list (list N)) (show : A -> list (list N)) (verts : list (Z * point)) (f : list (Z * A)) : list (list N) :=
  flat_map (fun e => if template then [row key (fst e) (tok (fst e))]
                     else match value_of (fst e) f with None => [] | Some v => [row key (fst e) (show v)] end) verts.
Definition cloud_rows (template : bool) (p : part) : list (list N) :=
  map (fun e => row k_point (fst e) (out_point (snd e))) (pts p) ++ [[]] ++
  field_rows k_scalar template (fun l => [token 115 l]) (fun v => [out v]) (pts p) (completed zero_num (pts p) (sc p)) ++ [[]] ++
  field_rows k_vector template tokens out_point (pts p) (completed zero_point (pts p) (vc p)) ++ [[]].
(** write, 509-600: the processes write one after the other *)
Definition write_cloud (template : bool) (parts : list part) : list N := text (flat_map (cloud_rows template) parts).

(** mapP, 438-442: the position of the last line with the label; mapP[label] of a label that is not there is 0 *)
Fixpoint position (labels : list Z) (i found : Z) (label : Z) : Z :=
  match labels with [] => found | l :: r => position r (i + 1) (if Z.eqb l label then i else found) label end.
Definition mapP (labels : list Z) (label : Z) : Z := position labels 0 0 label.
(** a new entry of a field; None: the id is already there, an error *)
Definition insert_id {A : Type} (l : list (Z * A)) (id : Z) (v : A) : option (list (Z * A)) := if has id l then None else Some (l ++ [(id, v)]).
(** the loop 450-471 *)
Record state := Now { n_label : Z; n_temp : dec; n_sc : list (Z * dec); n_vc : list (Z * point) }.
Definition take_value (labels : list Z) (st : option state) (line : list N) : option state :=
  match st with
  | None => None
  | Some st =>
      let (kw, s) := keyword line in
      if same_word kw k_scalar then
        let (label, s1) := into_int (n_label st) s in
        let (temp, s2) := into_num (n_temp st) s1 in
        match insert_id (n_sc st) (mapP labels label) temp with None => None | Some l => Some (Now label temp l (n_vc st)) end
      else if same_word kw k_vector then
        let (label, s1) := into_int (n_label st) s in
        match insert_id (n_vc st) (mapP labels label) (into_point s1) with None => None | Some l => Some (Now label (n_temp st) (n_sc st) l) end
      else Some st
  end.
(** the vertices of the new geometry, 486-492: a label that is there already is skipped (MimmoObject.cpp 2122) *)
Definition add_vertices (l : list (Z * point)) : list (Z * point) := fold_left (fun g e => if has (fst e) g then g else g ++ [e]) l [].
(** read, 391-504; [junk] [junk_temp]: what the variables hold *)
Definition read_cloud (file : list N) (junk : Z) (junk_temp : dec) : option part :=
  let (label, l) := fold_left (take_point k_point) (lines file) (junk, []) in
  match fold_left (take_value (map fst l)) (lines file) (Some (Now label junk_temp [] [])) with
  | None => None
  | Some st => Some (Part (add_vertices l) (n_sc st) (n_vc st))
  end.
