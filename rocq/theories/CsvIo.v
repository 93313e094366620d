(** Model of the comma separated files of GenericOutput / GenericInput and GenericOutputMPVData /
    GenericInputMPVData (src/iogeneric/GenericOutput.tpp 27-160, src/iogeneric/GenericInput.tpp 27-200)
    and of the binary and text files of the fields (GenericOutput.tpp 228-272, GenericInput.tpp 460-525).

    The types are those of a scalar: an integer, a double or a string.  What a variable holds before it
    is given a value is a parameter ([junk]). *)
From Coq Require Import List NArith ZArith Bool.
From Verif Require Import Text Stream.
Import ListNotations.

(** ** Writing *)
Section Write.
  Context {T : Type}.
  (** out << x *)
  Variable show : T -> list N.
  (** ofstreamcsv, GenericOutput.tpp 36-41, and ofstreamcsvend, 50-56, of a scalar *)
  Definition csv_put (x : T) : list N := show x ++ [c_comma].
  Definition csv_put_end (x : T) : list N := show x ++ [c_line].
  (** ofstreamcsv of a vector, 64-77, and of an array, 98-109 (d elements) *)
  Fixpoint csv_list (l : list T) : list N :=
    match l with [] => [] | [x] => csv_put_end x | x :: r => csv_put x ++ csv_list r end.
End Write.

(** a field: name, location, values by id *)
Record mpv (A : Type) := Mpv { v_name : list N; v_loc : Z; v_data : list (Z * A) }.
Arguments Mpv {A}. Arguments v_name {A}. Arguments v_loc {A}. Arguments v_data {A}.
(** ofstreamcsv of a field, 134-152; [put_end] is that of a value *)
Definition csv_field {A : Type} (put_end : A -> list N) (f : mpv A) : list N :=
  match v_data f with
  | [] => []
  | l => v_name f ++ [c_line] ++ show_int (v_loc f) ++ [c_line] ++ show_int (Z.of_nat (length l)) ++ [c_line] ++
         flat_map (fun e => csv_put show_int (fst e) ++ put_end (snd e)) l
  end.

(** ** Reading *)
Section Read.
  Context {T : Type}.
  (** in >> x *)
  Variable get : stream -> option T * stream.
  (** ifstreamcsv of a scalar, GenericInput.tpp 35-44: the value, if any, and the stream *)
  Definition csv_get (s : stream) (x : T) : stream * T :=
    if good s then
      match get s with
      | (Some d, s1) => match get_char s1 with (Some _, s2) => (s2, d) | (None, s2) => (s2, x) end
      | (None, s1) => (s1, x)
      end
    else (s, x).
  (** ifstreamcsvend of a scalar, 52-60 *)
  Definition csv_get_end (s : stream) (x : T) : stream * T :=
    if good s then match get s with (Some d, s1) => (s1, d) | (None, s1) => (s1, x) end else (s, x).
  (** ifstreamcsv of a vector, 68-78; each turn takes characters or fails *)
  Fixpoint csv_vector (fuel : nat) (s : stream) (dummy : T) (acc : list T) : stream * list T :=
    match fuel with
    | O => (s, acc)
    | S f => if good s then
               let (s1, d) := csv_get s dummy in
               csv_vector f s1 d (if failed s1 then acc else acc ++ [d])
             else (s, acc)
    end.
  Definition read_vector (text : list N) (junk : T) (x : list T) : list T := snd (csv_vector (S (length text)) (opened text) junk x).
  (** ifstreamcsv of an array, 99-114: [i] turns left before the last element *)
  Fixpoint set_nth (i : nat) (d : T) (l : list T) : list T :=
    match l, i with [], _ => [] | _ :: r, O => d :: r | a :: r, S i => a :: set_nth i d r end.
  Fixpoint csv_array_loop (n i : nat) (s : stream) (dummy : T) (x : list T) : nat * stream * T * list T :=
    match n with
    | O => (i, s, dummy, x)
    | S n => if good s then
               let (s1, d) := csv_get s dummy in
               csv_array_loop n (S i) s1 d (if failed s1 then x else set_nth i d x)
             else (i, s, dummy, x)
    end.
  Definition csv_array (zero : T) (s : stream) (x : list T) : stream * list T :=
    let '(i, s1, d, y) := csv_array_loop (length x - 1) 0 s zero x in
    let (s2, e) := csv_get_end s1 d in
    (s2, if failed s2 then y else set_nth i e y).
End Read.

(** ifstreamcsv of a field, 133-159 and 168-199.  [get_end] reads a value into a variable.  The names of
    a new field are "data" and UNDEFINED.  intIsValidLocation is always true (MimmoPiercedVector.tpp
    518-520).  None: an error (a negative size given to reserve, an id inserted twice). *)
Definition insert_new_id {A : Type} (l : list (Z * A)) (id : Z) (v : A) : option (list (Z * A)) :=
  if existsb (fun e => Z.eqb (fst e) id) l then None else Some (l ++ [(id, v)]).
Fixpoint csv_entries {A : Type} (get_end : stream -> A -> stream * A) (n : nat) (s : stream) (id : Z) (v : A) (l : list (Z * A)) : option (list (Z * A)) :=
  match n with
  | O => Some l
  | S n => let (s1, id) := csv_get get_int s id in
           let (s2, v) := get_end s1 v in
           match insert_new_id l id v with None => None | Some l => csv_entries get_end n s2 id v l end
  end.
Definition read_field {A : Type} (get_end : stream -> A -> stream * A) (text : list N) (junk_id : Z) (junk : A) : option (mpv A) :=
  let (s1, name) := csv_get_end get_word (opened text) data_name in
  let name := if failed s1 then data_name else name in
  let (s2, loc) := csv_get_end get_int s1 0%Z in
  let loc := if failed s2 then 0%Z else loc in
  let (s3, size) := csv_get_end get_int s2 0%Z in
  let size := if failed s3 then 0%Z else size in
  if Z.ltb size 0 then None
  else match csv_entries get_end (Z.to_nat size) s3 junk_id junk [] with
       | None => None
       | Some l => Some (Mpv name loc l)
       end.

(** ** GenericOutput and GenericInput of a vector, an array, a scalar (comma separated files) *)
Definition out_double : dec -> list N := show_num 6.
Definition write_scalar {T : Type} (show : T -> list N) (x : T) : list N := csv_put show x.
Definition read_scalar {T : Type} (get : stream -> option T * stream) (text : list N) (old : T) : T := snd (csv_get get (opened text) old).
Definition read_array {T : Type} (get : stream -> option T * stream) (zero : T) (text : list N) (old : list T) : list T := snd (csv_array get zero (opened text) old).

(** ** Fields in binary files *)
(** GenericOutput.tpp 244-257: the number of characters of the name, the characters, the location, the
    number of entries, the entries; flushBINARY (bitpit) copies the bytes *)
Definition write_binary (t : ty) (f : field (den t)) : list N :=
  size_bytes (length (f_name f)) ++ flat_map (num_bytes 1) (f_name f) ++ num_bytes 4 (f_loc f) ++ size_bytes (length (f_data f)) ++
  flat_map (fun e => num_bytes 8 (fst e) ++ write t (snd e)) (f_data f).
(** GenericInput.tpp 480-497: the name is built from the characters of the empty string [name], not from
    those read; setDataLocation(int), MimmoPiercedVector.tpp 335-339 *)
Definition set_loc (n : N) : N := if N.leb n 3 then n else 0%N.
Definition read_binary (t : ty) (file : list N) : option (field (den t)) :=
  match read_num 8 file with
  | None => None
  | Some (n, s) =>
  match read_each (fun _ => read_num 1) (repeat 0%N (N.to_nat n)) s with
  | None => None
  | Some (chars, s) =>
  let name := @nil N in
  match read_num 4 s with
  | None => None
  | Some (loc, s) =>
  match read_num 8 s with
  | None => None
  | Some (n, s) =>
  match read_insert (read t) (N.to_nat n) (dflt t) [] s with
  | None => None
  | Some (l, s) => Some (Build_field (0%N, 0%N) (snd (chars, name)) (set_loc loc) l)
  end end end end end.

(** ** Fields in text files *)
(** GenericOutput.tpp 260-271; flushASCII (bitpit) writes the value and a space *)
Definition flush_ascii (text : list N) : list N := text ++ [c_space].
Definition write_ascii {A : Type} (show : A -> list N) (f : mpv A) : list N :=
  flush_ascii (v_name f) ++ flush_ascii (show_int (v_loc f)) ++ [c_line] ++ flush_ascii (show_int (Z.of_nat (length (v_data f)))) ++ [c_line] ++
  flat_map (fun e => flush_ascii (show_int (fst e)) ++ flush_ascii (show (snd e)) ++ [c_line]) (v_data f).
(** GenericInput.tpp 501-513; absorbASCII (bitpit) is in >> value; an integer that cannot be read is 0
    when something was left to read, unchanged otherwise *)
Definition absorb_int (s : stream) (old : Z) : stream * Z := match get_int s with (Some z, s') => (s', z) | (None, s') => (s', if attempted s then 0%Z else old) end.
Fixpoint ascii_entries {A : Type} (absorb : stream -> A -> stream * A) (n : nat) (s : stream) (id : Z) (v : A) (l : list (Z * A)) : option (list (Z * A)) :=
  match n with
  | O => Some l
  | S n => let (s1, id) := absorb_int s id in
           let (s2, v) := absorb s1 v in
           match insert_new_id l id v with None => None | Some l => ascii_entries absorb n s2 id v l end
  end.
Definition set_loc_int (z : Z) : Z := if Z.leb 0 z && Z.leb z 3 then z else 0%Z.
Definition read_ascii {A : Type} (absorb : stream -> A -> stream * A) (text : list N) (junk_loc junk_id : Z) (junk : A) : option (mpv A) :=
  let (name, s1) := match get_word (opened text) with (Some w, s) => (w, s) | (None, s) => ([], s) end in
  let (s2, loc) := absorb_int s1 junk_loc in
  let (s3, size) := absorb_int s2 0%Z in
  let size := if good s3 then size else 0%Z in
  if Z.ltb size 0 then None
  else match ascii_entries absorb (Z.to_nat size) s3 junk_id junk [] with
       | None => None
       | Some l => Some (Mpv name (set_loc_int loc) l)
       end.
