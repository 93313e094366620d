(** Blocks that give data, or take data, of any type: GenericInput, GenericOutput (src/iogeneric/GenericInput.cpp, GenericInput.tpp, GenericOutput.cpp, GenericOutput.tpp) and those of fields,
    GenericInputMPVData and GenericOutputMPVData. How values are put in a file and read from it is CsvIo.v's matter: here any functions. Simplified: types are numbers; the settings of
    BaseManipulation are left out; one process but for the end. *)
From Coq Require Import String List Arith NArith ZArith Bool.
From Verif Require Import Text Nastran GeomIo Mpi Share.
Import ListNotations.
Open Scope list_scope.
Open Scope nat_scope.

(** ** Settings and XML, of the four classes: GenericInput.hpp, GenericOutput.hpp *)
Record settings := Settings { s_read : bool; s_csv : bool; s_binary : bool; s_dir : line; s_name : line }.
Inductive class := Input | InputField | Output | OutputField.
Definition dir_key (c : class) : string := match c with Input | InputField => "ReadDir" | Output | OutputField => "WriteDir" end%string.
Definition is_input (c : class) : bool := match c with Input => true | _ => false end.
Definition of_field (c : class) : bool := match c with InputField | OutputField => true | _ => false end.
(** the constructors from XML: GenericInput.cpp 48-66, 278-296; GenericOutput.cpp 46-63, 243-261 *)
Definition fresh (c : class) : settings := Settings false false false (Nastran.chars "./"%string) (Nastran.chars (match c with Input | InputField => "input.txt" | _ => "output.txt" end)%string).
(** an option that is a bool: false when empty *)
Definition bool_option (s : section) (key : string) (old : bool) : bool := match option_of s key with Some l => match trim l with [] => false | t => to_bool false t end | None => old end.
Definition text_option (s : section) (key : string) (old : line) : line := match option_of s key with Some l => trim l | None => old end.
(** absorbSectionXML: GenericInput.cpp 199-241, 415-458; GenericOutput.cpp 174-204, 375-415. In GenericInput the names are taken only if the file is read *)
Definition absorb (c : class) (x : section) (s : settings) : settings :=
  let rd := if is_input c then bool_option x "ReadFromFile"%string (s_read s) else s_read s in
  let named := if is_input c then rd else true in
  Settings rd (bool_option x "CSV"%string (s_csv s)) (if of_field c then bool_option x "Binary"%string (s_binary s) else s_binary s)
    (if named then text_option x (dir_key c) (s_dir s) else s_dir s) (if named then text_option x "Filename"%string (s_name s) else s_name s).
Definition restore (c : class) (x : section) : settings := absorb c x (fresh c).
(** flushSectionXML: GenericInput.cpp 249-259, 465-475; GenericOutput.cpp 212-221, 423-433 *)
Definition flush (c : class) (s : settings) : section :=
  (if is_input c then [("ReadFromFile"%string, show_bool (s_read s))] else []) ++ [("CSV"%string, show_bool (s_csv s)); (dir_key c, s_dir s); ("Filename"%string, s_name s)] ++
  (if of_field c then [("Binary"%string, show_bool (s_binary s))] else []).
(** m_dir+"/"+m_filename *)
Definition path_of (s : settings) : line := s_dir s ++ Nastran.chars "/"%string ++ s_name s.

(** ** Data *)
Section Data.
  Context {V C : Type}.
  (** how a value of a type is read from the content of a file, and written: csv or not, for fields binary or not *)
  Variable parse : nat -> bool -> bool -> C -> V.
  Variable print : nat -> bool -> bool -> V -> C.
  (** IODataT<T>: a type and a value *)
  Definition datum : Type := nat * V.
  Definition disk : Type := line -> option C.
  Inductive res := Ok (v : V) | Throws | UB.

  (** *** GenericInput *)
  Record input := In_ { i_set : settings; i_input : option datum; i_result : option datum }.
  (** the operations on a block, and what happens to files *)
  Inductive op :=
  | SetInput (t : nat) (v : V) | SetResult (t : nat) (v : V) | ClearInput | ClearResult
  | SetReadFromFile (b : bool) | SetCsv (b : bool) | SetFilename (l : line) | SetReadDir (l : line)
  | Get (t : nat) | Files (d : disk).
  (** static_cast<IODataT<T>*>(p.get())->getData(): null, or another type *)
  Definition cast (t : nat) (p : option datum) : res := match p with Some (t', v) => if Nat.eqb t t' then Ok v else UB | None => UB end.
  (** getInput, GenericInput.tpp 230-234, 279-283 *)
  Definition getInput (t : nat) (b : input) : res := cast t (i_input b).
  (** getResult, 321-358 *)
  Definition getResult (t : nat) (d : disk) (b : input) : res * input :=
    if s_read (i_set b) then
      match d (path_of (i_set b)) with
      | None => (Throws, b)
      | Some c => let v := parse t (s_csv (i_set b)) false c in (Ok v, In_ (i_set b) (i_input b) (Some (t, v)))
      end
    else (cast t (i_result b), b).
  Definition with_set (f : settings -> settings) (b : input) : input := In_ (f (i_set b)) (i_input b) (i_result b).
  (** GenericInput.tpp 207-254, 259-305; GenericInput.cpp 122-149, 174-185 *)
  Definition do (o : op) (w : input * disk) : input * disk :=
    let '(b, d) := w in
    match o with
    | SetInput t v => (In_ (i_set b) (Some (t, v)) (Some (t, v)), d)
    | SetResult t v => (In_ (i_set b) (i_input b) (Some (t, v)), d)
    | ClearInput => (In_ (i_set b) None (i_result b), d)
    | ClearResult => (In_ (i_set b) (i_input b) None, d)
    | SetReadFromFile x => (with_set (fun s => Settings x (s_csv s) (s_binary s) (s_dir s) (s_name s)) b, d)
    | SetCsv x => (with_set (fun s => Settings (s_read s) x (s_binary s) (s_dir s) (s_name s)) b, d)
    | SetFilename l => (with_set (fun s => Settings (s_read s) (s_csv s) (s_binary s) (s_dir s) l) b, d)
    | SetReadDir l => (with_set (fun s => Settings (s_read s) (s_csv s) (s_binary s) l (s_name s)) b, d)
    | Get t => (snd (getResult t d b), d)
    | Files d' => (b, d')
    end.
  Definition run (ops : list op) (w : input * disk) : input * disk := fold_left (fun w o => do o w) ops w.
  Definition ask (t : nat) (w : input * disk) : res := fst (getResult t (snd w) (fst w)).
  (** the constructors, GenericInput.cpp 36-42 *)
  Definition new_input (reading csv : bool) : input := In_ (Settings reading csv false (Nastran.chars "./"%string) []) None None.
  (** the copy constructor, 88-94; operator= swaps a copy in, 98-101 *)
  Definition copied (b : input) : input := In_ (i_set b) None None.

  (** *** GenericOutput and GenericOutputMPVData *)
  Record output := Out { o_set : settings; o_input : option datum }.
  (** setInput, GenericOutput.tpp 168-210, 225-275: whether the file can be opened is up to the system. Of fields, csv is stronger than binary, and stays so *)
  Definition setInput (field : bool) (writable : line -> bool) (t : nat) (v : V) (o : output) (d : disk) : output * disk :=
    let s := o_set o in
    let s := if (field && s_csv s)%bool then Settings (s_read s) (s_csv s) false (s_dir s) (s_name s) else s in
    (Out s (Some (t, v)), if writable (path_of s) then fun p => if same p (path_of s) then Some (print t (s_csv s) (field && s_binary s) v) else d p else d).
  (** *** GenericInputMPVData: _getResult, GenericInput.tpp 436-514, without a geometry *)
  Definition getField (t : nat) (d : disk) (b : input) : res * input :=
    let s := i_set b in
    let s := if s_csv s then Settings (s_read s) (s_csv s) false (s_dir s) (s_name s) else s in
    match d (path_of s) with
    | None => (Throws, In_ s (i_input b) (i_result b))
    | Some c => let v := parse t (s_csv s) (s_binary s) c in (Ok v, In_ s (i_input b) (Some (t, v)))
    end.
End Data.
Arguments op : clear implicits.
Arguments input : clear implicits.
Arguments output : clear implicits.
Arguments res : clear implicits.

(** ** Processes *)
(** getResult, GenericInput.tpp 321-358, and _getResult, 436-514, of all processes: process 0 throws before it sends if the file is not open; the others receive *)
Definition share_read (nprocs : nat) (opened : bool) (bytes : list N) (me : nat) : list (Mpi.op word) :=
  if opened then from_zero nprocs [Parcel 100 110 bytes] me
  else if Nat.eqb me 0 then [] else from_zero nprocs [Parcel 100 110 bytes] me.

(** ** Fields in binary files *)
(** flushBINARY of bitpit: the bytes of a number as it is in memory, here the lowest first *)
Fixpoint raw (k : nat) (z : Z) : list N := match k with O => [] | S k => Z.to_N (z mod 256) :: raw k (z / 256)%Z end.
Fixpoint unraw (l : list N) : Z := match l with [] => 0%Z | b :: r => (Z.of_N b + 256 * unraw r)%Z end.
Definition signed (k : nat) (z : Z) : Z := if Z.ltb z (2 ^ (8 * Z.of_nat k - 1)) then z else (z - 2 ^ (8 * Z.of_nat k))%Z.
(** absorbBINARY: the next k bytes; None if there are fewer (the variable keeps its bytes, which are nothing in particular) *)
Definition absorb_raw (k : nat) (l : list N) : option (list N * list N) := if Nat.leb k (length l) then Some (firstn k l, skipn k l) else None.
Section Binary.
  Context {V : Type}.
  Variable width : nat.
  Variable enc : V -> list N.
  Variable dec : list N -> V.
  (** MimmoPiercedVector: a name, a location, values with identifiers *)
  Record field := Field { f_name : list N; f_loc : Z; f_rows : list (Z * V) }.
  (** GenericOutput.tpp 246-258 *)
  Definition write_binary (f : field) : list N :=
    raw 8 (Z.of_nat (length (f_name f))) ++ f_name f ++ raw 4 (f_loc f) ++ raw 8 (Z.of_nat (length (f_rows f))) ++ flat_map (fun e => raw 8 (fst e) ++ enc (snd e)) (f_rows f).
  (** GenericInput.tpp 469-473: for(int i=0; i<nSize; ++i); no identifier twice, or insert throws (None) *)
  Fixpoint read_rows (n : nat) (l : list N) : option (list (Z * V)) :=
    match n with
    | O => Some []
    | S n => match absorb_raw 8 l with None => None | Some (i, l) => match absorb_raw width l with None => None | Some (v, l) =>
        match read_rows n l with None => None | Some r => if existsb (fun e => Z.eqb (fst e) (signed 8 (unraw i))) r then None else Some ((signed 8 (unraw i), dec v) :: r) end end end
    end.
  (** GenericInput.tpp 460-476; the name is made of the name itself, not of what was read (465); int i overflows on more than 2^31 - 1 values (None) *)
  Definition read_binary (l : list N) : option field :=
    match absorb_raw 8 l with None => None | Some (len, l) =>
    match absorb_raw (Z.to_nat (unraw len)) l with None => None | Some (_, l) =>
    match absorb_raw 4 l with None => None | Some (loc, l) =>
    match absorb_raw 8 l with None => None | Some (n, l) =>
      if Z.ltb (2 ^ 31 - 1) (signed 8 (unraw n)) then None else
      match read_rows (Z.to_nat (signed 8 (unraw n))) l with None => None | Some r => Some (Field [] (signed 4 (unraw loc)) r) end end end end end.
End Binary.
Arguments field : clear implicits.
