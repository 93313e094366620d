(** Model of the binary stream operators (src/common/mimmo_binary_stream.{cpp,tpp},
    src/core/MimmoNamespace.cpp 10-38, src/core/MimmoPiercedVector.tpp 26-80,
    src/core/MimmoSharedPointer.tpp 26-55) and of a port execution
    (src/core/InOut.cpp 131-181, src/core/InOut.tpp 122-263, src/core/BaseManipulation.cpp 701-729).

    A byte is an [N] below 256.  A stream position is the list of bytes that follow it.
    bitpit's base class (not in the repository) is taken to copy the bytes of a number
    and to throw when fewer bytes are left than asked for. *)
From Coq Require Import List NArith Bool Arith.
Import ListNotations.
Open Scope nat_scope.

(** The types that have stream operators.
    [TNum w]: a plain number, enum, bool or raw pointer of w bytes, as its bit pattern.
    [TMap]: std::map and std::unordered_map, whose operators are textually the same
    (mimmo_binary_stream.tpp 129-209).
    [TPtr]: MimmoSharedPointer (two raw pointers, MimmoSharedPointer.tpp 32-55; the effect on
    the counters is modelled in SharedPtr.v).
    [TField]: MimmoPiercedVector. *)
Inductive ty : Type :=
| TNum (w : nat)
| TStr
| TVec (t : ty)
| TArr (n : nat) (t : ty)
| TPair (a b : ty)
| TMap (k v : ty)
| TFile
| TPtr
| TField (t : ty).

(** FileDataInfo (MimmoNamespace.hpp): file type, directory and name. *)
Record file_info := { ftype : N; fdir : list N; fname : list N }.

(** MimmoPiercedVector (MimmoPiercedVector.hpp): geometry, name, location and the id/value
    pairs in iteration order. *)
Record field (A : Type) := { f_geo : N * N; f_name : list N; f_loc : N; f_data : list (N * A) }.
Arguments Build_field {A}. Arguments f_geo {A}. Arguments f_name {A}. Arguments f_loc {A}.
Arguments f_data {A}.

(** Values of each type.  A map is its list of entries in iteration order; a new key goes to
    the end (for std::map, whose order is that of the keys, the order is not modelled). *)
Fixpoint den (t : ty) : Type :=
  match t with
  | TNum _ => N
  | TStr => list N
  | TVec t => list (den t)
  | TArr _ t => list (den t)
  | TPair a b => den a * den b
  | TMap k v => list (den k * den v)
  | TFile => file_info
  | TPtr => N * N
  | TField t => field (den t)
  end.

(** A default constructed value (numbers, that C++ leaves undetermined, are 0).
    "data" is the default name (MimmoPiercedVector.tpp 90-96), UNDEFINED the default location. *)
Definition data_name : list N := [100; 97; 116; 97]%N.

Fixpoint dflt (t : ty) : den t :=
  match t with
  | TNum _ => 0%N
  | TStr => []
  | TVec _ => []
  | TArr n t => repeat (dflt t) n
  | TPair a b => (dflt a, dflt b)
  | TMap _ _ => []
  | TFile => {| ftype := 0; fdir := []; fname := [] |}
  | TPtr => (0%N, 0%N)
  | TField _ => {| f_geo := (0%N, 0%N); f_name := data_name; f_loc := 0; f_data := [] |}
  end.

(** Key equality (operator== / equivalence under operator<); exact equality of values. *)
Definition file_dec (x y : file_info) : {x = y} + {x <> y}.
Proof. decide equality; try apply (list_eq_dec N.eq_dec); apply N.eq_dec. Defined.

Definition pair_eq_dec {A B} (da : forall x y : A, {x = y} + {x <> y})
  (db : forall x y : B, {x = y} + {x <> y}) : forall x y : A * B, {x = y} + {x <> y}.
Proof. intros x y. decide equality. Defined.

Definition field_dec {A} (da : forall x y : A, {x = y} + {x <> y}) :
  forall x y : field A, {x = y} + {x <> y}.
Proof.
  intros x y. decide equality.
  - apply (list_eq_dec (pair_eq_dec N.eq_dec da)).
  - apply N.eq_dec.
  - apply (list_eq_dec N.eq_dec).
  - apply (pair_eq_dec N.eq_dec N.eq_dec).
Defined.

Fixpoint den_dec (t : ty) : forall x y : den t, {x = y} + {x <> y} :=
  match t with
  | TNum _ => N.eq_dec
  | TStr => list_eq_dec N.eq_dec
  | TVec t => list_eq_dec (den_dec t)
  | TArr _ t => list_eq_dec (den_dec t)
  | TPair a b => pair_eq_dec (den_dec a) (den_dec b)
  | TMap k v => list_eq_dec (pair_eq_dec (den_dec k) (den_dec v))
  | TFile => file_dec
  | TPtr => pair_eq_dec N.eq_dec N.eq_dec
  | TField t => field_dec (den_dec t)
  end.

(** ** Writing *)

(** The w bytes of a number, least significant first. *)
Fixpoint num_bytes (w : nat) (n : N) : list N :=
  match w with
  | 0 => []
  | S w => (n mod 256)%N :: num_bytes w (n / 256)%N
  end.

(** std::size_t, 8 bytes. *)
Definition size_bytes (n : nat) : list N := num_bytes 8 (N.of_nat n).

Fixpoint write (t : ty) : den t -> list N :=
  match t return den t -> list N with
  | TNum w => num_bytes w
  | TStr => fun s => size_bytes (length s) ++ flat_map (num_bytes 1) s            (* .cpp 66-79 *)
  | TVec t => fun l => size_bytes (length l) ++ flat_map (write t) l              (* .tpp 35-44 *)
  | TArr _ t => fun l => flat_map (write t) l                                      (* .tpp 72-79 *)
  | TPair a b => fun p => write a (fst p) ++ write b (snd p)                       (* .tpp 120-126 *)
  | TMap k v => fun l => size_bytes (length l) ++
                         flat_map (fun e => write k (fst e) ++ write v (snd e)) l  (* .tpp 156-166, 195-205 *)
  | TFile => fun f => num_bytes 4 (ftype f) ++
                      size_bytes (length (fdir f)) ++ flat_map (num_bytes 1) (fdir f) ++
                      size_bytes (length (fname f)) ++ flat_map (num_bytes 1) (fname f)
                                                             (* MimmoNamespace.cpp 31-38 *)
  | TPtr => fun p => num_bytes 8 (fst p) ++ num_bytes 8 (snd p)   (* MimmoSharedPointer.tpp 48-54 *)
  | TField t => fun f => num_bytes 8 (fst (f_geo f)) ++ num_bytes 8 (snd (f_geo f)) ++
                         size_bytes (length (f_name f)) ++ flat_map (num_bytes 1) (f_name f) ++
                         num_bytes 4 (f_loc f) ++
                         size_bytes (length (f_data f)) ++
                         flat_map (fun e => num_bytes 8 (fst e) ++ write t (snd e)) (f_data f)
                                                             (* MimmoPiercedVector.tpp 64-80 *)
  end.

(** ** Reading *)

(** A reader returns the value and the bytes after it; None: the bytes are exhausted (bitpit
    throws) or, for a pierced vector, an id is inserted twice (bitpit throws). *)
Definition reader (A : Type) := list N -> option (A * list N).

Fixpoint read_num (w : nat) : reader N :=
  match w with
  | 0 => fun s => Some (0%N, s)
  | S w => fun s =>
      match s with
      | [] => None
      | b :: s => match read_num w s with
                  | None => None
                  | Some (n, s') => Some ((b + 256 * n)%N, s')
                  end
      end
  end.

(** for (i ..) buffer >> var[i]: each element is read into the existing one. *)
Fixpoint read_each {A} (f : A -> reader A) (l : list A) : reader (list A) :=
  match l with
  | [] => fun s => Some ([], s)
  | d :: l => fun s =>
      match f d s with
      | None => None
      | Some (x, s1) => match read_each f l s1 with
                        | None => None
                        | Some (r, s2) => Some (x :: r, s2)
                        end
      end
  end.

(** std::vector::resize *)
Definition resize {A} (n : nat) (d : A) (l : list A) : list A :=
  firstn n l ++ repeat d (n - length l).

(** var[key] = value *)
Fixpoint upsert {K V} (dec : forall x y : K, {x = y} + {x <> y}) (k : K) (v : V)
  (l : list (K * V)) : list (K * V) :=
  match l with
  | [] => [(k, v)]
  | (k', v') :: r => if dec k' k then (k', v) :: r else (k', v') :: upsert dec k v r
  end.

(** mimmo_binary_stream.tpp 142-146, 181-185: one key and one value variable serve all the
    iterations, so each entry is read into what the previous iteration left there. *)
Fixpoint read_entries {K V} (dec : forall x y : K, {x = y} + {x <> y})
  (fk : K -> reader K) (fv : V -> reader V) (n : nat) (key : K) (val : V)
  (var : list (K * V)) : reader (list (K * V)) :=
  match n with
  | 0 => fun s => Some (var, s)
  | S n => fun s =>
      match fk key s with
      | None => None
      | Some (key, s) =>
          match fv val s with
          | None => None
          | Some (val, s) => read_entries dec fk fv n key val (upsert dec key val var) s
          end
      end
  end.

(** MimmoPiercedVector.tpp 46-52: same with PiercedVector::insert(id, val); after clear() the
    container has no holes, so the new element goes to the end. *)
Fixpoint read_insert {V} (fv : V -> reader V) (n : nat) (val : V) (var : list (N * V)) :
  reader (list (N * V)) :=
  match n with
  | 0 => fun s => Some (var, s)
  | S n => fun s =>
      match read_num 8 s with
      | None => None
      | Some (id, s) =>
          match fv val s with
          | None => None
          | Some (val, s) =>
              if existsb (fun e => N.eqb (fst e) id) var then None
              else read_insert fv n val (var ++ [(id, val)]) s
          end
      end
  end.

(** std::string, mimmo_binary_stream.cpp 87-106: a fresh vector of characters. *)
Definition read_string : reader (list N) := fun s =>
  match read_num 8 s with
  | None => None
  | Some (n, s) => read_each (fun _ => read_num 1) (repeat 0%N (N.to_nat n)) s
  end.

(** operator>>: [read t d] reads into a variable holding d. *)
Fixpoint read (t : ty) : den t -> reader (den t) :=
  match t return den t -> reader (den t) with
  | TNum w => fun _ => read_num w
  | TStr => fun _ => read_string
  | TVec t => fun d s =>                                                  (* .tpp 53-63 *)
      match read_num 8 s with
      | None => None
      | Some (n, s) => read_each (read t) (resize (N.to_nat n) (dflt t) d) s
      end
  | TArr n t => fun d s =>                      (* .tpp 88-95; an array has exactly n elements *)
      read_each (read t) (resize n (dflt t) d) s
  | TPair a b => fun _ s =>                                               (* .tpp 103-112 *)
      match read a (dflt a) s with
      | None => None
      | Some (x, s) => match read b (dflt b) s with
                       | None => None
                       | Some (y, s) => Some ((x, y), s)
                       end
      end
  | TMap k v => fun d s =>                                                (* .tpp 135-148, 174-187 *)
      match read_num 8 s with
      | None => None
      | Some (n, s) =>
          read_entries (den_dec k) (read k) (read v) (N.to_nat n) (dflt k) (dflt v) d s
      end
  | TFile => fun _ s =>                                                   (* MimmoNamespace.cpp 16-23 *)
      match read_num 4 s with
      | None => None
      | Some (ft, s) => match read_string s with
                        | None => None
                        | Some (fd, s) => match read_string s with
                                          | None => None
                                          | Some (fn, s) => Some ({| ftype := ft; fdir := fd; fname := fn |}, s)
                                          end
                        end
      end
  | TPtr => fun _ s =>                                                    (* MimmoSharedPointer.tpp 32-40 *)
      match read_num 8 s with
      | None => None
      | Some (o, s) => match read_num 8 s with
                       | None => None
                       | Some (c, s) => Some ((o, c), s)
                       end
      end
  | TField t => fun _ s =>                                                (* MimmoPiercedVector.tpp 32-57 *)
      match read_num 8 s with
      | None => None
      | Some (o, s) =>
      match read_num 8 s with
      | None => None
      | Some (c, s) =>
      match read_string s with
      | None => None
      | Some (name, s) =>
      match read_num 4 s with
      | None => None
      | Some (loc, s) =>
      match read_num 8 s with
      | None => None
      | Some (n, s) =>
      match read_insert (read t) (N.to_nat n) (dflt t) [] s with
      | None => None
      | Some (l, s) => Some ({| f_geo := (o, c); f_name := name; f_loc := loc; f_data := l |}, s)
      end end end end end end
  end.

(** ** Ports *)

(** What an output port sends: the result of the getter if there is one, otherwise the bound
    variable, otherwise nothing (InOut.tpp 126-138).  [getv]/[var] are the values at that time. *)
Record source (A : Type) := { getv : option A; var : option A }.
Arguments Build_source {A}. Arguments getv {A}. Arguments var {A}.

(** OBinaryStream: bytes are overwritten from the current position, the buffer grows when
    needed ([pad]: bytes added beyond the need by the growth policy of bitpit), nothing is
    ever cut off.  The position is 0 when the port is idle (InOut.cpp 136-139). *)
Definition overwrite (buf data pad : list N) : list N := data ++ skipn (length data) (buf ++ pad).

(** writeBuffer, InOut.tpp 126-138 *)
Definition write_buffer (t : ty) (src : source (den t)) (pad buf : list N) : list N :=
  match getv src with
  | Some v => overwrite buf (write t v) pad
  | None => match var src with
            | Some v => overwrite buf (write t v) pad
            | None => buf
            end
  end.

(** A delivery: the receiving block, its port and the value handed to the setter (or stored in
    the bound variable) by readBuffer, InOut.tpp 250-263, which reads into a fresh T. *)
Definition delivery (t : ty) := (nat * nat * den t)%type.

(** PortOut::exec, InOut.cpp 166-181.  A link is a block (None: nullptr) and a port of it;
    setBufferIn copies the stream, so every receiver reads from the start
    (BaseManipulation.cpp 706-728).  Returns the deliveries and the new content of the buffer. *)
Fixpoint deliver (t : ty) (links : list (option nat * nat)) (bytes : list N) :
  option (list (delivery t)) :=
  match links with
  | [] => Some []
  | (None, _) :: r => deliver t r bytes
  | (Some o, p) :: r =>
      match read t (dflt t) bytes with
      | None => None
      | Some (x, _) => match deliver t r bytes with
                       | None => None
                       | Some l => Some ((o, p, x) :: l)
                       end
      end
  end.

Definition port_exec (t : ty) (links : list (option nat * nat)) (src : source (den t))
  (pad buf : list N) : option (list (delivery t) * list N) :=
  match links with
  | [] => Some ([], buf)
  | _ => let buf' := write_buffer t src pad buf in
         match deliver t links buf' with
         | None => None
         | Some l => Some (l, buf')
         end
  end.

(** One execution of a port in a history: the links and the source at that time. *)
Record sending (t : ty) := { s_links : list (option nat * nat); s_src : source (den t);
                             s_pad : list N }.
Arguments Build_sending {t}. Arguments s_links {t}. Arguments s_src {t}. Arguments s_pad {t}.

(** The successive executions of a port, starting with an arbitrary buffer. *)
Fixpoint port_history (t : ty) (h : list (sending t)) (buf : list N) :
  option (list (list (delivery t))) :=
  match h with
  | [] => Some []
  | x :: h =>
      match port_exec t (s_links x) (s_src x) (s_pad x) buf with
      | None => None
      | Some (l, buf') => match port_history t h buf' with
                          | None => None
                          | Some r => Some (l :: r)
                          end
      end
  end.

(** The data types of the ports created in src/ (template arguments of PortIn< > and PortOut< >
    in all the buildPorts functions). *)
Definition t_double := TNum 8.
Definition t_int := TNum 4.
Definition t_long := TNum 8.
Definition t_bool := TNum 1.
Definition t_rawptr := TNum 8.   (* dmpvector1D*, dmpvecarr3E*, MimmoPiercedVector<..>*, BasicShape*, dmat33Evec*, BCCGNS*, WavefrontOBJData* *)
Definition t_enum := TNum 4.     (* ShapeType, CoordType (customised operators cast to int) *)
Definition port_types : list ty :=
  [ TPtr; TVec TPtr;                                   (* MimmoSharedPointer<MimmoObject>, vector of *)
    TArr 3 t_double; TArr 4 t_double; TArr 3 t_int;    (* darray3E, darray4E, iarray3E *)
    TArr 3 (TArr 3 t_double); TArr 3 (TArr 3 t_int);   (* dmatrix33E, umatrix33E *)
    TVec (TArr 3 t_double); TVec t_double; TVec t_long;(* dvecarr3E, dvector1D, livector1D *)
    t_double; t_int; t_long; t_bool;
    TMap t_long t_long; TMap t_long t_int;             (* unordered_map<long,long>, <long,int> *)
    t_enum; TArr 3 t_enum; t_rawptr; TVec t_rawptr; TStr ].
