(** Model of the boundary conditions of CGNS meshes as they are kept in streams and given to the processes
    (src/iocgns/IOCGNS.cpp, communicateAllProcsStoredBC 1932-2003, BCCGNS::dump 2011-2066, BCCGNS::restore 2072-2138;
    src/iocgns/IOCGNS.hpp 52-56, 68-75; src/common/mimmo_binary_stream.tpp 174-205).

    A stream is a list of items: numbers of four bytes, sizes of eight, strings.  The messages of MPI
    arrive whole and in order, as they are sent with different tags. *)
From Coq Require Import String.
From Coq Require Import List ZArith Bool.
Import ListNotations.
Open Scope list_scope.
Local Open Scope Z_scope.

Inductive item := I4 (z : Z) | I8 (n : nat) | Str (s : string).

(** std::map: elements in the order of their keys *)
Section Maps.
  Variable V : Type.
  Definition zmap := list (Z * V).
  (** var[key] = value *)
  Fixpoint put (k : Z) (v : V) (m : zmap) : zmap :=
    match m with
    | [] => [(k, v)]
    | (k', v') :: m' => if Z.ltb k k' then (k, v) :: m else if Z.eqb k k' then (k, v) :: m' else (k', v') :: put k v m'
    end.
  (** insert: an element with the key in use stays *)
  Definition insert_new (k : Z) (v : V) (m : zmap) : zmap := if existsb (fun e => Z.eqb (fst e) k) m then m else put k v m.

  Variable write : V -> list item.
  Variable read : list item -> option (V * list item).
  (** operator<<, 195-205 *)
  Definition write_items (m : zmap) : list item := flat_map (fun e => I4 (fst e) :: write (snd e)) m.
  Definition write_map (m : zmap) : list item := I8 (length m) :: write_items m.
  (** the elements read one after the other *)
  Fixpoint read_items (add : Z -> V -> zmap -> zmap) (n : nat) (s : list item) (m : zmap) : option (zmap * list item) :=
    match n with
    | O => Some (m, s)
    | S n =>
        match s with
        | I4 k :: s => match read s with Some (v, s) => read_items add n s (add k v m) | None => None end
        | _ => None
        end
    end.
  (** operator>>, 174-187, on what the map has *)
  Definition read_map (s : list item) (m : zmap) : option (zmap * list item) :=
    match s with I8 n :: s => read_items put n s m | _ => None end.
  (** the blocks of dump and restore: the size is an int *)
  Definition dump_map (m : zmap) : list item := I4 (Z.of_nat (length m)) :: write_items m.
  Definition restore_map (s : list item) (m : zmap) : option (zmap * list item) :=
    match s with I4 n :: s => read_items insert_new (Z.to_nat n) s m | _ => None end.
End Maps.
Arguments put {V}. Arguments insert_new {V}. Arguments write_map {V}. Arguments read_map {V}. Arguments dump_map {V}. Arguments restore_map {V}.
Arguments write_items {V}. Arguments read_items {V}.

(** int, the enumerations, string, vector of int *)
Definition write_int (z : Z) : list item := [I4 z].
Definition read_int (s : list item) : option (Z * list item) := match s with I4 z :: s => Some (z, s) | _ => None end.
Definition write_string (x : string) : list item := [Str x].
Definition read_string (s : list item) : option (string * list item) := match s with Str x :: s => Some (x, s) | _ => None end.
Definition write_vector (l : list Z) : list item := I8 (length l) :: map I4 l.
Fixpoint read_ints (n : nat) (s : list item) : option (list Z * list item) :=
  match n with
  | O => Some ([], s)
  | S n => match s with I4 z :: s => match read_ints n s with Some (l, s) => Some (z :: l, s) | None => None end | _ => None end
  end.
Definition read_vector (s : list item) : option (list Z * list item) := match s with I8 n :: s => read_ints n s | _ => None end.

(** BCCGNS, IOCGNS.hpp 52-56 *)
Record bccgns := BC {
  pidtobc : zmap Z;
  zonetobndpid : zmap (list Z);
  pidtolisttype : zmap Z;
  bcpidnames : zmap string;
  zonepidnames : zmap string }.
(** clear, IOCGNS.hpp 68-75 *)
Definition clear (b : bccgns) : bccgns := BC [] [] [] [] [].

(** BCCGNS::dump, 2011-2066 *)
Definition dump (b : bccgns) : list item :=
  dump_map write_int (pidtobc b) ++ dump_map write_vector (zonetobndpid b) ++ dump_map write_int (pidtolisttype b) ++
  dump_map write_string (bcpidnames b) ++ dump_map write_string (zonepidnames b).
(** BCCGNS::restore, 2072-2138; [None]: the stream is not one of these *)
Definition restore (b : bccgns) (s : list item) : option (bccgns * list item) :=
  let b := clear b in
  match restore_map read_int s (pidtobc b) with
  | Some (m1, s) =>
      match restore_map read_vector s (zonetobndpid b) with
      | Some (m2, s) =>
          match restore_map read_int s (pidtolisttype b) with
          | Some (m3, s) =>
              match restore_map read_string s (bcpidnames b) with
              | Some (m4, s) =>
                  match restore_map read_string s (zonepidnames b) with
                  | Some (m5, s) => Some (BC m1 m2 m3 m4 m5, s)
                  | None => None
                  end
              | None => None
              end
          | None => None
          end
      | None => None
      end
  | None => None
  end.

(** communicateAllProcsStoredBC, 1932-2003: what a process has afterwards, process 0 having [b] *)
Definition received {V} (read : list item -> option (V * list item)) (s : list item) (m : zmap V) : zmap V :=
  match read_map read s m with Some (m, _) => m | None => m end.
Definition communicateAllProcsStoredBC (rank : nat) (b : bccgns) : bccgns :=
  match rank with
  | O => b
  | S _ =>
      let n := clear b in
      let bc := received read_int (write_map write_int (pidtobc b)) (pidtobc n) in
      let zones := received read_vector (write_map write_vector (zonetobndpid b)) (zonetobndpid n) in
      (** 1988: the third buffer goes in the map of the first *)
      let bc := received read_int (write_map write_int (pidtolisttype b)) bc in
      let names := received read_string (write_map write_string (bcpidnames b)) (bcpidnames n) in
      let znames := received read_string (write_map write_string (zonepidnames b)) (zonepidnames n) in
      BC bc zones (pidtolisttype n) names znames
  end.
