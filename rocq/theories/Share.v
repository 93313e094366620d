(** Model of the data that processes share through messages: the data read by process 0 and sent to
    the others (src/iogeneric/GenericInput.tpp 365-391 and 528-556), the data gathered by process 0
    before writing (src/iogeneric/GenericOutput.tpp 278-323), the boundary conditions of a CGNS file
    (src/iocgns/IOCGNS.cpp 1929-2001) and the nodes of an RBF block (src/manipulators/MRBF.cpp
    1290-1439).  The calls are those of Mpi.v; the bytes are those of Stream.v. *)
From Coq Require Import List Arith NArith Bool.
From Verif Require Import Mpi Stream.
Import ListNotations.
Open Scope nat_scope.

(** MPI_LONG or MPI_CHAR *)
Inductive word := WSize (n : nat) | WChar (b : N).
Definition chars (b : list N) : list word := map WChar b.
Definition char_of (w : word) : N := match w with WChar b => b | WSize _ => 0%N end.

(** a buffer to send, with the tags of its size and of its content *)
Record parcel := Parcel { p_size : nat; p_content : nat; p_bytes : list N }.
(** MPI_Send(&size, 1, MPI_LONG, dst, tag); MPI_Send(buffer.data(), buffer.getSize(), MPI_CHAR, dst, tag') *)
Definition post (dst : nat) (ps : list parcel) : list (op word) :=
  flat_map (fun p => [Send dst (p_size p) (fun _ => [WSize (length (p_bytes p))]); Send dst (p_content p) (fun _ => chars (p_bytes p))]) ps.
(** the size just received *)
Fixpoint last_size (log : list (rcv word)) : nat :=
  match log with
  | [] => 0
  | [(_, _, [WSize n])] => n
  | _ :: r => last_size r
  end.
(** MPI_Recv(&size, 1, MPI_LONG, src, tag); IBinaryStream buffer(size);
    MPI_Recv(buffer.data(), buffer.getSize(), MPI_CHAR, src, tag') *)
Definition fetch (src : nat) (tags : list (nat * nat)) : list (op word) :=
  flat_map (fun t => [Recv src (fst t) (fun _ => 1); Recv src (snd t) last_size]) tags.
(** the buffers of a process, in the order of the receives: each has the size announced *)
Definition buffer (size : list word) (content : list word) : list N :=
  match size with [WSize n] => map char_of content ++ repeat 0%N (n - length content) | _ => [] end.
Fixpoint buffers (log : list (rcv word)) : list (list N) :=
  match log with
  | (_, _, size) :: (_, _, content) :: r => buffer size content :: buffers r
  | _ => []
  end.

Section Processes.
  (** m_nprocs *)
  Variable nprocs : nat.

  (** ** What process 0 has read is sent to the others *)
  (** sendReadDataToAllProcs, GenericInput.tpp 365-391 (any type) and 528-556 (fields); with one buffer.
      communicateAllProcsStoredBC, IOCGNS.cpp 1932-2001: with five. *)
  Definition from_zero (ps : list parcel) (me : nat) : list (op word) :=
    if Nat.eqb me 0 then flat_map (fun r => post r ps) (seq 1 (nprocs - 1))
    else if Nat.ltb me nprocs then fetch 0 (map (fun p => (p_size p, p_content p)) ps) else [].
  Definition sendReadDataToAllProcs (t : ty) (x : den t) : nat -> list (op word) := from_zero [Parcel 100 110 (write t x)].
  (** dataTC after the call (None: an error while reading the buffer); the variable of the other
      processes is new, GenericInput.tpp 322 and 464 *)
  Definition data_read (t : ty) (x : den t) (me : nat) (log : list (rcv word)) : option (den t) :=
    if Nat.eqb me 0 then Some x
    else match buffers log with
         | [b] => match read t (dflt t) b with Some (y, _) => Some y | None => None end
         | _ => None
         end.

  (** ** Boundary conditions of a CGNS file *)
  (** BCCGNS, IOCGNS.hpp 52-56 *)
  Definition t_pidtobc : ty := TMap (TNum 4) (TNum 4).
  Definition t_zonetobndpid : ty := TMap (TNum 4) (TVec (TNum 4)).
  Definition t_pidtolisttype : ty := TMap (TNum 4) (TNum 4).
  Definition t_names : ty := TMap (TNum 4) TStr.
  Record bccgns := Bc { pidtobc : den t_pidtobc; zonetobndpid : den t_zonetobndpid; pidtolisttype : den t_pidtolisttype;
    bcpidnames : den t_names; zonepidnames : den t_names }.
  Definition bc_parcels (b : bccgns) : list parcel :=
    [Parcel 100 110 (write t_pidtobc (pidtobc b)); Parcel 200 210 (write t_zonetobndpid (zonetobndpid b));
     Parcel 300 310 (write t_pidtolisttype (pidtolisttype b)); Parcel 400 410 (write t_names (bcpidnames b));
     Parcel 500 510 (write t_names (zonepidnames b))].
  Definition communicateAllProcsStoredBC (b : bccgns) : nat -> list (op word) := from_zero (bc_parcels b).
  (** buffer >> m_storedBC->... *)
  Definition into (t : ty) (old : den t) (b : list N) : option (den t) := match read t old b with Some (x, _) => Some x | None => None end.
  (** m_storedBC after the call, 1971-1998: the third buffer is read into mcg_pidtobc (1987) *)
  Definition bc_read (b : bccgns) (me : nat) (log : list (rcv word)) : option bccgns :=
    if Nat.eqb me 0 then Some b
    else match buffers log with
         | [b1; b2; b3; b4; b5] =>
             match into t_pidtobc [] b1 with
             | None => None
             | Some p1 =>
             match into t_zonetobndpid [] b2 with
             | None => None
             | Some z =>
             match into t_pidtobc p1 b3 with
             | None => None
             | Some p2 =>
             match into t_names [] b4 with
             | None => None
             | Some n1 =>
             match into t_names [] b5 with
             | None => None
             | Some n2 => Some (Bc p2 z [] n1 n2)
             end end end end end
         | _ => None
         end.

  (** ** Process 0 gathers the fields of all *)
  (** collectDataFromAllProcs, GenericOutput.tpp 278-323 *)
  Definition to_zero (ps : nat -> list parcel) (tags : list (nat * nat)) (me : nat) : list (op word) :=
    if Nat.eqb me 0 then flat_map (fun r => fetch r tags) (seq 1 (nprocs - 1))
    else if Nat.ltb me nprocs then post 0 (ps me) else [].
  Definition collectDataFromAllProcs (t : ty) (loc : nat -> field (den t)) : nat -> list (op word) :=
    to_zero (fun r => [Parcel 100 110 (write (TField t) (loc r))]) [(100, 110)].
  (** the counters in the memory of process 0.  dataBuffer >> temp makes a shared pointer to the
      geometry with the addresses in the buffer and increments its counter (MimmoSharedPointer.tpp
      32-40, 60-75): a counter that is not there is an error. *)
  Variable memory : N -> bool.
  Definition temp_read (t : ty) (b : list N) : option (field (den t)) :=
    match read (TField t) (dflt (TField t)) b with
    | None => None
    | Some (f, _) => if N.eqb (snd (f_geo f)) 0 || memory (snd (f_geo f)) then Some f else None
    end.
  (** if(!globdata->exists(id)) globdata->insert(id, value) *)
  Definition add_new {A : Type} (l : list (N * A)) (e : N * A) : list (N * A) :=
    if existsb (fun x => N.eqb (fst x) (fst e)) l then l else l ++ [e].
  Fixpoint gather_all (t : ty) (bs : list (list N)) (l : list (N * den t)) : option (list (N * den t)) :=
    match bs with
    | [] => Some l
    | b :: r => match temp_read t b with None => None | Some f => gather_all t r (fold_left add_new (f_data f) l) end
    end.
  (** globdata of process 0 after the call (of no use on the others) *)
  Definition data_collected (t : ty) (loc : nat -> field (den t)) (log : list (rcv word)) : option (field (den t)) :=
    match gather_all t (buffers log) (f_data (loc 0)) with
    | None => None
    | Some l => Some (Build_field (0%N, 0%N) (f_name (loc 0)) (f_loc (loc 0)) l)
    end.

  (** ** Every process has the nodes of all *)
  (** the loops of initRBFwGeometry, MRBF.cpp 1344-1405; the radii are sent with the tags of the
      displacements *)
  Definition to_all (ps : nat -> list parcel) (tags : list (nat * nat)) (me : nat) : list (op word) :=
    if Nat.ltb me nprocs then
      flat_map (fun sender =>
        if Nat.eqb me sender then flat_map (fun r => if Nat.eqb me r then [] else post r (ps me)) (seq 0 nprocs)
        else fetch sender tags) (seq 0 nprocs)
    else [].
  (** a std::map<long, ...> is written entry by entry after its size (1319-1333), as a vector of pairs is *)
  Definition t_points : ty := TVec (TPair (TNum 8) (TArr 3 (TNum 8))).
  Definition t_radii : ty := TVec (TPair (TNum 8) (TNum 8)).
  Record rbf_maps := Maps { m_nodes : list (N * list N); m_displs : list (N * list N); m_radii : list (N * N) }.
  Definition rbf_parcels (m : rbf_maps) : list parcel :=
    [Parcel 900 910 (write t_points (m_nodes m)); Parcel 920 930 (write t_points (m_displs m)); Parcel 920 930 (write t_radii (m_radii m))].
  Definition exchange (mine : nat -> rbf_maps) : nat -> list (op word) :=
    to_all (fun r => rbf_parcels (mine r)) [(900, 910); (920, 930); (920, 930)].
  (** if(map.count(id) == 0) map.insert(id, val): the entries of a std::map are by increasing id *)
  Fixpoint insert_new {A : Type} (e : N * A) (l : list (N * A)) : list (N * A) :=
    match l with
    | [] => [e]
    | a :: r => if N.ltb (fst e) (fst a) then e :: l else if N.eqb (fst e) (fst a) then l else a :: insert_new e r
    end.
  Definition insert_all {A : Type} (new l : list (N * A)) : list (N * A) := fold_left (fun l e => insert_new e l) new l.
  Fixpoint absorb (bs : list (list N)) (m : rbf_maps) : option rbf_maps :=
    match bs with
    | [] => Some m
    | nb :: db :: rb :: r =>
        match into t_points [] nb with
        | None => None
        | Some ns =>
        match into t_points [] db with
        | None => None
        | Some ds =>
        match into t_radii [] rb with
        | None => None
        | Some rs => absorb r (Maps (insert_all ns (m_nodes m)) (insert_all ds (m_displs m)) (insert_all rs (m_radii m)))
        end end end
    | _ => None
    end.
  Definition maps_known (mine : nat -> rbf_maps) (me : nat) (log : list (rcv word)) : option rbf_maps := absorb (buffers log) (mine me).
  (** nodeRawList, displList and m_supportRadii, 1409-1430: [None], a radius out of the list *)
  Fixpoint entry_of {A : Type} (id : N) (l : list (N * A)) : option A :=
    match l with [] => None | (i, x) :: r => if N.eqb i id then Some x else entry_of id r end.
  Fixpoint put_at {A : Type} (n : nat) (x : A) (l : list A) : option (list A) :=
    match l, n with
    | [], _ => None
    | _ :: r, 0 => Some (x :: r)
    | a :: r, S n => match put_at n x r with Some r => Some (a :: r) | None => None end
    end.
  Fixpoint put_radii (m : list (N * N)) (ids : list N) (count : nat) (l : list N) : option (list N) :=
    match ids with
    | [] => Some l
    | id :: r => match entry_of id m with
                 | None => put_radii m r (S count) l
                 | Some v => match put_at count v l with None => None | Some l => put_radii m r (S count) l end
                 end
    end.
  Definition no_displ : list N := [0%N; 0%N; 0%N].
  Definition rbf_lists (m : rbf_maps) : option (list (list N) * list (list N) * list N) :=
    match put_radii (m_radii m) (map fst (m_nodes m)) 0 (repeat 0%N (length (m_radii m))) with
    | None => None
    | Some radii =>
        Some (map snd (m_nodes m),
              map (fun e => match entry_of (fst e) (m_displs m) with Some d => d | None => no_displ end) (m_nodes m), radii)
    end.
End Processes.
