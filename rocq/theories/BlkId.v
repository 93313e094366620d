(** The life of the blocks: identities, copies, logger settings and
    communicators.

    Models
    - BaseManipulation::sm_baseManipulationCounter
      (src/core/BaseManipulation.cpp 30);
    - the constructor (36-68), the destructor (73-76), the copy constructor
      (82-108), the assignment (113-133), swap (141-155), getId (398-400),
      setId (472-474), write (978-991), initializeLogger (163-190);
    - setLogger and setLoggerDirectory
      (src/core/MimmoNamespace.cpp 185-205).

    Simplifications.  The counter is a Z: its overflow, after 2^31 blocks, is
    not modelled.  The geometry is the address its shared pointer holds.  The
    ports of a block are a list of numbers, standing for the links made with
    them; how they are linked is modelled in Pins.v.  A communicator is the
    number MPI gave it when it was duplicated.  Blocks are named by handles,
    standing for their addresses: an operation on a handle which is not alive
    is undefined in C++, and is left out of the histories by the model, which
    answers [None]. *)

From Coq Require Import ZArith Decimal DecimalString.
From Coq Require Import String List Bool Lia.
Import ListNotations.
Open Scope list_scope.
Local Open Scope Z_scope.

(** The members copied by assignment and exchanged by swap
    (src/core/BaseManipulation.hpp 141-161). *)
Record settings : Type := Settings {
  s_priority : Z;
  s_name : string;
  s_geometry : option Z;
  s_ports_type : Z;
  s_active : bool;
  s_plot : bool;
  s_apply : bool;
  s_outdir : string }.

(** One block (src/core/BaseManipulation.hpp 141-171). *)
Record blk : Type := Blk {
  b_id : Z;
  b_set : settings;
  b_links : list Z;
  b_built : bool;
  b_comm : Z;
  b_log : string }.

(** What a program sees: the static counter, the two names of the logger, the
    log that has been opened, the communicators duplicated so far (never
    freed: MPI_Comm_free is not called by BaseManipulation.cpp), and the
    blocks alive with their handles. *)
Record world : Type := World {
  w_next : Z;
  w_logfile : string;
  w_logdir : string;
  w_opened : option (string * string);
  w_comms : Z;
  w_blks : list (Z * blk) }.

(** src/core/BaseManipulation.cpp 30, src/core/MimmoNamespace.cpp 4-5 *)
Definition w0 : world := World 1 "mimmo" "." None 0 [].

(** Reading and writing a block through its handle. *)
Fixpoint get (h : Z) (l : list (Z * blk)) : option blk :=
  match l with
  | [] => None
  | (k, b) :: r => if k =? h then Some b else get h r
  end.

Fixpoint put (h : Z) (b : blk) (l : list (Z * blk)) : list (Z * blk) :=
  match l with
  | [] => []
  | (k, c) :: r => if k =? h then (k, b) :: r else (k, c) :: put h b r
  end.

Fixpoint del (h : Z) (l : list (Z * blk)) : list (Z * blk) :=
  match l with
  | [] => []
  | (k, c) :: r => if k =? h then r else (k, c) :: del h r
  end.

(** src/core/BaseManipulation.cpp 37-46: the settings of a new block *)
Definition fresh : settings := Settings 0 "mimmo" None 0 true false false "./".

Inductive op : Type :=
| ONew (h : Z)
| OCopy (h k : Z)          (* h is made as a copy of k *)
| OAssign (h k : Z)        (* h = k *)
| OSwap (h k : Z)
| ODestroy (h : Z)
| OSet (h : Z) (s : settings)
| OLink (h : Z) (l : list Z)
| OSetId (h id : Z)
| OLogger (s : string)
| OLogdir (s : string).

(** src/core/BaseManipulation.cpp 36-68 *)
Definition op_new (h : Z) (w : world) : option world :=
  match get h (w_blks w) with
  | Some _ => None
  | None =>
    let id := w_next w in
    let opened :=
      if id =? 1 then Some (w_logfile w, w_logdir w) else w_opened w in
    Some (World (w_next w + 1) (w_logfile w) (w_logdir w) opened
            (w_comms w + 1)
            ((h, Blk id fresh [] false (w_comms w) (w_logfile w))
               :: w_blks w))
  end.

(** src/core/BaseManipulation.cpp 82-108 *)
Definition op_copy (h k : Z) (w : world) : option world :=
  match get h (w_blks w), get k (w_blks w) with
  | None, Some o =>
    Some (World (w_next w + 1) (w_logfile w) (w_logdir w) (w_opened w)
            (w_comms w + 1)
            ((h, Blk (w_next w) (b_set o) [] false (w_comms w) (w_logfile w))
               :: w_blks w))
  | _, _ => None
  end.

(** src/core/BaseManipulation.cpp 113-133 *)
Definition op_assign (h k : Z) (w : world) : option world :=
  match get h (w_blks w), get k (w_blks w) with
  | Some b, Some o =>
    Some (World (w_next w) (w_logfile w) (w_logdir w) (w_opened w)
            (w_comms w + 1)
            (put h (Blk (b_id b) (b_set o) (b_links b) (b_built b)
                        (w_comms w) (b_log b)) (w_blks w)))
  | _, _ => None
  end.

(** src/core/BaseManipulation.cpp 141-155 *)
Definition op_swap (h k : Z) (w : world) : option world :=
  match get h (w_blks w), get k (w_blks w) with
  | Some b, Some o =>
    let b' := Blk (b_id b) (b_set o) (b_links b) (b_built b)
                  (b_comm o) (b_log b) in
    let o' := Blk (b_id o) (b_set b) (b_links o) (b_built o)
                  (b_comm b) (b_log o) in
    Some (World (w_next w) (w_logfile w) (w_logdir w) (w_opened w)
            (w_comms w)
            (if h =? k then w_blks w
             else put k o' (put h b' (w_blks w))))
  | _, _ => None
  end.

(** src/core/BaseManipulation.cpp 73-76: neither the counter nor the
    communicators change *)
Definition op_destroy (h : Z) (w : world) : option world :=
  match get h (w_blks w) with
  | Some _ =>
    Some (World (w_next w) (w_logfile w) (w_logdir w) (w_opened w)
            (w_comms w) (del h (w_blks w)))
  | None => None
  end.

(** Any of the setters of one block (src/core/BaseManipulation.cpp
    405-470) *)
Definition op_update (h : Z) (f : blk -> blk) (w : world) : option world :=
  match get h (w_blks w) with
  | Some b =>
    Some (World (w_next w) (w_logfile w) (w_logdir w) (w_opened w)
            (w_comms w) (put h (f b) (w_blks w)))
  | None => None
  end.

(** src/core/MimmoNamespace.cpp 185-192 *)
Definition op_logger (s : string) (w : world) : world :=
  if w_next w >? 1 then w
  else World (w_next w) s (w_logdir w) (w_opened w) (w_comms w) (w_blks w).

(** src/core/MimmoNamespace.cpp 198-205 *)
Definition op_logdir (s : string) (w : world) : world :=
  if w_next w >? 1 then w
  else World (w_next w) (w_logfile w) s (w_opened w) (w_comms w) (w_blks w).

Definition step (o : op) (w : world) : option world :=
  match o with
  | ONew h => op_new h w
  | OCopy h k => op_copy h k w
  | OAssign h k => op_assign h k w
  | OSwap h k => op_swap h k w
  | ODestroy h => op_destroy h w
  | OSet h s =>
      op_update h (fun b => Blk (b_id b) s (b_links b) (b_built b)
                                (b_comm b) (b_log b)) w
  | OLink h l =>
      op_update h (fun b => Blk (b_id b) (b_set b) l true
                                (b_comm b) (b_log b)) w
  (* src/core/BaseManipulation.cpp 472-474 *)
  | OSetId h i =>
      op_update h (fun b => Blk i (b_set b) (b_links b) (b_built b)
                                (b_comm b) (b_log b)) w
  | OLogger s => Some (op_logger s w)
  | OLogdir s => Some (op_logdir s w)
  end.

Fixpoint run (os : list op) (w : world) : option world :=
  match os with
  | [] => Some w
  | o :: r => match step o w with Some w' => run r w' | None => None end
  end.

(** The name of the file a block writes its geometry in
    (src/core/BaseManipulation.cpp 987-990; std::to_string writes the decimal
    digits). *)
Definition file_of (b : blk) : string :=
  append (append (s_outdir (b_set b)) "/")
    (append (s_name (b_set b)) (NilZero.string_of_int (Z.to_int (b_id b)))).
