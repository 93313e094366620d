(** The consecutive numbering of the vertices of a geometry distributed among processes, and the
    maps between ids and consecutive numbers.  Ids and numbers are [long]: they are unbounded
    integers here.  A process is a position in the list of the parts of the geometry. *)
From Coq Require Import List ZArith Bool Lia.
Import ListNotations.
Open Scope Z_scope.

(** std::unordered_map<long,long>: [find], and [m[k] = v].  src/core/mimmoTypeDef.hpp (lilimap).
    The order of the entries is not meant to be that of the container. *)
Fixpoint zget (m : list (Z * Z)) (k : Z) : option Z :=
  match m with
  | [] => None
  | (k', v) :: m' => if k' =? k then Some v else zget m' k
  end.

Fixpoint zput (m : list (Z * Z)) (k v : Z) : list (Z * Z) :=
  match m with
  | [] => [(k, v)]
  | (k', v') :: m' => if k' =? k then (k, v) :: m' else (k', v') :: zput m' k v
  end.

(** One process: the ids of its vertices in the order of the container, which of them are
    interior (isPointInterior, src/core/MimmoObject.cpp:1644-1652), and the lists of vertices
    to send to and to receive from other processes
    (getPointGhostExchangeSources/Targets, src/core/MimmoObject.cpp:1702-1716, kept by the patch). *)
Record part := {
  p_verts : list Z;
  p_interior : Z -> bool;
  p_sources : list (nat * list Z);
  p_targets : list (nat * list Z)
}.

(** unordered_map<int, vector<long>>::find. *)
Fixpoint rfind (m : list (nat * list Z)) (k : nat) : option (list Z) :=
  match m with
  | [] => None
  | (k', v) :: m' => if Nat.eqb k' k then Some v else rfind m' k
  end.

(** src/core/MimmoObject.cpp:1738-1743. *)
Definition ninterior (p : part) : Z :=
  fold_left (fun n v => if p_interior p v then n + 1 else n) (p_verts p) 0.

(** src/core/MimmoObject.cpp:1745-1747: MPI_Allreduce with MPI_SUM; getNGlobalVertices,
    src/core/MimmoObject.cpp:1091-1098. *)
Definition nglobal (w : list part) : Z := fold_left Z.add (map ninterior w) 0.

(** src/core/MimmoObject.cpp:1749-1760: MPI_Allgather of the numbers of interior vertices, and
    the sum of those of the lower ranks; getPointGlobalCountOffset,
    src/core/MimmoObject.cpp:1119-1124. *)
Definition globaloffset (w : list part) (rank : nat) : Z :=
  fold_left Z.add (firstn rank (map ninterior w)) 0.

(** src/core/MimmoObject.cpp:1765-1773. *)
Fixpoint number (interior : Z -> bool) (vs : list Z) (next : Z) (m : list (Z * Z)) : list (Z * Z) :=
  match vs with
  | [] => m
  | v :: vs' => if interior v then number interior vs' (next + 1) (zput m v next) else number interior vs' next m
  end.

Definition own_ids (w : list part) (rank : nat) (p : part) : list (Z * Z) :=
  number (p_interior p) (p_verts p) (globaloffset w rank) [].

(** src/core/MimmoObject.cpp:1785-1799: what is written for the vertices of a list. *)
Definition packet (m : list (Z * Z)) (l : list Z) : list Z :=
  map (fun id => match zget m id with Some c => c | None => -1 end) l.

(** The message from one rank to another, if any. *)
Definition sent (w : list part) (from to : nat) : option (list Z) :=
  match nth_error w from with
  | None => None
  | Some p => match rfind (p_sources p) to with
              | None => None
              | Some l => Some (packet (own_ids w from p) l)
              end
  end.

(** src/core/MimmoObject.cpp:1811-1816.  None: read past the end of the message. *)
Fixpoint unpack (l buf : list Z) (m : list (Z * Z)) : option (list (Z * Z)) :=
  match l with
  | [] => Some m
  | id :: l' => match buf with
                | [] => None
                | c :: buf' => unpack l' buf' (if -1 <? c then zput m id c else m)
                end
  end.

(** src/core/MimmoObject.cpp:1805-1818: the messages are read in the order they arrive, given by
    the list [arrivals].  None: [at] throws, or the message does not exist, or it is too short. *)
Fixpoint receive (w : list part) (rank : nat) (p : part) (arrivals : list nat) (m : list (Z * Z)) : option (list (Z * Z)) :=
  match arrivals with
  | [] => Some m
  | s :: rest =>
      match rfind (p_targets p) s, sent w s rank with
      | Some l, Some buf => match unpack l buf m with
                            | Some m' => receive w rank p rest m'
                            | None => None
                            end
      | _, _ => None
      end
  end.

(** MimmoObject::updatePointGhostExchangeInfo, src/core/MimmoObject.cpp:1735-1825: the consecutive
    ids known to one rank at the end (m_pointConsecutiveId). *)
Definition updatePointGhostExchangeInfo (w : list part) (rank : nat) (arrivals : list nat) : option (list (Z * Z)) :=
  match nth_error w rank with
  | None => None
  | Some p => receive w rank p arrivals (own_ids w rank p)
  end.

(** MimmoObject::getMapDataInv of a distributed geometry, src/core/MimmoObject.cpp:1445-1453. *)
Definition getMapDataInv_dist (p : part) (ids : list (Z * Z)) (withghosts : bool) : list (Z * Z) :=
  filter (fun e => withghosts || p_interior p (fst e)) ids.

(** MimmoObject::getMapDataInv otherwise, src/core/MimmoObject.cpp:1457-1462.  The [int] counter
    is assumed not to overflow. *)
Fixpoint enumerate (vs : list Z) (i : Z) (m : list (Z * Z)) : list (Z * Z) :=
  match vs with
  | [] => m
  | v :: vs' => enumerate vs' (i + 1) (zput m v i)
  end.
Definition getMapDataInv_serial (vs : list Z) : list (Z * Z) := enumerate vs 0 [].

(** MimmoObject::getMapData, src/core/MimmoObject.cpp:1423-1432: from the inverse map. *)
Fixpoint getMapData (vs : list Z) (inv : list (Z * Z)) (m : list (Z * Z)) : list (Z * Z) :=
  match vs with
  | [] => m
  | v :: vs' => getMapData vs' inv (match zget inv v with Some c => zput m c v | None => m end)
  end.

(** A cell: its id, and whether it is interior. *)
Record gcell := { gc_id : Z; gc_interior : bool }.

(** PatchKernel::getCell(id): None is the out of range exception of the container. *)
Definition cell_at (cells : list gcell) (id : Z) : option gcell := find (fun c => gc_id c =? id) cells.

(** MimmoObject::getMapCell, src/core/MimmoObject.cpp:1474-1485.  [number_of] is
    getCellConsecutiveId of the patch information, of bitpit: a parameter. *)
Fixpoint getMapCell (cells : list gcell) (number_of : Z -> Z) (withghosts : bool) (m : list (Z * Z)) : list (Z * Z) :=
  match cells with
  | [] => m
  | c :: cells' =>
      if negb withghosts && negb (gc_interior c) then getMapCell cells' number_of withghosts m
      else getMapCell cells' number_of withghosts (zput m (number_of (gc_id c)) (gc_id c))
  end.

(** The conversion of a [long] to [int] of the loop at src/core/MimmoObject.cpp:1505. *)
Definition to_int (x : Z) : Z := (x + 2 ^ 31) mod 2 ^ 32 - 2 ^ 31.

Definition zerase (m : list (Z * Z)) (k : Z) : list (Z * Z) := filter (fun e => negb (fst e =? k)) m.

(** MimmoObject::getMapCellInv, src/core/MimmoObject.cpp:1494-1510: [all] is
    getCellConsecutiveMap of the patch information.  None: getCell throws. *)
Fixpoint todelete (cells : list gcell) (all : list (Z * Z)) : option (list Z) :=
  match all with
  | [] => Some []
  | e :: all' => match cell_at cells (snd e), todelete cells all' with
                 | Some c, Some l => Some (if gc_interior c then l else fst e :: l)
                 | _, _ => None
                 end
  end.

Definition getMapCellInv (cells : list gcell) (all : list (Z * Z)) (withghosts : bool) : option (list (Z * Z)) :=
  if withghosts then Some all
  else match todelete cells all with
       | None => None
       | Some l => Some (fold_left (fun m id => zerase m (to_int id)) l all)
       end.
