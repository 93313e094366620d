(** Partition (src/parallel/Partition.cpp): which cell goes to which process, as one process sees it.
    METIS is a function of the graph it is given; the search of the boundary cell next to a face is a function of the face;
    what bitpit does with the maps is not modelled.  Distances are real numbers. *)
From Coq Require Import Reals List Arith ZArith Bool.
Import ListNotations.

(** a map from identifiers to processes, std::unordered_map<long, int> *)
Definition rmap := list (Z * Z).
Fixpoint find (x : Z) (m : rmap) : option Z := match m with [] => None | (y, r) :: l => if Z.eqb y x then Some r else find x l end.
(** m[x] = r *)
Fixpoint put (x r : Z) (m : rmap) : rmap := match m with [] => [(x, r)] | (y, q) :: l => if Z.eqb y x then (y, r) :: l else (y, q) :: put x r l end.

(** PartitionMethod, Partition.hpp 37-42 *)
Definition NONE : Z := (-1)%Z. Definition SERIALIZE : Z := 0%Z. Definition PARTGEOM : Z := 1%Z. Definition CUSTOM : Z := 99%Z.
(** a cell of the part of the mesh on this process, ghosts too: its identifier and those next to its faces *)
Record cell := Cell { c_id : Z; c_neighs : list Z }.
Record mesh := Mesh { m_cells : list cell; m_distributed : bool }.
(** the boundary: cells, distributed or not, and for each border face of the interior cells of the volume, in their order, that cell
    and the boundary cell found for the face (Partition.cpp 435-452), its distance and position in memory *)
Record border := Border { b_ids : list Z; b_distributed : bool; b_faces : list (Z * option (Z * R * nat)) }.
Record object := Object { o_mode : Z; o_map : rmap; o_bmap : rmap }.

(** setPartition, 127-130 *)
Definition setPartition (m : rmap) (o : object) : object := Object CUSTOM m (o_bmap o).
(** setPartitionMethod with an integer, 152-157; None: throws *)
Definition setPartitionMethod (z : Z) (o : object) : option object :=
  if Z.eqb z (-1) || Z.eqb z 0 || Z.eqb z 1 || Z.eqb z 2 then Some (Object z (o_map o) (o_bmap o)) else None.
(** flushSectionXML 617-618, absorbSectionXML 595-604: the number is written and read as it is *)
Definition flush_mode (o : object) : Z := o_mode o.
Definition absorb_mode (z : Z) (o : object) : option object := setPartitionMethod z o.

(** ** The graph for METIS, 331-363 *)
(** mapcellinv[id]: zero for those that are not there *)
Fixpoint index (ids : list Z) (x : Z) : nat := match ids with [] => 0 | y :: l => if Z.eqb y x then 0 else match existsb (Z.eqb x) l with true => S (index l x) | false => 0 end end.
(** 354-359 *)
Definition row (ids : list Z) (c : cell) : list nat := map (index ids) (filter (fun x => Z.ltb 0 x) (c_neighs c)).
(** the mesh is on one process, all cells are internal; adjncy has as many places as there are neighbours *)
Definition graph (cells : list cell) : list nat * list nat :=
  let ids := map c_id cells in
  let r := fold_left (fun acc c => (fst acc ++ [length (snd acc)], snd acc ++ row ids c)) cells ([], []) in
  (fst r ++ [length (snd r)], snd r ++ repeat 0 (list_sum (map (fun c => length (c_neighs c)) cells) - length (snd r))).

Section Process.
Variable rank : Z. Variable nprocs : Z.
Variable metis : nat -> list nat * list nat -> Z -> list Z.

(** parmetisPartGeom, 313-384: the map changes on the first process only *)
Definition parmetisPartGeom (g : mesh) (m : rmap) : rmap :=
  if m_distributed g then m else if negb (Z.eqb rank 0) then m
  else fold_left (fun a e => put (fst e) (snd e) a) (combine (map c_id (m_cells g)) (metis (length (m_cells g)) (graph (m_cells g)) nprocs)) [].
(** serialPartition, 390-403 *)
Definition serialPartition (g : mesh) (m : rmap) : rmap :=
  if m_distributed g then fold_left (fun a x => put x 0%Z a) (map c_id (m_cells g)) [] else m.
(** 461-468, with the distances so far; None: at throws, or no such place *)
Definition set_nth {A} (n : nat) (x : A) (l : list A) : list A := firstn n l ++ x :: skipn (S n) l.
Definition try_face (m : rmap) (acc : option (rmap * list R)) (f : Z * option (Z * R * nat)) : option (rmap * list R) :=
  match acc, snd f with
  | None, _ => None
  | Some a, None => Some a
  | Some (bm, ds), Some (b, d, raw) =>
      match nth_error ds raw with
      | None => None
      | Some d0 => if Rlt_dec d d0 then match find (fst f) m with None => None | Some r => Some (put b r bm, set_nth raw d ds) end else Some (bm, ds)
      end
  end.
(** computeBoundaryPartition, 410-477; [top] the greatest double *)
Definition computeBoundaryPartition (top : R) (mode : Z) (m : rmap) (b : border) (bm : rmap) : option rmap :=
  if Z.eqb mode SERIALIZE then Some (if b_distributed b then fold_left (fun a x => put x 0%Z a) (b_ids b) [] else bm)
  else if b_distributed b then Some bm
  else if negb (Z.eqb rank 0) then Some []
  else option_map fst (fold_left (try_face m) (b_faces b) (Some ([], repeat top (length (b_ids b))))).

(** execute, 164-285: what the two meshes are told to do *)
Inductive outcome := Nothing | Throws | Undefined | Told (m : rmap) (b : option rmap).
Definition execute (top : R) (o : object) (geometry : option mesh) (boundary : option border) : outcome * object :=
  if Z.eqb (o_mode o) NONE then (Nothing, o)
  else match geometry with
  | None => (Nothing, o)
  | Some g =>
    if Z.eqb nprocs 1 then (Nothing, o)
    else if Z.eqb (o_mode o) PARTGEOM && m_distributed g then (Throws, o)
    else if Z.eqb (o_mode o) SERIALIZE && negb (m_distributed g) then (Nothing, o)
    else if Z.eqb (o_mode o) CUSTOM && negb (Nat.eqb (length (o_map o)) (length (m_cells g))) then (Throws, o)
    else if Z.eqb (o_mode o) PARTGEOM || Z.eqb (o_mode o) SERIALIZE || Z.eqb (o_mode o) CUSTOM then
      let m := if Z.eqb (o_mode o) SERIALIZE then serialPartition g (o_map o) else if Z.eqb (o_mode o) PARTGEOM then parmetisPartGeom g (o_map o) else o_map o in
      match boundary with
      | None => (Told m None, Object (o_mode o) m (o_bmap o))
      | Some b =>
        match computeBoundaryPartition top (o_mode o) m b (o_bmap o) with
        | None => (Undefined, Object (o_mode o) m (o_bmap o))
        | Some bm => (Told m (Some bm), Object (o_mode o) m bm)
        end
      end
    else (Nothing, o)
  end.
End Process.
