(** Model of the search of the closest cell of mimmo (src/core/SkdTreeUtils.cpp,
    findPointClosestCell 1538-1543 and 1564-1645, findSharedPointClosestGlobalCell 1407-1413 and 1434-1517,
    findPointClosestGlobalCell 1664-1780).

    Of bitpit, and parameters here: the distances of a point from the box of a node
    (evalPointMinDistance, evalPointMaxDistance) and from a cell, isInterior, the choice between two
    cells at the same distance and the minimum operation of MPI.  A node of the tree has two children or
    none, as bitpit makes them.  Doubles are reals; the number of evaluations that the functions return
    is not modelled. *)
From Coq Require Import Reals.
From Coq Require Import List Arith Bool.
From Verif Require Import Vec.
Import ListNotations.
Local Open Scope nat_scope.

Record box := Box { b_lo : vec; b_hi : vec }.
Inductive tree := Leaf (b : box) (cells : list nat) | Fork (b : box) (l r : tree).
Definition box_of (t : tree) : box := match t with Leaf b _ => b | Fork b _ _ => b end.
(** the nodes of a tree: the steps of the loop of 1588-1622 *)
Fixpoint nodes (t : tree) : nat := match t with Leaf _ _ => 1 | Fork _ l r => S (nodes l + nodes r) end.

Section Find.
  Variable mind maxd : box -> vec -> R.
  Variable dist : nat -> vec -> R.
  Variable interior : nat -> bool.
  Variable tie : vec -> nat -> nat -> bool.
  (** numeric_limits<double>::max() *)
  Variable big : R.
  Variable p : vec.

  (** 1586-1622: the estimate of the distance and the leaves to look at, with their least distances.
      The top of nodeStack is the head of the list: the right child comes out first *)
  Fixpoint scan (fuel : nat) (stack : list tree) (est : R) (cand : list (list nat * R)) : R * list (list nat * R) :=
    match fuel with
    | O => (est, cand)
    | S fuel =>
        match stack with
        | [] => (est, cand)
        | t :: stack =>
            let m := mind (box_of t) p in
            if Rlt_dec est m then scan fuel stack est cand
            else
              let est := Rmin (maxd (box_of t) p) est in
              match t with
              | Leaf _ cells => scan fuel stack est (cand ++ [(cells, m)])
              | Fork _ l r => scan fuel (r :: l :: stack) est cand
              end
        end
    end.
  (** SkdNode::updatePointClosestCell on a cell: *id and *distance *)
  Definition update_cell (interiorOnly : bool) (s : option nat * R) (c : nat) : option nat * R :=
    if interiorOnly && negb (interior c) then s
    else
      let d := dist c p in
      match fst s with
      | None => if Rle_dec d (snd s) then (Some c, d) else s
      | Some c0 =>
          if Rlt_dec d (snd s) then (Some c, d)
          else if Req_EM_T d (snd s) then (if tie p c c0 then (Some c, d) else s)
          else s
      end.
  Definition update_node (interiorOnly : bool) (s : option nat * R) (cells : list nat) : option nat * R :=
    fold_left (update_cell interiorOnly) cells s.
  (** 1626-1638 *)
  Definition look (interiorOnly : bool) (s : option nat * R) (k : list nat * R) : option nat * R :=
    if Rlt_dec (snd s) (snd k) then s else update_node interiorOnly s (fst k).
  (** 1564-1645; NULL_ID is [None] *)
  Definition findPointClosestCell (t : tree) (maxDistance : R) (interiorOnly : bool) : option nat * R :=
    let (est, cand) := scan (nodes t) [t] (Rmin (maxd (box_of t) p) maxDistance) [] in
    let s := fold_left (look interiorOnly) cand (None, est) in
    match fst s with
    | None => (None, big)
    | Some _ => s
    end.
  (** 1538-1543 *)
  Definition findPointClosestCell_any (t : tree) (interiorOnly : bool) : option nat * R := findPointClosestCell t big interiorOnly.
End Find.

(** ** On all the processes *)
Section Global.
  Variable mind maxd : box -> vec -> R.
  (** of each process: the distances of the cells, the interior ones, the tree, the box of the partition *)
  Variable dist : nat -> nat -> vec -> R.
  Variable interior : nat -> nat -> bool.
  Variable trees : nat -> tree.
  Variable pbox : nat -> box.
  Variable tie : vec -> nat -> nat -> bool.
  Variable big : R.
  Variable nprocs : nat.
  Variable partitioned : bool.
  (** SkdGlobalCellDistance: rank, id, distance; [None] is the null one *)
  Definition found : Type := option (nat * nat * R).
  (** SkdGlobalCellDistance::getMPIMinOperation *)
  Variable pick : found -> found -> found.

  (** 1481-1484, 1742-1745 *)
  Definition bound (p : vec) : R := fold_left (fun m r => Rmin (maxd (pbox r) p) m) (seq 0 nprocs) big.
  (** 1486-1497, 1747-1757: only interior cells, so that getCellRank is the process itself *)
  Definition local (p : vec) (me : nat) : found :=
    match findPointClosestCell mind maxd (dist me) (interior me) tie big p (trees me) (bound p) true with
    | (Some c, d) => Some (me, c, d)
    | (None, _) => None
    end.
  (** 1446-1454, 1675-1683: the double given as third argument is taken as interiorOnly, and is true *)
  Definition serial (p : vec) (me : nat) : found :=
    match findPointClosestCell_any mind maxd (dist me) (interior me) tie big p (trees me) true with
    | (Some c, d) => Some (me, c, d)
    | (None, _) => None
    end.
  Definition reduce (v : nat -> found) : found := fold_right (fun r m => pick (v r) m) (v 0) (seq 0 nprocs).
  (** 1505-1507: MPI_Allreduce in place, nprocs times *)
  Fixpoint again (k : nat) (v : nat -> found) : nat -> found := match k with O => v | S k => again k (fun _ => reduce v) end.
  (** 1434-1517, the same point on all the processes; the radius is not used *)
  Definition findSharedPointClosestGlobalCell (p : vec) (radius : R) (me : nat) : found :=
    if partitioned then again nprocs (local p) me else serial p me.

  (** 1664-1780: the points of each process *)
  Variable points : nat -> list vec.
  Definition total (n : nat) : nat := list_sum (map (fun r => length (points r)) (seq 0 n)).
  (** globalPointsOffsets, 1699-1711 *)
  Definition offset (me : nat) : nat := total me.
  (** globalPointsDispls.back() + pointsCount.back(), 1713: the displacements are of coordinates *)
  Definition nGlobalPoints : nat := 3 * total (nprocs - 1) + length (points (nprocs - 1)).
  (** globalPoints, 1716-1719: rows not received are zero *)
  Definition globalPoints : list vec :=
    let l := flat_map points (seq 0 nprocs) in l ++ repeat vzero (nGlobalPoints - length l).
  (** 1731-1757: what a process finds for a row *)
  Definition row_found (me k : nat) : found := local (nth k globalPoints vzero) me.
  (** 1762-1780: the rows of a process are reduced on it *)
  Definition findPointClosestGlobalCell (me i : nat) : found :=
    if partitioned then reduce (fun r => row_found r (offset me + i)) else serial (nth i (points me) vzero) me.
End Global.
