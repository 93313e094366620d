(** Model of the narrow bands of a geometry around a surface and of the connectivities between
    vertices and cells (src/core/MimmoObject.cpp 4118-4510, 4515-4531, 4681-4760).

    [None] is an exception of bitpit: an id already in the container. *)
From Coq Require Import List Arith Bool Reals.
From Verif Require Import SharedPtr Obj Select.
Import ListNotations.
Open Scope nat_scope.

(** the distances computed by the tree of the surface, of the centroid of a cell or of a vertex: a
    value that is not less than the threshold when the search within the threshold finds nothing *)
Definition near (measure : nat -> R) (maxdist : R) (id : nat) : bool := if Rlt_dec (measure id) maxdist then true else false.

(** result.insert of the seeds, 4216-4223 and 4419-4425 *)
Fixpoint band_seeds (measure : nat -> R) (maxdist : R) (l : list nat) (result : list (nat * R)) : option (list (nat * R)) :=
  match l with
  | [] => Some result
  | id :: r =>
      if near measure maxdist id then
        if has id result then None else band_seeds measure maxdist r (result ++ [(id, measure id)])
      else band_seeds measure maxdist r result
  end.
(** the loop on the neighbours, 4278-4284: those not yet visited go in the new stack *)
Fixpoint band_push (ns new visited : list nat) : list nat * list nat :=
  match ns with
  | [] => (new, visited)
  | n :: r => if nin n visited then band_push r new visited else band_push r (new ++ [n]) (visited ++ [n])
  end.
(** the loop on the stack, 4272-4287 *)
Fixpoint band_layer (measure : nat -> R) (maxdist : R) (neigh : nat -> list nat) (stack new visited : list nat) (result : list (nat * R)) : option (list nat * list nat * list (nat * R)) :=
  match stack with
  | [] => Some (new, visited, result)
  | id :: r =>
      if near measure maxdist id then
        if has id result then None
        else let '(new, visited) := band_push (neigh id) new visited in
             band_layer measure maxdist neigh r new visited (result ++ [(id, measure id)])
      else band_layer measure maxdist neigh r new visited result
  end.
Definition add_all (l visited : list nat) : list nat := fold_left (fun v x => if nin x v then v else v ++ [x]) l visited.
(** the loop until the stack is empty, 4247-4300 *)
Fixpoint band_loop (fuel : nat) (measure : nat -> R) (maxdist : R) (neigh : nat -> list nat) (stack visited : list nat) (result : list (nat * R)) : option (list (nat * R)) :=
  match stack with
  | [] => Some result
  | _ =>
      match fuel with
      | O => None
      | S k =>
          match band_layer measure maxdist neigh stack [] (add_all stack visited) result with
          | None => None
          | Some (new, visited, result) => band_loop k measure maxdist neigh new visited result
          end
      end
  end.
(** from the candidates on.  The first stack is made of the neighbours of the seeds that are not
    seeds, in an order the hash table decides; here the order in which they are met *)
Definition band_from (n : nat) (measure : nat -> R) (maxdist : R) (neigh : nat -> list nat) (candidates : list nat) : option (list (nat * R)) :=
  match band_seeds measure maxdist candidates [] with
  | None => None
  | Some result =>
      let stack := nodup Nat.eq_dec (filter (fun id => negb (has id result)) (flat_map (fun e => neigh (fst e)) result)) in
      band_loop (S n) measure maxdist neigh stack (add_all (map fst result) stack) result
  end.

(** getCellsNarrowBandToExtSurfaceWDist; [ids] are the cells, [patch] what selectByPatch returns *)
Definition getCellsNarrowBand (t surface_type : nat) (ids : list nat) (measure : nat -> R) (maxdist : R) (neigh : nat -> list nat) (patch : list nat) (seeds : option (list nat)) : option (list (nat * R)) :=
  if negb (Nat.eqb surface_type 1) then Some []
  else if Nat.eqb t 3 then Some []
  else band_from (length ids) measure maxdist neigh (match seeds with Some l => filter (fun id => nin id ids) l | None => patch end).
(** getVerticesNarrowBandToExtSurfaceWDist; without seeds the candidates are put in a variable that
    hides the one used later, and their number stays zero (4391-4396) *)
Definition getVerticesNarrowBand (surface_type : nat) (ids : list nat) (measure : nat -> R) (maxdist : R) (neigh : nat -> list nat) (seeds : option (list nat)) : option (list (nat * R)) :=
  if negb (Nat.eqb surface_type 1) then Some []
  else band_from (length ids) measure maxdist neigh (match seeds with Some l => filter (fun id => nin id ids) l | None => [] end).

(** * Connectivities *)
(** map[id] = c *)
Fixpoint mput (v c : nat) (m : list (nat * nat)) : list (nat * nat) :=
  match m with [] => [(v, c)] | (w, d) :: r => if Nat.eqb w v then (w, c) :: r else (w, d) :: mput v c r end.
(** getInverseConnectivity, 4515-4531 *)
Definition getInverseConnectivity (g : obj) : list (nat * nat) :=
  fold_left (fun m e => fold_left (fun m v => mput v (fst e) m) (cell_verts (snd e)) m) (o_cells g) [].

(** map[a].insert(b) *)
Fixpoint minsert (a b : nat) (m : list (nat * list nat)) : list (nat * list nat) :=
  match m with [] => [(a, [b])] | (x, l) :: r => if Nat.eqb x a then (x, if nin b l then l else l ++ [b]) :: r else (x, l) :: minsert a b r end.
Definition pin (p : nat * nat) (l : list (nat * nat)) : bool := existsb (fun q => Nat.eqb (fst p) (fst q) && Nat.eqb (snd p) (snd q)) l.
(** one edge, 4712-4725 *)
Definition link (st : list (nat * nat) * list (nat * list nat)) (e : nat * nat) : list (nat * nat) * list (nat * list nat) :=
  let '(a, b) := e in
  let item := if a <? b then (a, b) else (b, a) in
  if pin item (fst st) then st else (item :: fst st, minsert b a (minsert a b (snd st))).
(** buildPointConnectivity, 4681-4733; [edges c] are the edges of a cell: its faces for a surface, its
    edges for a volume, the cell itself for a curve *)
Definition buildPointConnectivity (t : nat) (edges : nat * cell -> list (nat * nat)) (g : obj) : list (nat * list nat) :=
  if Nat.eqb t 1 || Nat.eqb t 2 || Nat.eqb t 4 then snd (fold_left link (flat_map edges (o_cells g)) ([], [])) else [].
(** getPointConnectivity, 4752-4757: [None] where the assertion fails *)
Definition getPointConnectivity (id : nat) (m : list (nat * list nat)) : option (list nat) := find id m.
