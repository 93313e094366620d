(** What is asked of CGNS files. *)
From Coq Require Import List ZArith Bool.
From Verif Require Import Cgns.
Import ListNotations.
Open Scope Z_scope.

(** how many vertices the elements have *)
Definition corners (t : etype) : nat := match t with Tetra => 4 | Pyramid => 5 | Wedge => 6 | Hexa => 8 | Triangle => 3 | Quad => 4 | Another => 0 end.
(** elements of volumes and of surfaces that CGNS files are written with *)
Definition solid (t : etype) : Prop := In t [Tetra; Pyramid; Wedge; Hexa].
Definition flat (t : etype) : Prop := In t [Triangle; Quad].
(** a cell on these vertices *)
Definition on (ids : list Z) (c : cell) : Prop := length (c_conn c) = corners (c_type c) /\ forall v, In v (c_conn c) -> In v ids.
(** no two vertices at a place *)
Definition apart (same : point -> point -> bool) (verts : list vertex) : Prop := forall v w, In v verts -> In w verts -> same (snd v) (snd w) = true -> v = w.
(** the same vertices, once these are numbered from zero *)
Definition renumbered (ids new old : list Z) : Prop := Forall2 (fun i v => exists k, i = Z.of_nat k /\ nth_error ids k = Some v) new old.
(** the cells, first those of the first type *)
Definition by_types (types : list etype) (cells : list cell) : list cell := flat_map (fun t => filter (fun c => etype_eqb (c_type c) t) cells) types.
(** cells, the k-th of which has this id and is the k-th of these *)
Definition copies (ids : list Z) (new old : list cell) : Prop :=
  length new = length old /\ forall k a b, nth_error new k = Some a -> nth_error old k = Some b -> c_id a = Z.of_nat k /\ c_type a = c_type b /\ c_pid a = 0 /\ renumbered ids (c_conn a) (c_conn b).
(** the cells of the patches of elements, with the numbers of the patches *)
Fixpoint patches (k : Z) (infos : list info) (bnd : list cell) : list (Z * list Z) :=
  match infos with
  | [] => []
  | i :: r => (if i_elements i then map (fun c => (k, c_conn c)) (filter (fun c => Z.eqb (c_pid c) (i_pid i)) bnd) else []) ++ patches (k + 1) r bnd
  end.
Definition same_patches (ids : list Z) (new old : list (Z * list Z)) : Prop := Forall2 (fun a b => fst a = fst b /\ renumbered ids (snd a) (snd b)) new old.
(** a face is over the vertices of a patch of points *)
Definition over (ids : list Z) (i : info) (bnd : list cell) (f : list Z) : Prop :=
  forall v, In v f -> exists c w k, In c bnd /\ c_pid c = i_pid i /\ In w (c_conn c) /\ v = Z.of_nat k /\ nth_error ids k = Some w.
(** ** Files *)
(** the numbers of the element types with vertices at the corners only *)
Definition cgns_number (t : etype) : Z := match t with Tetra => 10 | Pyramid => 12 | Wedge => 14 | Hexa => 17 | Triangle => 5 | Quad => 7 | Another => 0 end.
(** wedges have their vertices in another order *)
Definition bitpit_order (t : etype) (l : list Z) : list Z := match t, l with Wedge, [a; b; c; d; e; f] => [a; c; b; d; f; e] | _, _ => l end.
(** sections, each with its elements *)
Definition sections_of (secs : list (etype * list (list Z))) : list (Z * list Z) := map (fun s => (cgns_number (fst s), concat (snd s))) secs.
(** all elements, in the order of their numbers *)
Definition all_elements (secs : list (etype * list (list Z))) : list (etype * list Z) := flat_map (fun s => map (fun l => (fst s, l)) (snd s)) secs.
(** elements of these types with vertices among the points *)
Definition sound (npoints : nat) (secs : list (etype * list (list Z))) : Prop :=
  forall t ls, In (t, ls) secs -> (solid t \/ flat t) /\ forall l, In l ls -> length l = corners t /\ forall v, In v l -> 1 <= v <= Z.of_nat npoints.
Definition distinct (same : point -> point -> bool) (points : list point) : Prop := forall i j p q, nth_error points i = Some p -> nth_error points j = Some q -> same p q = true -> i = j.
