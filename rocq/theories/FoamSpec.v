(** What is expected of OpenFOAM cases, without the model but for the record of a case. *)
From Coq Require Import Reals List Arith Bool Permutation.
From Verif Require Import Vec Foam.
Import ListNotations.
Open Scope R_scope.

(** a polyhedron as bitpit takes it: the number of faces, then each with its number of vertices *)
Definition stream (faces : list (list nat)) : list nat := length faces :: flat_map (fun f => length f :: f) faces.
(** OpenFOAM: the faces that have a neighbour come first, its label is greater than the owner's, and the normal of a face goes out of its
    owner; a face of a cell has it as owner or as neighbour *)
Definition owned (c : case) : Prop :=
  (forall f, (f < length (c_neigh c))%nat -> (c_owner c f < nth f (c_neigh c) 0)%nat) /\
  (forall i f, In f (nth i (c_cells c) []) -> c_owner c f = i \/ ((f < length (c_neigh c))%nat /\ nth f (c_neigh c) 0%nat = i)).
(** the vertices of a face in the order in which its normal goes out of a cell *)
Definition outward (c : case) (i f : nat) : list nat := if Nat.eq_dec (c_owner c f) i then nth f (c_faces c) [] else rev (nth f (c_faces c) []).

(** how many vertices a shape has *)
Definition corners (s : shape) : nat := match s with Hex => 8 | Tet => 4 | Prism => 6 | Pyr => 5 | Other => 0 end.
(** the faces of a shape, by the places of their vertices, in turn: of OpenFOAM (doc of its cell models) and VTK alike *)
Definition sides (s : shape) : list (list nat) := match s with
  | Hex => [[0; 1; 2; 3]; [4; 5; 6; 7]; [0; 1; 5; 4]; [1; 2; 6; 5]; [2; 3; 7; 6]; [3; 0; 4; 7]]
  | Tet => [[0; 1; 2]; [0; 1; 3]; [1; 2; 3]; [2; 0; 3]]
  | Prism => [[0; 1; 2]; [3; 4; 5]; [0; 1; 4; 3]; [1; 2; 5; 4]; [2; 0; 3; 5]]
  | Pyr => [[0; 1; 2; 3]; [0; 1; 4]; [1; 2; 4]; [2; 3; 4]; [3; 0; 4]]
  | Other => []
  end%nat.
(** the same vertices in turn, from any of them, in one sense or in the other *)
Definition same_loop (a b : list nat) : Prop := exists k, b = skipn k a ++ firstn k a \/ b = rev (skipn k a ++ firstn k a).
(** six times the volume, with its sign, of the tetrahedron of four vertices *)
Definition volume (at_ : nat -> vec) (a b c d : nat) : R := dot (cross (vsub (at_ b) (at_ a)) (vsub (at_ c) (at_ a))) (vsub (at_ d) (at_ a)).

(** how many vertices two faces share *)
Definition shared (v w : list nat) : nat := length (filter (fun x => if in_dec Nat.eq_dec x w then true else false) v).

(** the faces of a patch *)
Definition in_patch (patches : list (nat * nat)) (k f : nat) : Prop := exists start size, nth_error patches k = Some (start, size) /\ (start <= f < start + size)%nat.
(** patches share no face *)
Definition apart (patches : list (nat * nat)) : Prop := forall k k' f, in_patch patches k f -> in_patch patches k' f -> k = k'.

(** the corners of a vertex *)
Definition around (cs : list (nat * nat * R)) (v : nat) : list (nat * R) := map (fun c => (fst (fst c), snd c)) (filter (fun c => Nat.eqb (snd (fst c)) v) cs).
Definition total (l : list R) : R := fold_right Rplus 0 l.
