(** What the theorems on the triangulation of surfaces and on degenerate elements mean. *)
From Coq Require Import String List Arith Bool ZArith Reals Permutation.
From Verif Require Import Vec Obj ObjSpec.
Import ListNotations.
Open Scope list_scope.
Open Scope nat_scope.

(** the sides of a closed polygonal line *)
Definition sides (l : list nat) : list (nat * nat) := match l with [] => [] | a :: r => combine l (r ++ [a]) end.
(** a triangle of vertices [l] of part [p], with some id *)
Definition triangle (l : list nat) (p : Z) (e : nat * cell) : Prop := snd e = Cl ETriangle l p.
(** The triangles that stand in [r] for cell [e] of [g]: the cell itself if it is a triangle; the two
    triangles on one diagonal of a quadrilateral; the triangles joining the sides of a polygon to a
    vertex that [g] has not, at a point [at_] of the cell. *)
Inductive split (g r : obj) (at_ : cell -> vec) : nat * cell -> list (nat * cell) -> Prop :=
  | split_triangle e : c_type (snd e) = ETriangle -> split g r at_ e [e]
  | split_quad i a b c d p e1 e2 : triangle [a; b; c] p e1 -> triangle [a; c; d] p e2 -> split g r at_ (i, Cl EQuad [a; b; c; d] p) [e1; e2]
  | split_pixel i a b c d p e1 e2 : triangle [a; b; c] p e1 -> triangle [a; c; d] p e2 -> split g r at_ (i, Cl EPixel [a; b; c; d] p) [e1; e2]
  | split_polygon i l p v es : ~ In v (map fst (o_verts g)) -> In (v, at_ (Cl EPolygon (length l :: l) p)) (o_verts r) ->
      Forall2 (fun s e => triangle [v; fst s; snd s] p e) (sides l) es -> split g r at_ (i, Cl EPolygon (length l :: l) p) es.
(** the cells a surface may have *)
Definition flat (c : cell) : Prop := c_type c = ETriangle \/ c_type c = EQuad \/ c_type c = EPixel \/ c_type c = EPolygon.
(** [r] is a triangulation of [g]: each cell is replaced by its triangles, nothing else; ids that are
    new are above all the old ones; the old vertices stay, with one new vertex for each polygon; PIDs
    and names are the same *)
Definition polygons (g : obj) : nat := length (filter (fun e => match c_type (snd e) with EPolygon => true | _ => false end) (o_cells g)).
Definition triangulated (at_ : cell -> vec) (g r : obj) : Prop :=
  (exists cs pieces, Permutation cs (o_cells g) /\ Forall2 (split g r at_) cs pieces /\ Permutation (o_cells r) (concat pieces)) /\
  (forall i, In i (map fst (o_cells r)) -> (exists c, In (i, c) (o_cells g) /\ In (i, c) (o_cells r)) \/ forall j, In j (map fst (o_cells g)) -> j < i) /\
  well_formed r /\ closed r /\ (exists new, o_verts r = o_verts g ++ new /\ length new = polygons g) /\
  o_type r = o_type g /\ o_tol r = o_tol g /\ o_pids r = o_pids g /\ o_names r = o_names g.
(** the point depends only on where the vertices of the cell are *)
Definition local (centroid : list (nat * vec) -> cell -> vec) : Prop :=
  forall vs more c, (forall v, vertex_of c v -> In v (map fst vs)) -> centroid (vs ++ more) c = centroid vs c.

(** twice the vector area enclosed by a closed line: the sum of the products of the ends of its sides *)
Fixpoint place (vs : list (nat * vec)) (v : nat) : vec :=
  match vs with [] => vzero | (w, x) :: r => if Nat.eqb w v then x else place r v end.
Definition vsum (l : list vec) : vec := fold_right vadd vzero l.
Definition area (vs : list (nat * vec)) (l : list nat) : vec := vsum (map (fun s => cross (place vs (fst s)) (place vs (snd s))) (sides l)).
(** the boundary of a cell: the vertices of a PIXEL of bitpit are numbered by rows *)
Definition ring (c : cell) : list nat :=
  match c_type c with
  | EPolygon => tl (c_conn c)
  | EPixel => match c_conn c with [a; b; c; d] => [a; b; d; c] | l => l end
  | _ => c_conn c
  end.
Definition surface_area (g : obj) : vec := vsum (map (fun e => area (o_verts g) (ring (snd e))) (o_cells g)).

(** * Degenerate elements *)

(** [l'] is [l] without what comes after an equal element *)
Inductive thinned {A} : list A -> list A -> Prop :=
  | th_nil : thinned [] []
  | th_new x l l' : ~ In x l -> thinned l l' -> thinned (l ++ [x]) (l' ++ [x])
  | th_old x l l' : In x l -> thinned l l' -> thinned (l ++ [x]) l'.
(** the element with [n] vertices of a geometry of type [t] (1 surface, 2 volume, 3 cloud, 4 curve) *)
Definition by_count (t n : nat) : option elem :=
  match t, n with
  | 1, 3 => Some ETriangle | 1, 4 => Some EQuad
  | 2, 4 => Some ETetra | 2, 5 => Some EPyramid | 2, 6 => Some EWedge | 2, 8 => Some EHexahedron
  | 3, 1 => Some EVertex | 4, 2 => Some ELine | _, _ => None
  end.
Definition exact (eqv : vec -> vec -> bool) : Prop := forall x y, eqv x y = true <-> x = y.
(** where the vertices of a cell are *)
Definition places (g : obj) (c : cell) : list vec := map (place (o_verts g)) (c_conn c).
(** elements with a fixed number of vertices, of the kind of the geometry *)
Definition regular (g : obj) : Prop := forall id c, In (id, c) (o_cells g) -> of_type (o_type g) (c_type c) /\ fixed_size (c_type c) = Some (length (c_conn c)).
Definition closed_in (g : obj) : Prop := forall id c v, In (id, c) (o_cells g) -> In v (c_conn c) -> In v (map fst (o_verts g)).
(** [c'] is [c] degraded: the same part, the element with the vertices of [c] that are not at the place of a previous one *)
Definition degraded (g : obj) (c c' : cell) : Prop :=
  c_pid c' = c_pid c /\ thinned (places g c) (places g c') /\ by_count (o_type g) (length (c_conn c')) = Some (c_type c').
Definition healthy (g : obj) (c : cell) : Prop := NoDup (places g c).
(** the edges of the elements of bitpit, by position in the connectivity *)
Definition hexahedron_edges : list (nat * nat) := [(0, 1); (1, 2); (2, 3); (3, 0); (4, 5); (5, 6); (6, 7); (7, 4); (0, 4); (1, 5); (2, 6); (3, 7)].
Definition wedge_edges : list (nat * nat) := [(0, 1); (1, 2); (2, 0); (3, 4); (4, 5); (5, 3); (0, 3); (1, 4); (2, 5)].
Definition edge_at (es : list (nat * nat)) (ps : list vec) (x y : vec) : Prop :=
  exists i j, (In (i, j) es \/ In (j, i) es) /\ nth_error ps i = Some x /\ nth_error ps j = Some y.
