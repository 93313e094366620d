(** What the selections of points and cells are measured against. *)
From Coq Require Import Reals List Arith ZArith Bool Permutation.
From Verif Require Import Vec Shape ShapeSpec ShapeSel.
Import ListNotations.
Open Scope R_scope.

(** The point belongs to the volume of the shape: it is the image of a point of the unit cube. *)
Definition inside (s : shape) (p : vec) : Prop :=
  exists b, unit_cube b /\ p = toWorldCoord s (basicToLocal s b).
(** The same for the unit cube enlarged by less than e on each side. *)
Definition inside_within (e : R) (s : shape) (p : vec) : Prop :=
  exists b, (forall i, (i < 3)%nat -> - e < vent b i < 1 + e) /\ p = toWorldCoord s (basicToLocal s b).
(** The azimuthal coordinate of a cylinder or sphere spans the whole circle. *)
Definition whole_turn (s : shape) : Prop :=
  match s_kind s with CYLINDER | SPHERE => vy (s_span s) = 2 * PI | _ => True end.

(** The two selections split the elements: none is lost, none is in both, none is repeated. *)
Definition split_of (inc exc all : list nat) : Prop := Permutation (inc ++ exc) all.

(** Ids are not repeated, and cells have vertices. *)
Definition good_patch (g : patch) : Prop :=
  NoDup (map fst (p_verts g)) /\ NoDup (map fst (p_cells g)) /\
  (forall c vs, In (c, vs) (p_cells g) -> vs <> [] /\ forall v, In v vs -> In v (map fst (p_verts g))).

(** The vertex i is at p. *)
Definition at_point (g : patch) (i : nat) (p : vec) : Prop := In (i, p) (p_verts g).
(** Every vertex of the cell satisfies Q. *)
Definition cell_all (g : patch) (c : nat) (Q : vec -> Prop) : Prop :=
  forall vs v p, In (c, vs) (p_cells g) -> In v vs -> at_point g v p -> Q p.

(** Search trees of the patch: every cell is in one leaf, and the box of a node contains the vertices
    of the cells below it. *)
Definition in_aabb (p b t : vec) : Prop := forall i, (i < 3)%nat -> vent b i <= vent p i <= vent t i.
Fixpoint leaves (n : skd) : list nat :=
  match n with
  | NoChild => []
  | SNode _ _ cs NoChild NoChild => cs
  | SNode _ _ _ l r => leaves l ++ leaves r
  end.
Fixpoint boxes (g : patch) (n : skd) : Prop :=
  match n with
  | NoChild => True
  | SNode b t _ l r => (forall c, In c (leaves n) -> cell_all g c (fun p => in_aabb p b t)) /\ boxes g l /\ boxes g r
  end.
Definition skd_of (g : patch) (n : skd) : Prop := Permutation (leaves n) (map fst (p_cells g)) /\ boxes g n.

(** Point trees: left children are not above the node along the coordinate of the level, right
    children not below; the nodes are the vertices. *)
Fixpoint kd_points (n : kd) : list (nat * vec) :=
  match n with KNil => [] | KNode p i l r => (i, p) :: kd_points l ++ kd_points r end.
Fixpoint kd_sorted (n : kd) (level : nat) : Prop :=
  match n with
  | KNil => True
  | KNode p _ l r =>
      (forall i q, In (i, q) (kd_points l) -> vent q (Nat.modulo level 3) <= vent p (Nat.modulo level 3)) /\
      (forall i q, In (i, q) (kd_points r) -> vent p (Nat.modulo level 3) <= vent q (Nat.modulo level 3)) /\
      kd_sorted l (S level) /\ kd_sorted r (S level)
  end.
Definition kd_of (g : patch) (n : kd) : Prop := Permutation (kd_points n) (p_verts g) /\ kd_sorted n 0.

Definition good_geo (g : geo) : Prop :=
  good_patch (ge_patch g) /\ skd_of (ge_patch g) (ge_skd g) /\ kd_of (ge_patch g) (ge_kd g).

(** Shapes whose search in the tree of boxes is shown complete: cubes, wedges whose axes are those of
    the world, cylinders with a whole turn, spheres with a whole turn and all polar angles. *)
Definition tree_safe (s : shape) : Prop :=
  match s_kind s with
  | CUBE => True
  | WEDGE => s_sdr s = M3 (V3 1 0 0) (V3 0 1 0) (V3 0 0 1)
  | CYLINDER => vy (s_span s) = 2 * PI
  | SPHERE => vy (s_span s) = 2 * PI /\ vz (s_inf s) = 0 /\ vz (s_span s) = PI
  end.
