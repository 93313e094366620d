(** Weighted averages: what the averages of fields are measured against. *)
From Coq Require Import Reals List Arith Bool.
From Verif Require Import SharedPtr Field FieldSpec Vec FieldAvg.
Import ListNotations.
Open Scope R_scope.

Fixpoint rsum (l : list R) : R := match l with [] => 0 | x :: r => x + rsum r end.

(** y is a convex combination of the values xs with strictly positive coefficients. *)
Definition convex (xs : list R) (y : R) : Prop :=
  exists cs, length cs = length xs /\ Forall (fun c => 0 < c) cs /\ rsum cs = 1 /\
             y = rsum (map (fun '(c, x) => c * x) (combine cs xs)).

(** The average of the values with the given weights. *)
Definition average (l : list (R * R)) : R :=
  rsum (map (fun '(w, x) => w * x) l) / rsum (map fst l).

(** Inverse distance weight. *)
Definition inv_dist (c x : vec) (p : R) : R := / Rpower (norm (vsub c x)) p.

(** The pairs weight, value that a vertex receives: one for each occurrence of it in a cell with
    a value. *)
Definition received (m : metric) (p : R) (g : geom) (d : list (nat * R)) (v : nat) : list (R * R) :=
  flat_map (fun '(c, vs) => match find c d with
                            | None => []
                            | Some x => map (fun _ => (inv_dist (m_center m c) (m_point m v) p, x)) (filter (Nat.eqb v) vs)
                            end) (g_cells g).

(** No vertex of a cell or interface is at its centroid. *)
Definition apart (m : metric) (g : geom) : Prop :=
  (forall c vs v, In (c, vs) (g_cells g) -> In v vs -> norm (vsub (m_center m c) (m_point m v)) <> 0) /\
  (forall i b vs v, In (i, (b, vs)) (g_ifaces g) -> In v vs -> norm (vsub (m_icenter m i) (m_point m v)) <> 0).
(** The vertices of the cells are vertices of the geometry. *)
Definition closed_geom (g : geom) : Prop :=
  forall c vs v, In (c, vs) (g_cells g) -> In v vs -> In v (g_verts g).

(** The pairs weight, reconstructed value that a vertex receives from the cells with a value x:
    the weight is the inverse cubed volume and [rec x grad dx] the value at the displacement dx
    from the centroid, rebuilt with the gradient at the centroid. *)
Definition cell_grad (fx fy fz : mpv R) (c : nat) : vec :=
  let comp f := match find c (f_data f) with Some y => y | None => 0 end in V3 (comp fx) (comp fy) (comp fz).
Definition rebuilt (rec : R -> vec -> vec -> R) (m : metric) (g : geom) (f fx fy fz : mpv R) (v : nat) : list (R * R) :=
  flat_map (fun '(c, vs) => match find c (f_data f) with
                            | None => []
                            | Some x => map (fun _ => (/ Rpower (m_volume m c) 3,
                                                       rec x (cell_grad fx fy fz c) (vsub (m_point m v) (m_center m c))))
                                            (filter (Nat.eqb v) vs)
                            end) (g_cells g).
(** The value of a linear field at the displacement dx from a point where it has value x. *)
Definition taylor (x : R) (grad dx : vec) : R := x + dot grad dx.
