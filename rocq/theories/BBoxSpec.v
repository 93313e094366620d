(** What boxes around geometries are measured against. *)
From Coq Require Import Reals List Arith.
From Coquelicot Require Hierarchy RInt.
From Verif Require Import Vec Shape ShapeSpec BBox.
Import ListNotations.
Open Scope R_scope.

(** x is a vertex of one of the geometries, on one of the processes *)
Definition is_point (w : world) (x : vec) : Prop := exists gs g, In gs w /\ In g gs /\ In x (g_points g).
(** where x is along the axis i, from the point o *)
Definition place (m : mat) (i : nat) (o x : vec) : R := sum3 (fun k => (vent x k - vent o k) * ment m i k).
(** x is between the pairs of planes normal to the axes at half a span from the origin *)
Definition between (b : box) (x : vec) : Prop := forall i, (i < 3)%nat -> Rabs (place (b_axes b) i (b_origin b) x) <= vent (b_span b) i / 2.
(** x is reached from the origin by at most half a span along each axis *)
Definition in_box (b : box) (x : vec) : Prop :=
  exists c, (forall i, (i < 3)%nat -> Rabs (c i) <= vent (b_span b) i / 2) /\
            forall k, (k < 3)%nat -> vent x k = vent (b_origin b) k + sum3 (fun i => c i * ment (b_axes b) i k).
(** the coordinates along the axes are numbers a double can hold *)
Definition representable (m : mat) (w : world) : Prop :=
  forall x i, is_point w x -> (i < 3)%nat -> Rabs (sum3 (fun k => vent x k * ment m i k)) <= (2 - / 2 ^ 52) * 2 ^ 1023.
(** a point on each of the two faces normal to the axis i *)
Definition touched (b : box) (w : world) (i : nat) : Prop :=
  (exists x, is_point w x /\ place (b_axes b) i (b_origin b) x = vent (b_span b) i / 2) /\
  (exists x, is_point w x /\ place (b_axes b) i (b_origin b) x = - (vent (b_span b) i / 2)).
(** the mean of the products of the deviations from the mean, over the points of l *)
Definition sum_list (l : list R) : R := fold_right Rplus 0 l.
Definition mean (l : list R) : R := sum_list l / INR (length l).
Definition spread (l : list vec) (j k : nat) : R :=
  mean (map (fun x => (vent x j - mean (map (fun y => vent y j) l)) * (vent x k - mean (map (fun y => vent y k) l))) l).
(** the variance, given by the matrix c, along v *)
Definition variance (c : mat) (v : vec) : R := sum3 (fun i => sum3 (fun j => vent v i * ment c i j * vent v j)).
Definition length_one (v : vec) : Prop := sum3 (fun i => vent v i * vent v i) = 1.
(** what LAPACK gives for a symmetric matrix: ascending eigenvalues, eigenvectors one normal to the other (the
    rows of the first matrix) *)
Definition eigen_right (dsyev : mat -> mat * vec) (c : mat) : Prop :=
  orthonormal (fst (dsyev c)) /\ vx (snd (dsyev c)) <= vy (snd (dsyev c)) <= vz (snd (dsyev c)) /\
  forall i k, (i < 3)%nat -> (k < 3)%nat -> sum3 (fun j => ment c k j * ment (fst (dsyev c)) i j) = vent (snd (dsyev c)) i * ment (fst (dsyev c)) i k.
(** the triangles and the points of a world *)
Definition all_points (w : world) : list vec := concat (map (fun gs => concat (map g_points gs)) w).
Definition all_triangles (w : world) : list (vec * vec * vec) := concat (map (fun gs => concat (map g_tris gs)) w).
Definition surfaces_only (w : world) : Prop := forall gs g, In gs w -> In g gs -> g_cloud g = false.
(** the mean of f over the surface made by triangles: the integral over each of them, point by point *)
Definition integral (f : R -> R) (a b : R) : R := @RInt.RInt Hierarchy.R_CompleteNormedModule f a b.
Definition area (t : vec * vec * vec) : R := let '(p, q, r) := t in norm (cross (vsub q p) (vsub r p)) / 2.
Definition over_triangle (f : vec -> R) (t : vec * vec * vec) : R :=
  let '(p, q, r) := t in 2 * area t * integral (fun s => integral (fun u => f (vadd p (vadd (vscale s (vsub q p)) (vscale u (vsub r p))))) 0 (1 - s)) 0 1.
Definition total (f : vec * vec * vec -> R) (w : world) : R := sum_list (map f (all_triangles w)).
Definition surface_mean (f : vec -> R) (w : world) : R := total (over_triangle f) w / total area w.
