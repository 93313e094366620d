(** What the propagation of fields should do, in words of the mesh, of the linear systems and of the plane;
    nothing here is taken from Propagate.v. *)
From Coq Require Import Reals List Arith.
From Verif Require Import Vec.
Import ListNotations.
Open Scope R_scope.

(** ** Linear systems *)
(** a sum over a list of ids *)
Fixpoint total (f : nat -> R) (l : list nat) : R := match l with [] => 0 | j :: r => f j + total f r end.
(** the product of a sparse row by a vector *)
Fixpoint row_value (l : list (nat * R)) (x : nat -> R) : R := match l with [] => 0 | (j, w) :: r => w * x j + row_value r x end.
Definition solves (ids : list nat) (a : nat -> list (nat * R)) (b x : nat -> R) : Prop := forall i, In i ids -> row_value (a i) x = b i.
(** a solver of linear systems: it finds a solution where there is one *)
Definition correct_solver (solve : list nat -> (nat -> list (nat * R)) -> (nat -> R) -> nat -> R) : Prop :=
  forall ids a b, (exists x, solves ids a b x) -> solves ids a b (solve ids a b).

(** ** Equilibrium *)
(** how much a vertex is pulled by one it is linked to: the mean diffusivity, over the square of the distance;
    relaxed if both are in the band and the other is farther *)
Definition square_distance (p q : vec) : R := (vx p - vx q) * (vx p - vx q) + (vy p - vy q) * (vy p - vy q) + (vz p - vz q) * (vz p - vz q).
Definition pull (pos : nat -> vec) (diff : nat -> R) (band : nat -> option R) (relax : R) (i j : nat) : R :=
  (diff i + diff j) / 2 / square_distance (pos i) (pos j)
  * match band i, band j with Some d, Some e => if Rlt_dec d e then relax else 1 | _, _ => 1 end.
(** a mesh: links within the vertices, linked vertices apart, positive diffusivity *)
Record sound_mesh (verts : list nat) (link : nat -> list nat) (pos : nat -> vec) (diff : nat -> R) : Prop := {
  links_within : forall i j, In i verts -> In j (link i) -> In j verts;
  links_apart : forall i j, In i verts -> In j (link i) -> pos i <> pos j;
  diffusive : forall i, In i verts -> 0 < diff i }.
(** a chain of links to a vertex with a condition *)
Inductive tied {A : Type} (link : nat -> list nat) (bc : nat -> option A) : nat -> Prop :=
| tied_here : forall i, bc i <> None -> tied link bc i
| tied_link : forall i j, In j (link i) -> tied link bc j -> tied link bc i.
(** the field has the values of the conditions, and elsewhere the pulls balance *)
Definition equilibrium (verts : list nat) (link : nat -> list nat) (c : nat -> nat -> R) (bc : nat -> option R) (u : nat -> R) : Prop :=
  forall i, In i verts -> match bc i with Some b => u i = b | None => total (fun j => c i j * (u j - u i)) (link i) = 0 end.

(** ** Vectors *)
(** what is prescribed: the conditions, or nothing moves on periodic borders *)
Definition prescribed (bc : nat -> option vec) (periodic : list nat) (i : nat) : option vec :=
  match bc i with Some b => Some b | None => if in_dec Nat.eq_dec i periodic then Some (V3 0 0 0) else None end.
Definition component (c : vec -> R) : Prop := c = vx \/ c = vy \/ c = vz.
Definition part (c : vec -> R) (bc : nat -> option vec) (i : nat) : option R := match bc i with Some b => Some (c b) | None => None end.
Definition within (lo hi v : vec) : Prop := forall c, component c -> c lo <= c v <= c hi.
(** linked vertices farther from each other, along an axis, than the displacements may differ *)
Definition roomy (verts : list nat) (link : nat -> list nat) (pos : nat -> vec) (lo hi : vec) : Prop :=
  forall i j, In i verts -> In j (link i) -> exists c, component c /\ c hi - c lo < Rabs (c (pos i) - c (pos j)).
(** a point on the plane for a point and a normal, and the foot of a point on it *)
Definition on_plane (q n p : vec) : Prop := (vx p - vx q) * vx n + (vy p - vy q) * vy n + (vz p - vz q) * vz n = 0.
Definition foot (q n p f : vec) : Prop := on_plane q n f /\ exists t, p = V3 (vx f + t * vx n) (vy f + t * vy n) (vz f + t * vz n).

(** ** Damping *)
(** the diffusivity around the surfaces: greatest up to the inner distance, then a power law that is one at the outer *)
Definition damping_law (radius plateau decay d : R) : R := if Rlt_dec d plateau then Rpower (radius / plateau) decay else Rpower (radius / d) decay.
(** how the diffusivity of a cell decays from one to zero between the inner and the outer distance *)
Definition decay_law (radius plateau decay d : R) : R := if Rlt_dec d plateau then 1 else (Rpower (radius / d) decay - 1) / (Rpower (radius / plateau) decay - 1).

(** ** Boundary conditions *)
(** the value for an id in a container *)
Fixpoint value_at {A : Type} (i : nat) (l : list (nat * A)) : option A := match l with [] => None | (j, x) :: r => if Nat.eq_dec j i then Some x else value_at i r end.
Definition or_zero {A : Type} (zero : A) (x : option A) : A := match x with Some y => y | None => zero end.
