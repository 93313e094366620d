(** What the selection of near cells is asked for. *)
From Coq Require Import List Arith Reals.
From Verif Require Import Vec SkdSel.
Import ListNotations.
Open Scope R_scope.

(** A point in a box, a box in a box. *)
Definition inside (b : sbox) (p : vec) : Prop :=
  vx (bmin b) <= vx p <= vx (bmax b) /\ vy (bmin b) <= vy p <= vy (bmax b) /\ vz (bmin b) <= vz p <= vz (bmax b).
Definition within (a b : sbox) : Prop := forall p, inside a p -> inside b p.
(** A leaf of a tree, with its box and its cells. *)
Inductive leaf_of : tree -> sbox -> list nat -> Prop :=
| leaf_here : forall b cs, leaf_of (Node b cs []) b cs
| leaf_below : forall b cs ks k b' cs', In k ks -> leaf_of k b' cs' -> leaf_of (Node b cs ks) b' cs'.
(** Trees of bounding boxes: none is empty, and a node has those of its children inside. *)
Inductive bounding : tree -> Prop :=
| bounding_node : forall b cs ks, (exists p, inside b p) -> (forall k, In k ks -> within (tbox k) b) -> (forall k, In k ks -> bounding k) -> bounding (Node b cs ks).

(** Two boxes within a tolerance, axis by axis. *)
Definition reach (tol : R) (a b : sbox) : Prop :=
  exists p q, inside a p /\ inside b q /\ Rabs (vx p - vx q) <= tol /\ Rabs (vy p - vy q) <= tol /\ Rabs (vz p - vz q) <= tol.
(** The cell is in a leaf of the target within the tolerance of a leaf of the selection. *)
Definition near_cell (selection target : tree) (tol : R) (id : nat) : Prop :=
  exists b cs b' cs', leaf_of target b cs /\ In id cs /\ leaf_of selection b' cs' /\ reach tol b' b.
(** The boxes of the leaves bound their cells: [on c p] when p is a point of the cell c. *)
Definition bounds (t : tree) (on : nat -> vec -> Prop) : Prop :=
  forall b cs c p, leaf_of t b cs -> In c cs -> on c p -> inside b p.
Definition cell_of (t : tree) (c : nat) : Prop := exists b cs, leaf_of t b cs /\ In c cs.
