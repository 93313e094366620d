(** What is assumed of the partition of a geometry among processes (the work of bitpit), stated on
    the points of the whole geometry. *)
From Coq Require Import List ZArith Bool Permutation.
From Verif Require Import Ghost.
Import ListNotations.
Open Scope Z_scope.

Section Partition.
  (** The points of the geometry, and the point each vertex of each rank is a copy of. *)
  Context {P : Type}.
  Variable w : list part.
  Variable point : nat -> Z -> P.

  (** [v] is a vertex of rank [r]; an interior one. *)
  Definition vertex_of (r : nat) (v : Z) : Prop := exists p, nth_error w r = Some p /\ In v (p_verts p).
  Definition interior_of (r : nat) (v : Z) : Prop :=
    exists p, nth_error w r = Some p /\ In v (p_verts p) /\ p_interior p v = true.

  Definition sends (r s : nat) (l : list Z) : Prop := exists p, nth_error w r = Some p /\ rfind (p_sources p) s = Some l.
  Definition expects (s r : nat) (l : list Z) : Prop := exists p, nth_error w s = Some p /\ rfind (p_targets p) r = Some l.

  Record partitioned : Prop := {
    (** ids are unique on a rank, and two vertices of a rank are different points *)
    ids_unique : forall r p, nth_error w r = Some p -> NoDup (p_verts p);
    points_unique : forall r v u, vertex_of r v -> vertex_of r u -> point r v = point r u -> v = u;
    (** each point is interior to one and only one rank *)
    owned : forall r v, vertex_of r v -> exists o u, interior_of o u /\ point o u = point r v;
    owned_once : forall r v o u, interior_of r v -> interior_of o u -> point r v = point o u -> r = o;
    (** what is sent is what is expected, in the same order *)
    send_expect : forall r s l, sends r s l -> exists l', expects s r l' /\ length l = length l' /\
      (forall i a b, nth_error l i = Some a -> nth_error l' i = Some b ->
         vertex_of r a /\ vertex_of s b /\ point r a = point s b);
    expect_send : forall s r l, expects s r l -> exists l', sends r s l';
    (** a vertex which is not interior is expected from its owner *)
    ghosts_expected : forall s v o u, vertex_of s v -> ~ interior_of s v -> interior_of o u -> point o u = point s v ->
      exists l, expects s o l /\ In v l
  }.

  (** The messages to a rank arrive in any order, each once. *)
  Definition arrive (r : nat) (arrivals : list nat) : Prop :=
    NoDup arrivals /\ forall s, In s arrivals <-> exists l, sends s r l.

  (** The number of interior vertices of the whole geometry. *)
  Definition interior_count (n : Z) : Prop :=
    exists L : list (nat * Z), NoDup L /\ (forall r v, In (r, v) L <-> interior_of r v) /\ Z.of_nat (length L) = n.
End Partition.

(** Two maps which are the inverse of each other. *)
Definition inverse_maps (m inv : list (Z * Z)) : Prop :=
  forall k c, zget inv k = Some c <-> zget m c = Some k.
