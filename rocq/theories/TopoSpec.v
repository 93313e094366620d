(** What a user expects of the parts and of the borders of a mesh. *)
From Coq Require Import List Arith.
Import ListNotations.

(** a mesh: the cells, each with its faces; a face is the list of its vertices *)
Definition mesh := list (nat * list (list nat)).
(** two faces are the same when they have the same vertices *)
Definition same (f h : list nat) : Prop := forall v, In v f <-> In v h.
Definition has_face (m : mesh) (c : nat) (f : list nat) : Prop := exists fs, In (c, fs) m /\ In f fs.
(** [n] lies on the other side of face [f] of [c] *)
Definition across (m : mesh) (c : nat) (f : list nat) (n : nat) : Prop := n <> c /\ exists h, has_face m n h /\ same f h.
(** the adjacencies of the mesh are right: for each face, exactly the cells on the other side, in any order *)
Definition adjacent_right (m : mesh) (adj : nat -> list (list nat)) : Prop :=
  forall c fs, In (c, fs) m -> Forall2 (fun f ns => forall n, In n ns <-> across m c f n) fs (adj c).

(** two cells touch when they share a face; they are linked by a chain of cells that touch *)
Definition touch (m : mesh) (a b : nat) : Prop := exists f, has_face m a f /\ across m a f b.
Inductive linked (m : mesh) : nat -> nat -> Prop :=
| lk_refl : forall a, linked m a a
| lk_step : forall a b c, touch m a b -> linked m b c -> linked m a c.

(** a free face: a face of a cell that no other cell has *)
Definition free (m : mesh) (c : nat) (f : list nat) : Prop := has_face m c f /\ forall n, ~ across m c f n.
Definition watertight (m : mesh) : Prop := forall c f, ~ free m c f.

(** face number [i] of cell [c] is [f] *)
Definition face_at (m : mesh) (c i : nat) (f : list nat) : Prop := exists fs, In (c, fs) m /\ nth_error fs i = Some f.
(** it is free *)
Definition free_at (m : mesh) (c i : nat) (f : list nat) : Prop := face_at m c i f /\ forall n, ~ across m c f n.

(** the sides of a face given by its vertices in order, in any direction *)
Definition ring_sides (f : list nat) : list (nat * nat) := combine f (tl f ++ firstn 1 f).
Definition side (f : list nat) (a b : nat) : Prop := In (a, b) (ring_sides f) \/ In (b, a) (ring_sides f).
(** a volume mesh as one expects it: in each cell a side belongs to exactly two faces *)
Definition solid_cells (m : mesh) : Prop :=
  forall c i f a b, face_at m c i f -> side f a b -> exists j h, j <> i /\ face_at m c j h /\ side h a b /\ forall k g, face_at m c k g -> side g a b -> k = i \/ k = j.
(** faces with the same vertices have the same sides, a cell has no two faces alike, and a face
    belongs to two cells at most *)
Definition conforming (m : mesh) : Prop :=
  (forall c i f d j h, face_at m c i f -> face_at m d j h -> same f h -> forall a b, side f a b -> side h a b) /\
  (forall c i f j h, face_at m c i f -> face_at m c j h -> same f h -> i = j) /\
  (forall c i f n n', face_at m c i f -> across m c f n -> across m c f n' -> n = n').
