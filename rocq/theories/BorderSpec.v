(** What a user expects of the border of a geometry. *)
From Coq Require Import List Arith.
From Verif Require Import Obj ObjSpec TopoSpec.
Import ListNotations.

(** [m] is the mesh of the cells of [g]: the same cells, with faces made of their vertices *)
Definition mesh_of (m : mesh) (g : obj) : Prop :=
  map fst m = map fst (o_cells g) /\
  forall c f v, has_face m c f -> In v f -> exists k, In (c, k) (o_cells g) /\ vertex_of k v.
(** the vertices of the faces, by cell and number of the face *)
Definition faces_right (m : mesh) (face : nat -> nat -> list nat) : Prop := forall c i f, face_at m c i f -> face c i = f.
(** the interfaces on the free faces: each has its own, an element on the face, owned by the cell *)
Definition interfaces_right (m : mesh) (interf : nat -> nat -> nat) (shape : nat -> elem * list nat) (owner : nat -> nat) : Prop :=
  (forall c i f, free_at m c i f -> owner (interf c i) = c /\ means (fst (shape (interf c i))) (snd (shape (interf c i))) [f] /\
     fst (shape (interf c i)) <> EPolyhedron /\ (fst (shape (interf c i)) = EPolygon -> 3 <= length f)) /\
  (forall c i f d j h, free_at m c i f -> free_at m d j h -> interf c i = interf d j -> c = d /\ i = j).
