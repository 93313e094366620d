(** What is asked of the files of labelled displacements and of clouds of points. *)
From Coq Require Import List NArith ZArith.
From Verif Require Import Text TextSpec LabelIo.
Import ListNotations.

Definition kept_point (p q : point) : Prop :=
  let '(x, y, z) := p in let '(x', y', z') := q in kept 6 x x' /\ kept 6 y y' /\ kept 6 z z'.
(** the same labelled points, in the same order *)
Definition same_points (l l' : list (Z * point)) : Prop := Forall2 (fun e e' => fst e' = fst e /\ kept_point (snd e) (snd e')) l l'.
(** a field on the vertices: each vertex has the value written for it, [zero] when the field had none *)
Definition field_read_back {A : Type} (ok : A -> A -> Prop) (zero : A) (verts : list Z) (f g : list (Z * A)) : Prop :=
  NoDup (map fst g) /\ (forall id, In id (map fst g) <-> In id verts) /\
  forall id, In id verts -> exists x y, (In (id, x) f \/ ~ In id (map fst f) /\ x = zero) /\ In (id, y) g /\ ok x y.
