(** What it is for a field to be the reconstruction of the fields of sub-patches. *)
From Coq Require Import List Arith Bool Reals.
From Verif Require Import SharedPtr Field FieldSpec Vec Recon.
Import ListNotations.

(** The element of the location belongs to the sub-patch of the field. *)
Definition covers {A} (mesh : nat -> geom) (loc : location) (p : patch A) (id : nat) : Prop :=
  exists g, p_geo p = Some g /\ In id (elements_of (mesh g) loc).
(** The values the fields have on an element, in the order of the fields. *)
Inductive collects {A} (mesh : nat -> geom) (loc : location) (id : nat) : list (patch A) -> list A -> Prop :=
| c_none : collects mesh loc id [] []
| c_has : forall p v ps vs, covers mesh loc p id -> In (id, v) (p_data p) ->
    collects mesh loc id ps vs -> collects mesh loc id (p :: ps) (v :: vs)
| c_skip : forall p ps vs, ~ covers mesh loc p id -> collects mesh loc id ps vs -> collects mesh loc id (p :: ps) vs.

(** Meshes and fields as the library makes them: no id twice, no null geometry. *)
Definition patch_ok {A} (mesh : nat -> geom) (p : patch A) : Prop :=
  NoDup (map fst (p_data p)) /\ exists g, p_geo p = Some g /\ geom_ok (mesh g).
(** A value for all the elements of the sub-patch that are in the target. *)
Definition full {A} (mesh : nat -> geom) (loc : location) (target : nat) (p : patch A) : Prop :=
  forall id, covers mesh loc p id -> In id (elements_of (mesh target) loc) -> exists v, In (id, v) (p_data p).

Fixpoint total (l : list R) : R := match l with [] => 0%R | x :: r => (x + total r)%R end.

(** The value where the fields have the values vs. *)
Definition scalar_blend (o : overlap) (vs : list R) (x : R) : Prop :=
  match vs with
  | [] => x = 0%R
  | _ => match o with
         | OMax => In x vs /\ (forall y, In y vs -> (y <= x)%R)
         | OMin => In x vs /\ (forall y, In y vs -> (x <= y)%R)
         | OAvg => (x * INR (length vs) = total vs)%R
         | OSum => x = total vs
         end
  end.
(** Vectors: the longest, the shortest (the first of them), the mean, the sum. *)
Definition vector_blend (o : overlap) (vs : list vec) (x : vec) : Prop :=
  match vs with
  | [] => x = V3 0 0 0
  | _ => match o with
         | OMax => exists l r, vs = l ++ x :: r /\ (forall y, In y l -> (norm y < norm x)%R) /\ (forall y, In y r -> (norm y <= norm x)%R)
         | OMin => exists l r, vs = l ++ x :: r /\ (forall y, In y l -> (norm x < norm y)%R) /\ (forall y, In y r -> (norm x <= norm y)%R)
         | OAvg => vscale (INR (length vs)) x = V3 (total (map vx vs)) (total (map vy vs)) (total (map vz vs))
         | OSum => x = V3 (total (map vx vs)) (total (map vy vs)) (total (map vz vs))
         end
  end.

(** The field has a value for the elements of the target and for nothing else, once. *)
Definition field_on {A} (elements : list nat) (f : list (nat * A)) : Prop :=
  NoDup (map fst f) /\ (forall id, In id (map fst f) <-> In id elements).
(** The result, and its restrictions to the sub-patches. *)
Definition rebuilt {A} (blend : list A -> A -> Prop) (mesh : nat -> geom) (loc : location) (target : nat) (ps : list (patch A)) (f : list (nat * A)) (subs : list (patch A)) : Prop :=
  field_on (elements_of (mesh target) loc) f /\
  (forall id x, In (id, x) f -> exists vs, collects mesh loc id ps vs /\ blend vs x) /\
  Forall2 (fun p s => p_geo s = p_geo p /\ p_loc s = loc /\ NoDup (map fst (p_data s)) /\
                      (forall id x, In (id, x) (p_data s) <-> covers mesh loc p id /\ In (id, x) f)) ps subs.
