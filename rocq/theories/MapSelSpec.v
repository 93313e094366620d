(** What the theorems on the selection of the part near to other geometries mean. *)
From Coq Require Import List Arith NArith ZArith Reals.
From Verif Require Import Vec SkdSel SkdSelSpec MapSel.
Import ListNotations.

(** the kinds of geometry the block accepts: a surface, a volume, a curve *)
Definition kind (t : Z) : Prop := (t = 1 \/ t = 2 \/ t = 4)%Z.
(** the files that fit a target: surfaces and curves for a surface, volumes for a volume, curves for a curve *)
Definition fits (topo t : Z) : Prop :=
  (topo = 1 /\ (t = 0 \/ t = 1 \/ t = 3 \/ t = 5 \/ t = 99) \/ topo = 2 /\ (t = 2 \/ t = 99) \/ topo = 4 /\ (t = 5 \/ t = 99))%Z.
Definition fits_geometry (topo t : Z) : Prop := (topo = 1 /\ (t = 1 \/ t = 4) \/ topo = 2 /\ t = 2 \/ topo = 4 /\ t = 4)%Z.

(** the calls on the block *)
Inductive ms_call :=
| MsTolerance (t : R) | MsGeometry (g : option geom) | MsFile (f : text * Z) | MsMap (k : nat) (g : geom)
| MsDropFile (f : text) | MsDropFiles | MsDropMaps | MsDual (d : bool).
(** the file [f] is asked for by the calls, latest first: added with a type that fits, not removed
    after, with no file of this name at the time *)
Fixpoint file_in (topo : Z) (h : list ms_call) (f : text) (t : Z) : Prop :=
  match h with
  | [] => False
  | MsFile (f', t') :: r => file_in topo r f t \/ (f' = f /\ t' = t /\ fits topo t /\ forall u, ~ file_in topo r f u)
  | MsDropFile f' :: r => f' <> f /\ file_in topo r f t
  | MsDropFiles :: _ => False
  | _ :: r => file_in topo r f t
  end.

(** the tolerance asked for by the calls, latest first: the last one that is set, and 10^-8 if it is negative or none is set *)
Fixpoint tol_in (h : list ms_call) (r : R) : Prop :=
  match h with
  | [] => (r * 10 ^ 8 = 1)%R
  | MsTolerance t :: _ => ((0 <= t -> r = t) /\ (t < 0 -> r * 10 ^ 8 = 1))%R
  | _ :: h => tol_in h r
  end.

(** a geometry in order: a tree of bounding boxes, whose leaves hold cells of the geometry *)
Definition in_order (g : geom) : Prop := bounding (gm_tree g) /\ NoDup (gm_cells g) /\ forall i, cell_of (gm_tree g) i -> In i (gm_cells g).
(** the separators of a path and the dot *)
Definition plain (l : text) : Prop := ~ In 47%N l /\ ~ In 92%N l.
Definition dotless (l : text) : Prop := ~ In 46%N l.
