(** What is asked of the stencils of finite volumes. *)
From Coq Require Import Reals List ZArith.
From Verif Require Import Vec FvSten.
Import ListNotations.
Open Scope R_scope.

(** what a stencil gives for a field on cells *)
Definition gradient_of (s : stencil vec) (u : Z -> R) : vec := fold_right (fun e a => vadd (vscale (u (fst e)) (snd e)) a) (constant s) (items s).
Definition value_of (s : stencil R) (u : Z -> R) : R := fold_right (fun e a => u (fst e) * snd e + a) (constant s) (items s).
(** a field that is linear on these cells *)
Definition linear_on (cells : list Z) (centroid : Z -> vec) (a : R) (b : vec) (u : Z -> R) : Prop := forall c, In c cells -> u c = a + dot b (centroid c).
(** a vector whose square is one *)
Definition unit (n : vec) : Prop := dot n n = 1.
(** the part of a vector along the directions that are there *)
Definition flat (x : vec -> R) (ds : list vec) : Prop := forall d, In d ds -> x d = 0.
Definition seen (x : vec -> R) (ds : list vec) : Prop := exists d, In d ds /\ / 10 ^ 12 <= Rabs (x d).
(** each coordinate is either always zero, or not small for one of the neighbours; out of flat coordinates, neighbours are in all directions *)
Definition well_placed (ds : list vec) : Prop :=
  (flat vx ds \/ seen vx ds) /\ (flat vy ds \/ seen vy ds) /\ (flat vz ds \/ seen vz ds) /\
  (forall b, (flat vx ds -> vx b = 0) -> (flat vy ds -> vy b = 0) -> (flat vz ds -> vz b = 0) -> (forall d, In d ds -> dot b d = 0) -> b = vzero).
(** the faces of a cell, with their outward normals *)
Definition outward (c : Z) (f : face) : vec :=
  vadd (if Z.eqb (f_owner f) c then vscale (f_area f) (f_normal f) else vzero) (match f_neigh f with Some n => if Z.eqb n c then vscale (- f_area f) (f_normal f) else vzero | None => vzero end).
Definition vsum (l : list vec) : vec := fold_right vadd vzero l.
Definition rsum (l : list R) : R := fold_right Rplus 0 l.
(** the normals of a closed cell sum to zero *)
Definition closed (c : Z) (faces : list face) : Prop := vsum (map (outward c) faces) = vzero.
Definition touches (c : Z) (f : face) : Prop := f_owner f = c \/ f_neigh f = Some c.
(** the diffusivity of an interface: of the cell on the border, else the mean of the two *)
Definition mean_diff (diff : option (Z -> R)) (f : face) : R :=
  match diff with None => 1 | Some d => match f_neigh f with None => d (f_owner f) | Some n => (d (f_owner f) + d n) / 2 end end.
(** what flows out of a cell through an interface, and through the border *)
Definition outflow (diff : option (Z -> R)) (u : Z -> R) (c : Z) (f : face) : R := mean_diff diff f * dot (gradient_of (f_grad f) u) (outward c f).
Definition through_border (diff : option (Z -> R)) (u : Z -> R) (f : face) : R :=
  match f_neigh f with None => mean_diff diff f * dot (gradient_of (f_grad f) u) (vscale (f_area f) (f_normal f)) | Some _ => 0 end.
Definition value_if (s : option (stencil R)) (u : Z -> R) : R := match s with Some s => value_of s u | None => 0 end.
