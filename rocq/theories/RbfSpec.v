(** What the properties of the radial basis functions mean. *)
From Coq Require Import List Reals Sorted Permutation.
From Verif Require Import Vec Field Manip ManipSpec Rbf.
Import ListNotations.
Open Scope R_scope.

(** f 0 + f 1 + … + f (n-1) *)
Fixpoint total (f : nat -> R) (n : nat) : R := match n with O => 0 | S n => total f n + f n end.

(** The influence at p of a node at x with support radius r: the basis function of the distance
    divided by the radius (at an infinite distance if the radius is null). *)
Definition influence (k : kernel) (p x : vec) (r : R) : R :=
  if Req_EM_T r 0 then k_inf k else k_fun k (dist p x / r).
(** The sum at p of the influences of the active nodes times their weights. *)
Definition node_term (k : kernel) (nodes : list (vec * bool)) (radii : list R) (p : vec) (w : nat -> R) (i : nat) : R :=
  match nth_error nodes i with
  | Some (x, true) => influence k p x (nth i radii 0) * w i
  | _ => 0
  end.
Definition combination (k : kernel) (nodes : list (vec * bool)) (radii : list R) (w : nat -> R) (p : vec) : R :=
  total (node_term k nodes radii p w) (length nodes).
(** the same with vectors as weights; weights beyond the list are null *)
Definition vec_combination (k : kernel) (nodes : list (vec * bool)) (radii : list R) (D : list vec) (p : vec) : vec :=
  V3 (combination k nodes radii (fun i => vx (nth i D vzero)) p)
     (combination k nodes radii (fun i => vy (nth i D vzero)) p)
     (combination k nodes radii (fun i => vz (nth i D vzero)) p).

(** lo and hi are the corners of the smallest box with the points ps, d its diagonal *)
Definition least (f : vec -> R) (ps : list vec) (m : R) : Prop := (exists p, In p ps /\ f p = m) /\ forall p, In p ps -> m <= f p.
Definition greatest (f : vec -> R) (ps : list vec) (m : R) : Prop := (exists p, In p ps /\ f p = m) /\ forall p, In p ps -> f p <= m.
Definition diagonal (ps : list vec) (d : R) : Prop :=
  exists lo hi, least vx ps (vx lo) /\ least vy ps (vy lo) /\ least vz ps (vz lo) /\
    greatest vx ps (vx hi) /\ greatest vy ps (vy hi) /\ greatest vz ps (vz hi) /\ d = dist hi lo.

(** p is within the radius of some node *)
Definition supported (nodes : list (vec * bool)) (radii : list R) (p : vec) : Prop :=
  exists i e r, nth_error nodes i = Some e /\ nth_error radii i = Some r /\ dist p (fst e) <= r.
(** The class restricts itself to the supports when it is asked to and no radius exceeds its
    threshold. *)
Definition restricted (ps : list vec) (p : rbf_par) (radii : list R) : Prop :=
  p_compact p = true /\ exists d, diagonal ps d /\ forall r, In r radii -> r <= p_diag p * d.

(** the factor applied to vertex i: the weight given by the filter, 1 if there is no filter *)
Definition factor (vs : list (nat * vec)) (g : nat) (r : rbf) (i : nat) (k : R) : Prop :=
  (b_bfilter r = true /\ weight vs g (b_filter r) i k) \/ (b_bfilter r = false /\ k = 1).

(** the weights W of the data fields reproduce the data at every active node *)
Definition interpolates (k : kernel) (nodes : list (vec * bool)) (radii : list R) (W D : list (list R)) : Prop :=
  forall j i x, (j < length D)%nat -> nth_error nodes i = Some (x, true) ->
    combination k nodes radii (fun i => nth i (nth j W []) 0) x = nth i (nth j D []) 0.
(** … up to an error *)
Definition interpolates_within (eps : R) (k : kernel) (nodes : list (vec * bool)) (radii : list R) (W D : list (list R)) : Prop :=
  forall j i e, (j < length D)%nat -> nth_error nodes i = Some e ->
    Rabs (combination k nodes radii (fun i => nth i (nth j W []) 0) (fst e) - nth i (nth j D []) 0) <= eps.

(** the vertices of a geometry by increasing id *)
Definition listed (vs l : list (nat * vec)) : Prop :=
  Permutation vs l /\ StronglySorted (fun a b => (fst a < fst b)%nat) l.
