(** What the properties of the manipulators mean. *)
From Coq Require Import List Reals.
From Verif Require Import Vec Field Manip.
Import ListNotations.
Open Scope R_scope.

(** [turned o d a p q]: q is p turned by the angle a about the axis through o with unit direction
    d, counterclockwise seen from the tip of d.  The foot of p on the axis is
    f = o + ((p-o).d) d; q has the same foot and, seen from it, makes the angle a with p at the
    same distance. *)
Definition foot (o d p : vec) : vec := vadd o (vscale (dot (vsub p o) d) d).
Definition turned (o d : vec) (a : R) (p q : vec) : Prop :=
  let f := foot o d p in
  foot o d q = f /\
  dot (vsub q f) (vsub q f) = dot (vsub p f) (vsub p f) /\
  dot (vsub p f) (vsub q f) = cos a * dot (vsub p f) (vsub p f) /\
  cross (vsub p f) (vsub q f) = vscale (sin a * dot (vsub p f) (vsub p f)) d.

Definition unit_vec (d : vec) : Prop := dot d d = 1.
Definition on_axis (o d p : vec) : Prop := exists t, p = vadd o (vscale t d).
Definition dist (p q : vec) : R := sqrt (dot (vsub p q) (vsub p q)).

(** Vertices of a geometry and of a field have distinct ids. *)
Definition distinct_ids {A} (l : list (nat * A)) : Prop := NoDup (map fst l).

Definition wf_store (h : store) : Prop := forall g, distinct_ids (so_verts (h g)).

(** The vertices before and after: same ids in the same order, the coordinates related. *)
Definition moved (F : nat -> vec -> vec -> Prop) (vs ws : list (nat * vec)) : Prop :=
  Forall2 (fun a b => fst a = fst b /\ F (fst a) (snd a) (snd b)) vs ws.

(** A filter can be used on a geometry if it is a field of its points. *)
Definition usable (vs : list (nat * vec)) (g : nat) (f : fld R) : Prop :=
  fd_loc f = LPoint /\ fd_geo f = Some g /\ incl (map fst (fd_data f)) (map fst vs).
(** value of a field at an id, a default where there is none *)
Definition value_or {A} (z : A) (f : fld A) (i : nat) (v : A) : Prop :=
  In (i, v) (fd_data f) \/ (~ In i (map fst (fd_data f)) /\ v = z).
(** The weight of a vertex: the value of a usable filter (0 where it has none); otherwise 1. *)
Definition weight (vs : list (nat * vec)) (g : nat) (f : fld R) (i : nat) (k : R) : Prop :=
  (usable vs g f /\ value_or 0 f i k) \/ (~ usable vs g f /\ k = 1).
(** part k of the way from p to q *)
Definition part_way (k : R) (p q r : vec) : Prop := r = vadd p (vscale k (vsub q p)).

(** the sum of the coordinates of the vertices and their mean point *)
Definition vsum (vs : list (nat * vec)) : vec := fold_right (fun e s => vadd (snd e) s) vzero vs.
Definition mean_point (vs : list (nat * vec)) (c : vec) : Prop := vscale (INR (length vs)) c = vsum vs.

(** orthonormal axes *)
Definition orthonormal (m : mat) : Prop :=
  dot (row0 m) (row0 m) = 1 /\ dot (row1 m) (row1 m) = 1 /\ dot (row2 m) (row2 m) = 1 /\
  dot (row0 m) (row1 m) = 0 /\ dot (row0 m) (row2 m) = 0 /\ dot (row1 m) (row2 m) = 0.
(** coordinates of p in the frame with origin o and axes m *)
Definition local_coords (o : vec) (m : mat) (p q : vec) : Prop :=
  q = V3 (dot (vsub p o) (row0 m)) (dot (vsub p o) (row1 m)) (dot (vsub p o) (row2 m)).

(** the polynomial sum of a_k x^k for k from 0 to n, absent coefficients being 0 *)
Definition poly (a : list R) (n : nat) (x : R) : R := sum_f_R0 (fun k => nth k a 0 * x ^ k) n.
(** component i of the bending law: sum over the axes j of the polynomials P_ij(x_j) *)
Definition bend_law (deg : nat -> nat -> nat) (a : nat -> nat -> list R) (i : nat) (p : vec) : R :=
  poly (a i 0%nat) (deg i 0%nat) (vx p) + poly (a i 1%nat) (deg i 1%nat) (vy p) + poly (a i 2%nat) (deg i 2%nat) (vz p).
Definition bend_vec (deg : nat -> nat -> nat) (a : nat -> nat -> list R) (p : vec) : vec :=
  V3 (bend_law deg a 0 p) (bend_law deg a 1 p) (bend_law deg a 2 p).

(** the twist angle at the height t along the axis: it grows linearly up to alpha at the height D *)
Definition twist_law (alpha D : R) (sym : bool) (t a : R) : Prop :=
  (0 <= t /\ a = alpha * Rmin 1 (t / D)) \/
  (t < 0 /\ sym = true /\ a = - (alpha * Rmin 1 (- t / D))) \/
  (t < 0 /\ sym = false /\ a = 0).
Definition height (o d p : vec) : R := dot (vsub p o) d.

(** Executions one after the other on the same geometry, with apply. *)
Fixpoint exec_all (values : list (vec -> R -> option vec)) (h : store) (m : man) : option (store * man) :=
  match values with
  | [] => Some (h, m)
  | v :: r => match exec v h m with None => None | Some (h, m) => exec_all r h m end
  end.
Fixpoint app_execs (n : nat) (h : store) (a : app) : option (store * app) :=
  match n with
  | O => Some (h, a)
  | S n => match app_execute h a with None => None | Some (h, a) => app_execs n h a end
  end.
Fixpoint af_execs (n : nat) (h : store) (a : app) : option app :=
  match n with
  | O => Some a
  | S n => match af_execute h a with None => None | Some a => af_execs n h a end
  end.

(** A displacement field of the points of a geometry. *)
Definition linked {A} (vs : list (nat * vec)) (g : nat) (f : fld A) : Prop :=
  fd_loc f = LPoint /\ fd_geo f = Some g /\ incl (map fst (fd_data f)) (map fst vs).
(** The displacement of a vertex by an input field of Apply: null where the field has no value and
    everywhere if it is not a field of the points of the geometry. *)
Definition displacement (vs : list (nat * vec)) (g : nat) (f : fld vec) (i : nat) (v : vec) : Prop :=
  (linked vs g f /\ value_or vzero f i v) \/ (~ linked vs g f /\ v = vzero).
(** no scalar input and no filter *)
Definition plain (a : app) : Prop := fd_data (a_scalar a) = [] /\ fd_data (a_filter a) = [].
(** A filter of Apply: none, or a field of points whose ids are vertices of the geometry, a
    surface (Apply takes it whatever geometry it is linked to); its value at a vertex. *)
Definition filter_fits (s : solid) (f : fld R) : Prop :=
  fd_data f = [] \/ (so_type s = 1%nat /\ fd_loc f = LPoint /\ incl (map fst (fd_data f)) (map fst (so_verts s))).
Definition filter_value (f : fld R) (i : nat) (k : R) : Prop :=
  (fd_data f = [] /\ k = 1) \/ (fd_data f <> [] /\ value_or 0 f i k).
(** k + k^2 + ... + k^n *)
Definition powers (k : R) (n : nat) : R := fold_right Rplus 0 (map (pow k) (seq 1 n)).

(** ApplyFilter: the geometry it works on, the fields it accepts (linked to the geometry or not)
    and its factor. *)
Definition af_target (a : app) (g : nat) : Prop :=
  a_geo a = Some g \/ (a_geo a = None /\ fd_geo (a_input a) = Some g).
Definition on_points {A} (vs : list (nat * vec)) (f : fld A) : Prop :=
  fd_loc f = LPoint /\ incl (map fst (fd_data f)) (map fst vs).
(** the largest double is taken as "no factor" *)
Definition af_factor (a : app) (c : R) : Prop :=
  (a_factor a = max_double /\ c = 1) \/ (a_factor a <> max_double /\ c = a_factor a).
(** coordinate number i of a point *)
Definition coordinate (i : nat) (v : vec) : R := nth i [vx v; vy v; vz v] 0.
(** the point q' is q with the coordinate i increased by x *)
Definition shifted (i : nat) (x : R) (q q' : vec) : Prop :=
  forall c, (c < 3)%nat -> coordinate c q' = coordinate c q + (if Nat.eq_dec c i then x else 0).
