(** SpecularPoints (src/utils/SpecularPoints.cpp): a cloud of points and the data on it mirrored
    across a plane, and, if a surface is linked, projected on it.  Doubles are real numbers.  The
    search for the projection (ProjPatchOnSurface::projection, modelled in SkdDist and GlobDist) is
    the function [project]; the reserve and squeeze calls, the tree and the XML are not modelled. *)
From Coq Require Import Reals List Arith Bool.
From Verif Require Import Vec.
Import ListNotations.
Open Scope R_scope.

(** std::numeric_limits<double>::min() *)
Definition dmin : R := / 2 ^ 1022.

(** ** The settings, 32-42 *)
Record settings := Set_ { s_plane : vec * R; s_implicit : bool; s_origin : vec; s_normal : vec; s_out : bool; s_force : bool }.
Definition new_specular : settings := Set_ (vzero, 0) false vzero vzero false true.
(** setPlane(darray4E), 284-288 *)
Definition setPlane4 (n : vec) (d : R) (s : settings) : settings := Set_ (n, d) true (s_origin s) (s_normal s) (s_out s) (s_force s).
(** setPlane(origin, normal), 296-310 *)
Definition setPlane (o n : vec) (s : settings) : settings :=
  let n := if Rlt_dec dmin (norm n) then vscale (/ norm n) n else n in
  Set_ (n, -1 * dot o n) true (s_origin s) (s_normal s) (s_out s) (s_force s).
(** 316-348 *)
Definition setOrigin (o : vec) (s : settings) : settings := Set_ (s_plane s) (s_implicit s) o (s_normal s) (s_out s) (s_force s).
Definition setNormal (n : vec) (s : settings) : settings := Set_ (s_plane s) (s_implicit s) (s_origin s) n (s_out s) (s_force s).
Definition setInsideOut (b : bool) (s : settings) : settings := Set_ (s_plane s) (s_implicit s) (s_origin s) (s_normal s) b (s_force s).
Definition setForce (b : bool) (s : settings) : settings := Set_ (s_plane s) (s_implicit s) (s_origin s) (s_normal s) (s_out s) b.
(** clear, 537-546 (the links to the cloud, the data and the surface are not settings here) *)
Definition clear (s : settings) : settings := Set_ (vzero, 0) (s_implicit s) (s_origin s) (s_normal s) false (s_force s).

(** ** A process: vertices, cells (id, vertex), and the fields on the points *)
Record cloud := Cloud { verts : list (nat * vec); cells : list (nat * nat); scalars : list (nat * R); vectors : list (nat * vec) }.
Fixpoint at_id {A : Type} (zero : A) (id : nat) (l : list (nat * A)) : A :=
  match l with [] => zero | (i, x) :: r => if Nat.eqb i id then x else at_id zero id r end.
(** 366-371, 456-475: the fields initialised to zero on the cloud and then, if given, copied *)
Definition field_on {A : Type} (zero : A) (vs : list (nat * vec)) (f : option (list (nat * A))) : list (nat * A) :=
  map (fun e => (fst e, match f with None => zero | Some l => at_id zero (fst e) l end)) vs.
(** max_element + 1, 429-440 *)
Definition next_id {A : Type} (l : list (nat * A)) : nat := fold_right (fun e m => Nat.max (S (fst e)) m) 0%nat l.
(** what a process gives: its part of the cloud and the fields linked *)
Record input := Input { i_verts : list (nat * vec); i_cells : list (nat * nat); i_scalar : option (list (nat * R)); i_vector : option (list (nat * vec)) }.

(** the loop 481-502 *)
Section Mirror.
  Variables (n : vec) (d margin : R) (out force : bool).
  Definition sig : R := if out then -1 else 1.
  Definition distance (x : vec) : R := sig * (dot n x + d).
  Definition taken (x : vec) : bool := force || (if Rlt_dec margin (distance x) then true else false).
  Definition add_one (st : nat * nat * cloud) (e : nat * vec) : nat * nat * cloud :=
    let '(v, c, g) := st in
    let x := snd e in
    if taken x then
      let w := at_id vzero (fst e) (vectors g) in
      (S v, S c, Cloud (verts g ++ [(v, vsub x (vscale (2 * distance x * sig) n))]) (cells g ++ [(c, v)])
                       (scalars g ++ [(v, at_id 0 (fst e) (scalars g))])
                       (vectors g ++ [(v, vsub w (vscale (2 * dot w (vscale sig n) * sig) n))]))
    else st.
  Definition mirror_part (v c : nat) (p : input) : cloud :=
    let sc := field_on 0 (i_verts p) (i_scalar p) in
    let vc := field_on vzero (i_verts p) (i_vector p) in
    snd (fold_left add_one (i_verts p) (v, c, Cloud (i_verts p) (i_cells p) sc vc)).
  (** the labels of the new vertices and cells, 429-455: from the greatest of all processes, and after
      those of the processes before; with one process the same without messages *)
  Fixpoint mirror_parts (v c : nat) (ps : list input) : list cloud :=
    match ps with
    | [] => []
    | p :: r => mirror_part v c p :: mirror_parts (v + length (i_verts p)) (c + length (i_verts p)) r
    end.
End Mirror.
Definition max_of (l : list nat) : nat := fold_right Nat.max 0%nat l.

(** ** execute, 354-531.  The surface: number of cells and total area on all processes, projection *)
Record surface := Surface { cell_count : nat; area : R; project : vec -> vec }.
(** 406-423 *)
Definition margin_of (s : option surface) : R :=
  match s with
  | Some s => if Rlt_dec dmin (area s) then 12 / 10 * sqrt (area s / INR (cell_count s)) else / 10 ^ 12
  | None => / 10 ^ 12
  end.
(** 504-517 *)
Definition moved (s : option surface) (g : cloud) : cloud :=
  match s with Some s => Cloud (map (fun e => (fst e, project s (snd e))) (verts g)) (cells g) (scalars g) (vectors g) | None => g end.
(** 377; getGeometry() with no cells on any process counts as none, 396-404 *)
Definition ready (s : settings) : settings := if s_implicit s then s else setPlane (s_origin s) (s_normal s) s.
Definition used (s : option surface) : option surface := match s with Some f => if Nat.ltb 0 (cell_count f) then Some f else None | None => None end.
Definition execute (s : settings) (surf : option surface) (ps : list input) : settings * list cloud :=
  let s := ready s in
  let (n, d) := s_plane s in
  if Rlt_dec dmin (norm n) then
    let v := max_of (map (fun p => next_id (i_verts p)) ps) in
    let c := max_of (map (fun p => next_id (i_cells p)) ps) in
    (s, map (moved (used surf)) (mirror_parts (vscale (/ norm n) n) d (margin_of (used surf)) (s_out s) (s_force s) v c ps))
  else
    (* 386-390: the cloud as it is, and the fields just initialised *)
    (s, map (fun p => Cloud (i_verts p) (i_cells p) (field_on 0 (i_verts p) None) (field_on vzero (i_verts p) None)) ps).
