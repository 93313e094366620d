(** Stencils of finite volumes, namespace FVolStencil (src/propagators/StencilFunctions.cpp, StencilFunctions.hpp): gradients of a field at the centres of cells and on interfaces, and its
    laplacian, as sums over cells of weights times the values of the field. Doubles are real numbers; what would not be a number is None. Simplified: the items of a stencil are not merged when
    they are of the same cell; centroids, normals, areas, volumes and neighbours, which bitpit gives, are arguments. *)
From Coq Require Import Reals List ZArith Bool.
From Verif Require Import Vec.
Import ListNotations.
Open Scope R_scope.

(** ** bitpit::DiscreteStencil: weights of cells and a constant *)
Record stencil (W : Type) := Stencil { items : list (Z * W); constant : W }.
Arguments Stencil {W}.
Arguments items {W}.
Arguments constant {W}.
Definition splus (s t : stencil R) : stencil R := Stencil (items s ++ items t) (constant s + constant t).
Definition vplus (s t : stencil vec) : stencil vec := Stencil (items s ++ items t) (vadd (constant s) (constant t)).
Definition through {W W' : Type} (f : W -> W') (s : stencil W) : stencil W' := Stencil (map (fun e => (fst e, f (snd e))) (items s)) (f (constant s)).
Definition stimes (k : R) : stencil R -> stencil R := through (Rmult k).
Definition vtimes (k : R) : stencil vec -> stencil vec := through (vscale k).
(** dotProduct(stencil, vector), and a stencil of numbers times a vector *)
Definition along (v : vec) : stencil vec -> stencil R := through (fun w => dot w v).
Definition times_vec (v : vec) : stencil R -> stencil vec := through (fun k => vscale k v).
Definition vminus (s t : stencil vec) : stencil vec := vplus s (vtimes (-1) t).
Definition sminus (s t : stencil R) : stencil R := splus s (stimes (-1) t).
(** addComplementToZero: minus the sum of the weights *)
Definition complement (c : Z) (s : stencil vec) : stencil vec := Stencil (items s ++ [(c, vscale (-1) (fold_right (fun e a => vadd (snd e) a) vzero (items s)))]) (constant s).

(** ** computeWeightsWLS, StencilFunctions.cpp 44-110 *)
Definition epsilon : R := / 10 ^ 12.
(** isSingular, 52-58 *)
Definition missing (x : vec -> R) (pw : list (vec * R)) : bool := forallb (fun e => if Rlt_dec (Rabs (x (fst e))) epsilon then true else false) pw.
(** 60-73 *)
Definition moment (x y : vec -> R) (pw : list (vec * R)) : R := fold_right (fun e a => snd e * x (fst e) * y (fst e) + a) 0 pw.
Definition regular (x : vec -> R) (pw : list (vec * R)) : R := if missing x pw then 1 else 0.
(** 75-109: the inverse by cofactors, and its product with the distances and the weights *)
Definition weights (pw : list (vec * R)) : option (list vec) :=
  let a00 := moment vx vx pw + regular vx pw in let a01 := moment vy vx pw in let a02 := moment vz vx pw in
  let a10 := moment vx vy pw in let a11 := moment vy vy pw + regular vy pw in let a12 := moment vz vy pw in
  let a20 := moment vx vz pw in let a21 := moment vy vz pw in let a22 := moment vz vz pw + regular vz pw in
  let det := a00 * (a11 * a22 - a21 * a12) - a01 * (a10 * a22 - a12 * a20) + a02 * (a10 * a21 - a11 * a20) in
  if Req_EM_T det 0 then None else
  let r0 := V3 ((a11 * a22 - a21 * a12) * / det) (- (a10 * a22 - a12 * a20) * / det) ((a10 * a21 - a20 * a11) * / det) in
  let r1 := V3 (- (a01 * a22 - a02 * a21) * / det) ((a00 * a22 - a02 * a20) * / det) (- (a00 * a21 - a20 * a01) * / det) in
  let r2 := V3 ((a01 * a12 - a02 * a11) * / det) (- (a00 * a12 - a10 * a02) * / det) ((a00 * a11 - a10 * a01) * / det) in
  Some (map (fun e => vscale (snd e) (V3 (dot r0 (fst e)) (dot r1 (fst e)) (dot r2 (fst e)))) pw).

(** ** computeFVCellGradientStencil, 125-187, for a cell: 1/pow(norm2(dist), 1.5) is not a number if dist is zero *)
Definition weighted (d : vec) : vec * R := (d, / Rpower (norm d) (3 / 2)).
Definition cell_gradient (centroid : Z -> vec) (neighs : list Z) (c : Z) : option (stencil vec) :=
  let ds := map (fun n => vsub (centroid n) (centroid c)) neighs in
  if forallb (fun d => if Req_EM_T (norm d) 0 then false else true) ds then
    match weights (map weighted ds) with
    | Some ws => Some (complement c (Stencil (combine neighs ws) vzero))
    | None => None
    end
  else None.

(** ** Interfaces *)
(** computeBorderFaceGradient, 386-395 *)
Definition border_gradient (n : vec) (s : stencil vec) : stencil vec := vminus s (times_vec n (along n s)).
(** correctionNeumannBCFaceGradient, 412-418 *)
Definition neumann (val : R) (n : vec) : stencil vec := Stencil [] (vadd vzero (vscale val n)).
(** correctionDirichletBCFaceGradient, 448-475 *)
Definition dirichlet (val : R) (owner : Z) (co ci n : vec) (d : R) (s : stencil vec) : option (stencil vec) :=
  if Req_EM_T d 0 then None else
  let proj := splus (Stencil [(owner, 1)] 0) (along (vsub (vsub ci (vscale d n)) co) s) in
  let correction := times_vec n (stimes (-1) (through (fun k => k / d) proj)) in
  Some (Stencil (items correction) (vadd (constant correction) (vscale (val / d) n))).
(** updateFVFaceGradientStencil, 300-366, for an interface of two cells; distancePointLine of bitpit gives the projection on the line through ci along n *)
Definition projected (p ci n : vec) : vec := vadd ci (vscale (dot (vsub p ci) n) n).
Definition face_gradient (owner neigh : Z) (so sn : stencil vec) (co cn ci n : vec) : option (stencil vec) :=
  let m := Rmin (norm (vsub (projected co ci n) ci)) (norm (vsub (projected cn ci n) ci)) in
  if Req_EM_T m 0 then None else
  let po := vsub ci (vscale m n) in let pn := vadd ci (vscale m n) in
  let uo := splus (Stencil [(owner, 1)] 0) (along (vsub po co) so) in
  let un := splus (Stencil [(neigh, 1)] 0) (along (vsub pn cn) sn) in
  let avg := vtimes (1 / 2) (vplus so sn) in
  Some (vplus (vminus avg (times_vec n (along n avg))) (times_vec (vscale (/ (2 * m)) n) (sminus un uo))).

(** ** computeFVLaplacianStencil, 496-580 *)
Record face := Face { f_owner : Z; f_neigh : option Z; f_normal : vec; f_area : R; f_grad : stencil vec }.
(** what is known of cells: [interior] or ghost; diffusivity, if it is given *)
Definition flux (diff : option (Z -> R)) (f : face) : stencil R :=
  let k := match diff, f_neigh f with
           | None, _ => f_area f
           | Some d, None => f_area f * d (f_owner f)
           | Some d, Some n => f_area f * ((1 / 2) * (d (f_owner f) + d n))
           end in
  stimes k (along (f_normal f) (f_grad f)).
Definition put (c : Z) (s : stencil R) (m : Z -> stencil R) : Z -> stencil R := fun i => if Z.eqb i c then splus (m i) s else m i.
Definition add_face (interior : Z -> bool) (diff : option (Z -> R)) (st : (Z -> stencil R) * list Z) (f : face) : (Z -> stencil R) * list Z :=
  let '(m, used) := st in
  match f_neigh f with
  | None => (put (f_owner f) (flux diff f) m, f_owner f :: used)
  | Some n =>
      let '(m, used) := if interior (f_owner f) then (put (f_owner f) (flux diff f) m, f_owner f :: used) else (m, used) in
      if interior n then (put n (stimes (-1) (flux diff f)) m, n :: used) else (m, used)
  end.
(** the stencils of the cells involved, divided by their volumes; None: no stencil, or division by zero *)
Definition laplacian (interior : Z -> bool) (volume : Z -> R) (diff : option (Z -> R)) (faces : list face) (c : Z) : option (stencil R) :=
  let '(m, used) := fold_left (add_face interior diff) faces (fun _ => Stencil [] 0, []) in
  if existsb (Z.eqb c) used then if Req_EM_T (volume c) 0 then None else Some (through (fun k => k / volume c) (m c)) else None.
