(** Lattices: structured meshes with a numbering of the degrees of freedom of their points
    (src/core/Lattice.cpp, src/core/Lattice.hpp). The manipulation base class (names, ports, plots) is
    not part of this model. Integers are unbounded. A read or write outside of a vector, and a loop
    that does not end, give None. *)
From Coq Require Import Reals List Arith ZArith Bool.
From Verif Require Import Vec Shape Mesh.
Import ListNotations.
Open Scope Z_scope.

(** The base class UStructMesh, m_np and m_intMapDOF, src/core/Lattice.hpp:106-107. *)
Record lattice := La { l_mesh : mesh; l_np : Z; l_map : list Z }.
(** Lattice::Lattice(), src/core/Lattice.cpp:35-39. *)
Definition new_lattice : lattice := La new_mesh 0 [].

(** CoordType of direction 1, UStructMesh::getCoordType, src/core/BasicMeshes.cpp:289-292. *)
Definition periodic (s : shape) : bool := match s_ct1 s with PERIODIC => true | _ => false end.
(** The entries of info pushed by Lattice::reduceDimToDOF 459-516, by name: the first one of the
    cylinder and of the sphere (the local origin is positive), then periodicity and the two poles. *)
Record info := Flags { i_core : bool; i_per : bool; i_low : bool; i_high : bool }.
Definition no_info : info := Flags false false false false.
Definition eqR (a b : R) : bool := if Req_EM_T a b then true else false.
Definition posR (a : R) : bool := if Rlt_dec 0 a then true else false.
Definition lat_info (s : shape) : info :=
  match s_kind s with
  | CUBE | WEDGE => no_info
  | CYLINDER => Flags (posR (vx (getLocalOrigin s))) (periodic s) false false
  | SPHERE => Flags (posR (vx (getLocalOrigin s))) (periodic s) (eqR (vz (s_inf s)) 0)
                 (eqR (vz (s_inf s) + vz (s_span s)) PI)
  end.
(** The number returned by reduceDimToDOF 459-516; without a shape getShapeType gives CUBE. *)
Definition reduceDimToDOF (o : option shape) (nx ny nz : Z) : Z :=
  match o with
  | None => nx * ny * nz
  | Some s =>
      let i := lat_info s in
      match s_kind s with
      | CUBE => nx * ny * nz
      | WEDGE => nx * ny * nz + ny * (1 - nz)
      | CYLINDER =>
          let '(d1, nx1) := if i_core i then (nz, nx - 1) else (0, nx) in
          let ny1 := if i_per i then ny - 1 else ny in
          nx1 * ny1 * nz + d1
      | SPHERE =>
          let '(d1, nx1) := if i_core i then (1, nx - 1) else (0, nx) in
          let ny1 := if i_per i then ny - 1 else ny in
          let '(d2, nz2) := if i_low i then (d1 + nx1, nz - 1) else (d1, nz) in
          let '(d3, nz3) := if i_high i then (d2 + nx1, nz2 - 1) else (d2, nz2) in
          nx1 * ny1 * nz3 + d3
      end
  end.

(** v[i] = x. *)
Fixpoint upd {A} (l : list A) (i : nat) (x : A) : list A :=
  match l, i with [], _ => [] | _ :: r, O => x :: r | a :: r, S i' => a :: upd r i' x end.
Definition zset {A} (l : list A) (i : Z) (x : A) : option (list A) :=
  if (Z.leb 0 i && Z.ltb i (Z.of_nat (length l)))%bool then Some (upd l (Z.to_nat i) x) else None.
Fixpoint zsets {A} (l : list A) (is : list Z) (x : A) : option (list A) :=
  match is with [] => Some l | i :: r => match zset l i x with None => None | Some l' => zsets l' r x end end.
(** std::find(begin, end, x) - begin. *)
Fixpoint find_pos (l : list Z) (x : Z) : nat :=
  match l with [] => O | a :: r => if Z.eqb a x then O else S (find_pos r x) end.
(** posVectorFind, src/common/customOperators.hpp:155-165. *)
Definition posVectorFind (l : list Z) (x : Z) : Z :=
  let p := find_pos l x in if Nat.eqb p (length l) then -1 else Z.of_nat p.

Definition range (n : Z) : list Z := map Z.of_nat (seq 0 (Z.to_nat (n + 1))).
(** The further positions that get the number given to the point (i0, i1, i2), in the cases of the
    switch of Lattice::resizeMapDof 543-632. *)
Definition also (m : mesh) (t : Z * Z * Z) : list Z :=
  let '(i0, i1, i2) := t in
  let nx := a_n (m_x m) in let ny := a_n (m_y m) in let nz := a_n (m_z m) in
  match m_shape m with
  | None => []
  | Some s =>
      let i := lat_info s in
      match s_kind s with
      | CUBE => []
      | WEDGE => if Z.eqb i0 nx then map (fun k => accessPointIndex m i0 i1 k) (range nz) else []
      | CYLINDER =>
          (if (i_core i && Z.eqb i0 0)%bool then map (fun k => accessPointIndex m i0 k i2) (range ny) else []) ++
          (if (i_per i && Z.eqb i1 0)%bool then [accessPointIndex m i0 ny i2] else [])
      | SPHERE =>
          (if (i_core i && Z.eqb i0 0)%bool
           then flat_map (fun k1 => map (fun k2 => accessPointIndex m i0 k1 k2) (range nz)) (range ny) else []) ++
          (if (i_per i && Z.eqb i1 0)%bool then [accessPointIndex m i0 (ny - 1) i2] else []) ++
          (if (i_low i && Z.eqb i2 0)%bool then map (fun k => accessPointIndex m i0 k i2) (range ny) else []) ++
          (if (i_high i && Z.eqb i2 nz)%bool then map (fun k => accessPointIndex m i0 k i2) (range ny) else [])
      end
  end.
(** The while loops of Lattice::resizeMapDof: [p] is the position of itMap. *)
Fixpoint number (fuel : nat) (next : Z -> list Z) (l : list Z) (p : nat) (target : Z) : option (list Z) :=
  if Nat.eqb p (length l) then Some l else
  match fuel with
  | O => None
  | S f =>
      match zset l (Z.of_nat p) target with None => None | Some l1 =>
      match zsets l1 (next (Z.of_nat p)) target with None => None | Some l2 =>
      number f next l2 (find_pos l2 (-1)) (target + 1) end end
  end.
(** Lattice::resizeMapDof, src/core/Lattice.cpp:524-638. *)
Definition resizeMapDof (m : mesh) : option (Z * list Z) :=
  let nx := a_n (m_x m) + 1 in let ny := a_n (m_y m) + 1 in let nz := a_n (m_z m) + 1 in
  let l := repeat (-1) (Z.to_nat (nx * ny * nz)) in
  match number (S (length l)) (fun n => also m (pointCoords m n)) l 0 0 with
  | None => None
  | Some l' => Some (reduceDimToDOF (m_shape m) nx ny nz, l')
  end.
(** Lattice::build, src/core/Lattice.cpp:270-274. *)
Definition lat_build (l : lattice) : option (bool * lattice) :=
  let '(check, m) := mesh_build (l_mesh l) in
  match resizeMapDof m with None => None | Some (np, map) => Some (check, La m np map) end.

(** Lattice::getNNodes 125-127; accessDOFFromGrid 171-174; accessGridFromDOF 182-185 (and, entry by
    entry, 193-218). *)
Definition getNNodes (l : lattice) : Z := l_np l.
Definition accessDOFFromGrid (l : lattice) (index : Z) : option Z := zget (l_map l) index.
Definition accessGridFromDOF (l : lattice) (index : Z) : Z := posVectorFind (l_map l) index.
(** Lattice::getGlobalCoords 134-145, getLocalCoords 152-163. *)
Definition lat_getLocalCoords (l : lattice) : list (option vec) :=
  all_of (fun i => let '(i0, i1, i2) := pointCoords (l_mesh l) (accessGridFromDOF l i) in getLocalPoint (l_mesh l) i0 i1 i2) (getNNodes l).
Definition lat_getGlobalCoords (l : lattice) : list (option vec) :=
  all_of (fun i => let '(i0, i1, i2) := pointCoords (l_mesh l) (accessGridFromDOF l i) in getGlobalPoint (l_mesh l) i0 i1 i2) (getNNodes l).
(** Lattice::clearLattice 115-119. *)
Definition clearLattice (l : lattice) : lattice := La (clearMesh (l_mesh l)) (l_np l) [].
(** Copy constructor 65-68, swap 74-81. No operator= is declared: the implicit one assigns the bases,
    then the members. *)
Definition lat_copy (l : lattice) : lattice := La (mesh_copy (l_mesh l)) (l_np l) (l_map l).
Definition lat_swap (a x : lattice) : lattice * lattice :=
  let '(ma, mx) := mesh_swap (l_mesh a) (l_mesh x) in (La ma (l_np x) (l_map x), La mx (l_np a) (l_map a)).
Definition lat_assign (a b : lattice) : lattice := La (mesh_assign (l_mesh a) (l_mesh b)) (l_np b) (l_map b).
