(** Free form deformation: src/manipulators/FFDLattice.cpp, src/manipulators/FFDLattice.hpp. A lattice
    of control nodes around a shape moves the vertices of a geometry inside by rational B-splines.

    Doubles are real numbers and integers are unbounded. None is a read or write outside of a vector,
    a null pointer dereferenced, a loop that does not end, a division by zero (infinity or NaN in C++)
    or an exception. Ports, XML, the log and the plots are not modelled. *)
From Coq Require Import Reals List Arith ZArith Bool.
From Verif Require Import Vec SharedPtr Field Shape ShapeSel Mesh Lattice Manip.
Import ListNotations.
Open Scope R_scope.

Definition bind {A B} (a : option A) (f : A -> option B) : option B := match a with None => None | Some x => f x end.
Notation "'do' x <- a ; b" := (bind a (fun x => b)) (at level 200, x pattern, a at level 100, b at level 200).
(** for(auto x : l) with a body that can fail *)
Fixpoint loop {A B} (f : A -> B -> option B) (l : list A) (b : B) : option B :=
  match l with [] => Some b | x :: r => do b <- f x b; loop f r b end.
(** v[i] = x *)
Definition put {A} (l : list A) (i : nat) (x : A) : option (list A) :=
  if Nat.ltb i (length l) then Some (upd l i x) else None.
Definition get {A} (l : list A) (i : nat) : option A := nth_error l i.
(** a / b *)
Definition rdiv (a b : R) : option R := if Req_EM_T b 0 then None else Some (a / b).

(** ** One direction: m_deg[dir], m_knots[dir], m_mapEff[dir], m_mapNodes[dir]. The degree is a natural
    number: build keeps it between 1 and the number of nodes less one. *)
Record curve := Cu { c_deg : nat; c_knots : list R; c_eff : list nat; c_nodes : list Z }.
Definition no_curve : curve := Cu 1 [] [] [].

(** retroOrigin in getNodeSpacing 1118, 1131; preNNumb in setMapNodes 1490, 1515 *)
Definition pre (deg : nat) : nat := ((deg - 1) / 2 + (deg - 1) mod 2)%nat.
(** FFDLattice::getNodeSpacing, 1100-1162 *)
Definition getNodeSpacing (t : coordtype) (dim deg : nat) (span locOr : R) : list R :=
  let dKn := span / INR (dim - 1) in
  match t with
  | PERIODIC | SYMMETRIC =>
      let origin := locOr - 1 * INR (pre deg) * dKn in
      map (fun i => origin + INR i * dKn) (seq 0 (dim + deg - 1))
  | CLAMPED | UNCLAMPED => map (fun i => locOr + INR i * dKn) (seq 0 dim)
  end.
(** The loops over j that sum equinode[j]/deg from j = i to i+deg-1, e.g. 1226-1228. *)
Definition average (e : list R) (deg i : nat) : option R :=
  loop (fun j a => do x <- get e j; Some (a + x / INR deg)) (seq i deg) 0.
(** The loops that put the averages number i, from..to-1, at the position i+off, e.g. 1224-1229. *)
Definition averages (e : list R) (deg off from to : nat) (l : list R) : option (list R) :=
  loop (fun i l => do a <- average e deg i; put l (i + off) a) (seq from (to - from)) l.
(** "unclamp the other nodes", 1265-1269, 1301-1305, 1333-1337 *)
Definition unclamp (deg kend : nat) (l : list R) : option (list R) :=
  loop (fun i l =>
    do a <- get l (deg - i); do b <- get l (kend - i); do c <- get l (kend - i - 1);
    do l <- put l (deg - i - 1) (a - (b - c));
    do a <- get l (kend + i); do b <- get l (deg + i + 1); do c <- get l (deg + i);
    put l (kend + 1 + i) (a + (b - c))) (seq 0 deg) l.
Definition tol : R := / 10 ^ 12.
(** 1255, 1291: std::abs. (1255 has abs without std.) *)
Definition clean (x : R) : R := if Rlt_dec (Rabs x) tol then 0 else x.
(** The knots of FFDLattice::setKnotsStructure(dir, type), 1195-1350 *)
Definition setKnots (t : coordtype) (dim deg : nat) (span locOr : R) : option (list R) :=
  let e := getNodeSpacing t dim deg span locOr in
  match t with
  | CLAMPED =>
      let kEff := (dim - deg + 1)%nat in
      do first <- get e 0; do final <- get e (length e - 1);
      do l <- put (repeat 0 kEff) 0 first; do l <- put l (kEff - 1) final;
      averages e deg 0 1 (kEff - 1) l
  | PERIODIC | SYMMETRIC =>
      let nEff := (dim + deg - 1)%nat in
      let kEff := (nEff - deg + 1)%nat in
      let kTheo := (nEff + deg + 1)%nat in
      do first <- average e deg 0;
      do l <- put (repeat 0 kTheo) deg (clean first);
      do l <- averages e deg deg 1 kEff l;
      unclamp deg (deg + kEff - 1) l
  | UNCLAMPED =>
      let kEff := (dim - deg + 1)%nat in
      let kTheo := (dim + deg + 1)%nat in
      let kend := (deg + kEff - 1)%nat in
      do first <- get e 0; do final <- get e (length e - 1);
      do l <- put (repeat 0 kTheo) deg first; do l <- put l kend (final + tol);
      do l <- averages e deg deg 1 (kEff - 1) l;
      unclamp deg kend l
  end.
(** m_mapEff in the same function: 1218, 1231-1237 (zeros, then two loops), 1271-1273, 1307-1309,
    1339-1341 *)
Definition setEff (t : coordtype) (dim deg : nat) : list nat :=
  match t with
  | CLAMPED =>
      let kEff := (dim - deg + 1)%nat in
      map (fun i => if Nat.ltb i deg then 0 else if Nat.ltb i (deg + kEff) then i - deg else kEff - 1)%nat (seq 0 (dim + deg + 1))
  | PERIODIC | SYMMETRIC => seq 0 (dim + deg - 1 + deg + 1)
  | UNCLAMPED => seq 0 (dim + deg + 1)
  end.
(** FFDLattice::setMapNodes, 1477-1540: every entry is written once, by one of the loops. *)
Definition setMapNodes (t : coordtype) (dim deg : nat) : list Z :=
  let n := Z.of_nat dim in let p := pre deg in
  match t with
  | PERIODIC =>
      map (fun i => if Nat.ltb i p then n - Z.of_nat p - 1 + Z.of_nat i
                    else if Nat.ltb i (p + dim) then Z.of_nat i - Z.of_nat p
                    else 1 + (Z.of_nat i - Z.of_nat p - n))%Z (seq 0 (dim + deg - 1 + 1))
  | SYMMETRIC =>
      map (fun i => if Nat.ltb i p then Z.rem (Z.of_nat p - 1 - Z.of_nat i + 1) (n - 1)
                    else if Nat.ltb i (p + dim) then Z.of_nat i - Z.of_nat p
                    else Z.rem (n - 2 - (Z.of_nat i - Z.of_nat p - n)) (n - 1))%Z (seq 0 (dim + deg - 1 + 1))
  | CLAMPED | UNCLAMPED => map Z.of_nat (seq 0 dim)
  end.
Definition setKnotsStructure (t : coordtype) (dim deg : nat) (span locOr : R) : option curve :=
  do k <- setKnots t dim deg span locOr; Some (Cu deg k (setEff t dim deg) (setMapNodes t dim deg)).

(** FFDLattice::getTheoreticalKnotIndex 1404-1412: the last position of a number in m_mapEff; -1 if
    there is none (std::distance to rend().base()-1). *)
Fixpoint last_pos (l : list nat) (x : nat) (at_ : Z) (found : Z) : Z :=
  match l with [] => found | y :: r => last_pos r x (at_ + 1) (if Nat.eqb y x then at_ else found) end.
Definition getTheoreticalKnotIndex (c : curve) (loc : nat) : Z :=
  if Nat.ltb loc (length (c_knots c)) then last_pos (c_eff c) loc 0 (-1) else (-1)%Z.
(** The loop of getKnotInterval, 1365-1372 *)
Fixpoint search (fuel : nat) (k : list R) (x : R) (low high : nat) : option nat :=
  match fuel with
  | O => None
  | S fuel =>
      let mid := ((low + high) / 2)%nat in
      do a <- get k mid;
      if Rlt_dec x a then search fuel k x low mid
      else do b <- get k (mid + 1);
           if Rle_dec b x then search fuel k x mid high else Some mid
  end.
(** FFDLattice::getKnotInterval, 1358-1374 *)
Definition getKnotInterval (c : curve) (x : R) : option Z :=
  let size := length (c_knots c) in
  do first <- get (c_knots c) 0;
  if Rlt_dec x first then Some (getTheoreticalKnotIndex c 0) else
  do final <- get (c_knots c) (size - 1);
  if Rle_dec final x then Some (getTheoreticalKnotIndex c (size - 2)) else
  do mid <- search (S size) (c_knots c) x 0 (size - 1);
  Some (getTheoreticalKnotIndex c mid).
(** FFDLattice::getKnotValue 1381-1386, getKnotIndex 1393-1397 *)
Definition getKnotValue (c : curve) (index : Z) : option R :=
  match zget (c_eff c) index with None => Some (-1) | Some i => get (c_knots c) i end.

(** FFDLattice::basisITS0, 1069-1094. left[j] and right[j] are computed in turn j and read in the
    turns from j on: here they are computed again. [inner] is the loop over r of the turn j; the
    entries from r on are given, those before are returned in front of the rest. *)
Fixpoint inner (left right : nat -> option R) (j r : nat) (saved : R) (b : list R) : option (list R) :=
  match b with
  | [] => Some [saved]
  | x :: b =>
      do rr <- right (r + 1)%nat; do ll <- left (j - r)%nat;
      do tmp <- rdiv x (rr + ll);
      do rest <- inner left right j (r + 1) (ll * tmp) b;
      Some (saved + rr * tmp :: rest)
  end.
Definition basisITS0 (c : curve) (k : Z) (x : R) : option (list R) :=
  let left j := do u <- getKnotValue c (k + 1 - Z.of_nat j); Some (x - u) in
  let right j := do u <- getKnotValue c (k + Z.of_nat j); Some (u - x) in
  loop (fun j b => inner left right j 0 0 b) (seq 1 (c_deg c)) [1].

(** ** The class *)
(** m_collect_wg has distinct keys; m_built of the mesh is m_isBuild. *)
Record ffd := Ff { f_lat : lattice; f_deg : Z * Z * Z; f_collect : list (Z * R); f_weights : list R; f_displ : list vec;
                   f_c0 : curve; f_c1 : curve; f_c2 : curve; f_order : nat * nat * nat; f_global : bool;
                   f_filter : fld R; f_bfilter : bool; f_geo : option nat; f_gdispl : fld vec }.
(** FFDLattice::FFDLattice() 30-38 (m_mapdeg is not initialised: it is written by build before any use) *)
Definition new_ffd : ffd :=
  Ff new_lattice (1, 1, 1)%Z [] [] [] no_curve no_curve no_curve (0, 1, 2)%nat false no_field false None no_field.
Definition f_mesh (f : ffd) : mesh := l_mesh (f_lat f).
Definition f_built (f : ffd) : bool := m_built (f_mesh f).
Definition with_mesh (f : ffd) (m : mesh) : ffd :=
  Ff (La m (l_np (f_lat f)) (l_map (f_lat f))) (f_deg f) (f_collect f) (f_weights f) (f_displ f) (f_c0 f) (f_c1 f) (f_c2 f)
     (f_order f) (f_global f) (f_filter f) (f_bfilter f) (f_geo f) (f_gdispl f).
Definition f_unbuilt (f : ffd) : ffd := with_mesh f (unbuilt (f_mesh f)).
Definition curve_of (f : ffd) (d : nat) : curve := match d with O => f_c0 f | S O => f_c1 f | _ => f_c2 f end.

(** setDegrees 272-276, setDisplacements 283-286, setDisplGlobal 297-298, setFilter 488-494, setGeometry *)
Definition setDegrees (f : ffd) (d : Z * Z * Z) : ffd :=
  Ff (La (unbuilt (f_mesh f)) (l_np (f_lat f)) (l_map (f_lat f))) d (f_collect f) (f_weights f) (f_displ f) (f_c0 f) (f_c1 f) (f_c2 f)
     (f_order f) (f_global f) (f_filter f) (f_bfilter f) (f_geo f) (f_gdispl f).
Definition setDisplacements (f : ffd) (d : list vec) : ffd :=
  Ff (f_lat f) (f_deg f) (f_collect f) (f_weights f) d (f_c0 f) (f_c1 f) (f_c2 f)
     (f_order f) (f_global f) (f_filter f) (f_bfilter f) (f_geo f) (f_gdispl f).
Definition setDisplGlobal (f : ffd) (b : bool) : ffd :=
  Ff (f_lat f) (f_deg f) (f_collect f) (f_weights f) (f_displ f) (f_c0 f) (f_c1 f) (f_c2 f)
     (f_order f) b (f_filter f) (f_bfilter f) (f_geo f) (f_gdispl f).
Definition ffd_setFilter (f : ffd) (o : option (fld R)) : ffd :=
  match o with
  | None => f
  | Some fl => Ff (f_lat f) (f_deg f) (f_collect f) (f_weights f) (f_displ f) (f_c0 f) (f_c1 f) (f_c2 f)
                  (f_order f) (f_global f) fl (size fl) (f_geo f) (f_gdispl f)
  end.
Definition ffd_setGeometry (f : ffd) (g : option nat) : ffd :=
  Ff (f_lat f) (f_deg f) (f_collect f) (f_weights f) (f_displ f) (f_c0 f) (f_c1 f) (f_c2 f)
     (f_order f) (f_global f) (f_filter f) (f_bfilter f) g (f_gdispl f).
(** m_collect_wg[ind] = val *)
Fixpoint collect (l : list (Z * R)) (i : Z) (w : R) : list (Z * R) :=
  match l with [] => [(i, w)] | (j, v) :: r => if Z.eqb i j then (j, w) :: r else (j, v) :: collect r i w end.
(** setNodalWeight(val, index) 452-457; setNodalWeight(wg) 474-482 *)
Definition setNodalWeight (f : ffd) (w : R) (index : Z) : option ffd :=
  do ind <- accessDOFFromGrid (f_lat f) index;
  Some (Ff (La (unbuilt (f_mesh f)) (l_np (f_lat f)) (l_map (f_lat f))) (f_deg f) (collect (f_collect f) ind w) (f_weights f)
           (f_displ f) (f_c0 f) (f_c1 f) (f_c2 f) (f_order f) (f_global f) (f_filter f) (f_bfilter f) (f_geo f) (f_gdispl f)).
Definition setNodalWeights (f : ffd) (wg : list R) : option ffd :=
  loop (fun '(i, w) f => setNodalWeight f w (Z.of_nat i)) (combine (seq 0 (length wg)) wg) f.

(** std::vector::resize(n, x) *)
Definition resize_to {A} (n : nat) (x : A) (l : list A) : list A := firstn n l ++ repeat x (n - length l).
(** FFDLattice::orderDimension, 1544-1558: the map sorts the pairs (cells, direction). *)
Definition orderDimension (nx ny nz : Z) : nat * nat * nat :=
  if Z.leb nx ny then if Z.leb ny nz then (0, 1, 2)%nat else if Z.leb nx nz then (0, 2, 1)%nat else (2, 0, 1)%nat
  else if Z.leb nx nz then (1, 0, 2)%nat else if Z.leb ny nz then (1, 2, 0)%nat else (2, 1, 0)%nat.
(** FFDLattice::build, 1564-1588. Lattice::build calls Lattice::resizeMapDof, which is not virtual:
    FFDLattice::resizeMapDof 1417-1421 is not called. Without a shape, getNodeSpacing dereferences a
    null pointer (1107). *)
Definition build (f : ffd) : option (bool * ffd) :=
  do (check, l) <- lat_build (f_lat f);
  let m := l_mesh l in
  let nx := a_n (m_x m) in let ny := a_n (m_y m) in let nz := a_n (m_z m) in
  let '(d0, d1, d2) := f_deg f in
  let e0 := Z.min nx (Z.max 1 d0) in let e1 := Z.min ny (Z.max 1 d1) in let e2 := Z.min nz (Z.max 1 d2) in
  let np := Z.to_nat (l_np l) in
  do w <- loop (fun '(i, x) w => zset w i x) (f_collect f) (repeat 1 np);
  do s <- m_shape m;
  let curve t n deg span o := setKnotsStructure t (Z.to_nat (n + 1)) (Z.to_nat deg) span o in
  let span := s_span s in let o := getLocalOrigin s in
  do c0 <- curve (s_ct0 s) nx e0 (vx span) (vx o);
  do c1 <- curve (s_ct1 s) ny e1 (vy span) (vy o);
  do c2 <- curve (s_ct2 s) nz e2 (vz span) (vz o);
  Some (check, Ff l (e0, e1, e2) [] w (resize_to np vzero (f_displ f)) c0 c1 c2 (orderDimension nx ny nz)
                  (f_global f) (f_filter f) (f_bfilter f) (f_geo f) (f_gdispl f)).
(** setLattice(origin, span, type, dimensions, degrees) 315-326; [junk] as in mesh_setShape *)
Definition setLattice (junk : vec) (f : ffd) (o sp : vec) (k : kind) (d0 d1 d2 : Z) (deg : Z * Z * Z) : option ffd :=
  let m1 := mesh_setShape junk (with_shape (f_mesh f) None) k in
  let m2 := setDimension (mesh_setSpan (mesh_setOrigin m1 o) sp) d0 d1 d2 in
  do (_, f) <- build (setDegrees (with_mesh f m2) deg); Some f.

(** ** Evaluation *)
(** valH, temp1, temp2: four doubles *)
Definition hom : Type := vec * R.
Definition hzero : hom := (vzero, 0).
Definition hadd (a b : hom) : hom := (vadd (fst a) (fst b), snd a + snd b).
Definition hscale (k : R) (a : hom) : hom := (vscale k (fst a), k * snd a).
(** a sum accumulated over i = 0 .. n-1 *)
Definition accumulate (n : nat) (f : nat -> option hom) : option hom :=
  loop (fun i a => do x <- f i; Some (hadd a x)) (seq 0 n) hzero.
(** coordinate d of a point *)
Definition coord (d : nat) (p : vec) : R := match d with O => vx p | S O => vy p | _ => vz p end.
(** mappedIndex[d] = i *)
Definition assign (m : Z * Z * Z) (d : nat) (i : Z) : Z * Z * Z :=
  let '(a, b, c) := m in match d with O => (i, b, c) | S O => (a, i, c) | _ => (a, b, i) end.
(** FFDLattice::accessMapNodes, FFDLattice.hpp 253-255 *)
Definition accessMapNodes (f : ffd) (m : Z * Z * Z) : option Z :=
  let '(i, j, k) := m in
  do a <- zget (c_nodes (f_c0 f)) i; do b <- zget (c_nodes (f_c1 f)) j; do c <- zget (c_nodes (f_c2 f)) k;
  Some (accessPointIndex (f_mesh f) a b c).
(** recoverFullGridDispl 1451-1461 and recoverFullNodeWeights 1464-1473, entry by entry; all the
    entries are read before the evaluation. *)
Definition recover {A} (f : ffd) (v : list A) (index : Z) : option A :=
  do d <- zget (l_map (f_lat f)) index; zget v d.
Definition recover_all {A} (f : ffd) (v : list A) : option unit :=
  let '(a, b, c) := getDimension (f_mesh f) in
  loop (fun i _ => do _ <- recover f v (Z.of_nat i); Some tt) (seq 0 (Z.to_nat (a * b * c))) tt.

(** The three nested loops. [slots] tells where mappedIndex gets the index of each loop; [term] is
    the node in the innermost one. *)
Definition nested (f : ffd) (slots : nat * nat * nat) (term : Z -> R -> option hom) (point : vec) : option hom :=
  let '(i0, i1, i2) := f_order f in
  let '(s0, s1, s2) := slots in
  let c0 := curve_of f i0 in let c1 := curve_of f i1 in let c2 := curve_of f i2 in
  do k0 <- getKnotInterval c0 (coord i0 point);
  do k1 <- getKnotInterval c1 (coord i1 point);
  do k2 <- getKnotInterval c2 (coord i2 point);
  do b0 <- basisITS0 c0 k0 (coord i0 point);
  do b1 <- basisITS0 c1 k1 (coord i1 point);
  do b2 <- basisITS0 c2 k2 (coord i2 point);
  let u := (k0 - Z.of_nat (c_deg c0))%Z in let v := (k1 - Z.of_nat (c_deg c1))%Z in let w := (k2 - Z.of_nat (c_deg c2))%Z in
  accumulate (S (c_deg c0)) (fun i =>
    do x0 <- get b0 i;
    do t1 <- accumulate (S (c_deg c1)) (fun j =>
      do x1 <- get b1 j;
      do t2 <- accumulate (S (c_deg c2)) (fun k =>
        do x2 <- get b2 k;
        do index <- accessMapNodes f (assign (assign (assign (0, 0, 0)%Z s0 (u + Z.of_nat i)) s1 (v + Z.of_nat j)) s2 (w + Z.of_nat k));
        term index x2);
      Some (hscale x1 t2));
    Some (hscale x0 t1)).
(** The end of the evaluators, 830-845 and 955-974: [q] is the point, [point] its local coordinates. *)
Definition finish (f : ffd) (s : shape) (q point : vec) (h : hom) : option vec :=
  let w := snd h in
  if Req_EM_T w 0 then None else
  if f_global f then Some (V3 (vx (fst h) / w) (vy (fst h) / w) (vz (fst h) / w))
  else
    do dx <- rdiv (vx (fst h)) (w * vx (s_scaling s)); do dy <- rdiv (vy (fst h)) (w * vy (s_scaling s));
    do dz <- rdiv (vz (fst h)) (w * vz (s_scaling s));
    Some (vsub (toWorldCoord s (vadd point (V3 dx dy dz))) q).
(** FFDLattice::nurbsEvaluator(list) 855-984, for one vertex of the list at q *)
Definition evaluate (f : ffd) (q : vec) : option vec :=
  do s <- m_shape (f_mesh f);
  let point := toLocalCoord s q in
  do h <- nested f (f_order f) (fun index x =>
    do g <- recover f (f_weights f) index; do d <- recover f (f_displ f) index;
    Some (vscale (x * g) d, x * g)) point;
  finish f s q point h.
(** FFDLattice::nurbsEvaluator(point), 772-847: mappedIndex[0], [1], [2] get the indices in the order
    of the loops, and the sum of the weights reads m_weights at the index of the grid. *)
Definition evaluate_point (f : ffd) (q : vec) : option vec :=
  do s <- m_shape (f_mesh f);
  let point := toLocalCoord s q in
  do h <- nested f (0, 1, 2)%nat (fun index x =>
    do g <- recover f (f_weights f) index; do d <- recover f (f_displ f) index; do w <- zget (f_weights f) index;
    Some (vscale (x * g) d, x * w)) point;
  finish f s q point h.

(** FFDLattice::apply(point) 633-639. An empty m_displ gives a null pointer: recover fails. *)
Definition apply_point (f : ffd) (q : vec) : option vec :=
  do s <- m_shape (f_mesh f);
  if negb (isPointIncluded s q) || negb (f_built f) then Some vzero else evaluate_point f q.
(** FFDLattice::apply(list of points) 684-699 *)
Definition apply_points (f : ffd) (l : list vec) : option (list vec) :=
  if negb (f_built f) then Some [] else
  do s <- m_shape (f_mesh f);
  loop (fun i r => do q <- get l i; do d <- evaluate_point f q; put r i d) (includeCloudList s l) (repeat vzero (length l)).

(** ** Execution on the geometry number [g] of a store of geometries *)
Definition geometries := nat -> geo.
Definition solids (G : geometries) : store :=
  fun k => So 1 (p_verts (ge_patch (G k))) (fun _ _ => None).
(** MimmoObject::getVertexFromCellList 2557-2576: each vertex once, in no particular order *)
Definition getVertexFromCellList (g : geo) (cs : list nat) : list nat :=
  nodup Nat.eq_dec (flat_map (vertices_of (p_cells (ge_patch g))) cs).
(** The list of FFDLattice::apply(list) 658-660; ge_skd_ok is isSkdTreeSupported *)
Definition listed (s : shape) (g : geo) : list nat :=
  if ge_skd_ok g then getVertexFromCellList g (includeGeometry s (Some g)) else includeCloudPoints s (Some g).
(** nurbsEvaluator(list), 855-984: all the vertices of the list *)
Definition evaluate_list (f : ffd) (g : geo) (ids : list nat) : option (list vec) :=
  do _ <- recover_all f (f_displ f); do _ <- recover_all f (f_weights f);
  loop (fun id r => do d <- evaluate f (coords (p_verts (ge_patch g)) id); Some (r ++ [d])) ids [].
(** checkFilter, 713-732, has the text of the other manipulators: Manip.checkFilter. *)
Fixpoint filtered (fd : list (nat * R)) (ids : list nat) (ds : list vec) : option (list vec) :=
  match ids, ds with
  | id :: ids, d :: ds => do k <- find id fd; do r <- filtered fd ids ds; Some (vscale k d :: r)
  | _, _ => Some ds
  end.
(** FFDLattice::apply(list) 649-674: the ids, the displacements and the filter *)
Definition apply_list (G : geometries) (f : ffd) : option (list nat * list vec * fld R) :=
  match f_geo f with
  | None => Some ([], [], f_filter f)
  | Some g =>
      if negb (f_built f) then Some ([], [], f_filter f) else
      do s <- m_shape (f_mesh f);
      let ids := listed s (G g) in
      do r <- evaluate_list f (G g) ids;
      if f_bfilter f then
        do fl <- checkFilter (solids G) g (f_filter f);
        do r <- filtered (fd_data fl) ids r; Some (ids, r, fl)
      else Some (ids, r, f_filter f)
  end.
Definition with_result (f : ffd) (fl : fld R) (d : fld vec) : ffd :=
  Ff (f_lat f) (f_deg f) (f_collect f) (f_weights f) (f_displ f) (f_c0 f) (f_c1 f) (f_c2 f)
     (f_order f) (f_global f) fl (f_bfilter f) (f_geo f) d.
(** FFDLattice::execute 579-624: null displacements on all the vertices, then those of the list *)
Definition ffd_execute (G : geometries) (f : ffd) : option ffd :=
  do g <- f_geo f;
  do f <- (if f_built f then Some f else do (_, f) <- build f; Some f);
  do (ids, ds, fl) <- apply_list G f;
  do zero <- insert_all (map fst (p_verts (ge_patch (G g)))) vzero [];
  Some (with_result f fl (Fd (Some g) LPoint (fold_left (fun l '(id, d) => set id d l) (combine ids ds) zero))).
(** exec() with the apply flag: the coordinates after _apply(m_gdispl), FFDLattice.cpp 704-707 *)
Definition ffd_exec (G : geometries) (f : ffd) : option (list (nat * vec) * ffd) :=
  do g <- f_geo f; do f <- ffd_execute G f;
  Some (map (move (fd_data (f_gdispl f))) (p_verts (ge_patch (G g))), f).
