(** CreateSeedsOnSurface (src/utils/CreateSeedsOnSurface.cpp): points spread on a surface.  Doubles are real numbers; one
    process.  Not modelled: the oriented box, the projection and the interpolation of the sensitivity (candidates are given,
    with their sensitivities), the triangulation, how the geodesic distances are computed (a function), plots, logs. *)
From Coq Require Import Reals List Arith Bool ZArith.
From Verif Require Import Vec.
Import ListNotations.
Open Scope R_scope.

(** ** Sensitivity *)
(** normalizeField, 1534-1552: the values on the vertices, [tiny] the least normal double *)
Definition least (l : list R) : R := match l with [] => 0 | x :: r => fold_left Rmin r x end.
Definition greatest (l : list R) : R := match l with [] => 0 | x :: r => fold_left Rmax r x end.
Definition normalize (tiny : R) (l : list R) : list R :=
  let diff := greatest l - least l in
  if Rle_dec diff tiny then map (fun _ => 1) l else map (fun v => (v + -1 * least l) / diff) l.

(** ** Candidates *)
(** int(x) of a positive double *)
Definition truncate (x : R) : Z := (up x - 1)%Z.
(** solveGrid, 575-583: the cells of the lattice along an axis and in all; a candidate for each, 585-607 *)
Definition grid_cells (span perimeter : R) (n : nat) : nat := Nat.max 1 (Z.to_nat (truncate (span * INR n / perimeter + / 2))).
Definition grid_candidates (span : vec) (n : nat) : nat :=
  let perimeter := vx span + vy span + vz span in
  (grid_cells (vx span) perimeter n * grid_cells (vy span) perimeter n * grid_cells (vz span) perimeter n)%nat.
(** solveRandom, 720 *)
Definition random_candidates (n : nat) : nat := (5 * n)%nat.
(** solveGrid 653-676, solveRandom 782-805: the candidates and their sensitivities by the distance from the seed, then by
    their place (std::sort on pairs) *)
Fixpoint insert (d : vec * R -> R) (e : vec * R) (l : list (vec * R)) : list (vec * R) :=
  match l with [] => [e] | f :: r => if Rlt_dec (d e) (d f) then e :: l else f :: insert d e r end.
Definition sort_from (seed : vec) (l : list (vec * R)) : list (vec * R) :=
  fold_left (fun acc e => insert (fun x => norm (vsub seed (fst x))) e acc) l [].

(** ** Decimation *)
(** decimatePoints, 875-977.  No candidates: None, as for a loop that does not end (the code reads out of bounds) *)
Section Decimate.
  (** the candidates and their sensitivities *)
  Variable cands : list (vec * R).
  Definition point (j : nat) : vec := fst (nth j cands (vzero, 0)).
  Definition sens (j : nat) : R := snd (nth j cands (vzero, 0)).
  Definition count : nat := length cands.
  (** 880-885: the positions from the first, times the sensitivities *)
  Definition refer (j : nat) : vec := vscale (sens j) (vsub (point j) (point 0)).
  Definition gap (i j : nat) : R := norm (vsub (refer i) (refer j)).
  Definition has (i : nat) (l : list nat) : bool := existsb (Nat.eqb i) l.
  (** bitpit: KdTree::hNeighbors, the labels at a distance up to h and not in the list of those excluded; 913-914 *)
  Definition neighbours (i : nat) (h : R) (excl : list nat) : list nat :=
    filter (fun j => (if Rle_dec (gap j i) h then true else false) && negb (has j excl)) (seq 0 count).
  (** 918, 923, 932: all the candidates are visited *)
  Definition all_visited (visited : list nat) : bool := forallb (fun j => has j visited) (seq 0 count).
  (** 925-931: those visited from the points chosen so far, with another radius *)
  Definition cover (chosen : list nat) (h : R) : list nat := fold_left (fun visited i => visited ++ neighbours i h visited) chosen chosen.
  (** 923-935: the radius is reduced until some candidate is left; None: not within [fuel] reductions *)
  Fixpoint shrink (fuel : nat) (chosen visited : list nat) (h : R) : option (list nat * R) :=
    if all_visited visited then
      match fuel with O => None | S k => shrink k chosen (cover chosen (h * (9 / 10))) (h * (9 / 10)) end
    else Some (visited, h).
  (** 943-956: how good a candidate is, for the points chosen *)
  Definition mean (l : list R) : R := fold_left Rplus l 0 / INR (length l).
  Definition score (chosen : list nat) (i : nat) : R :=
    let norms := map (fun k => norm (vsub (point i) (point k))) chosen in
    let m := mean norms in
    m / (greatest (map (fun v => Rabs (v / m - 1)) norms) + 1) ^ 2.
  (** 937-941, 958-961: the last of the map by scores, a later candidate replacing one with the same score *)
  Definition best (chosen : list nat) (l : list nat) : nat :=
    match l with
    | [] => 0%nat
    | i :: r => fold_left (fun b j => if Rle_dec (score chosen b) (score chosen j) then j else b) r i
    end.
  (** the loop, 908-965 *)
  Fixpoint pick (fuel left candidate : nat) (chosen visited : list nat) (h : R) : option (list nat * R) :=
    match left with
    | O => Some (chosen, h)
    | S k =>
        let chosen' := chosen ++ [candidate] in
        let seen := candidate :: visited in
        match shrink fuel chosen' (seen ++ neighbours candidate h seen) h with
        | None => None
        | Some (visited', h') => pick fuel k (best chosen' (filter (fun j => negb (has j visited')) (seq 0 count))) chosen' visited' h'
        end
    end.
  (** the places of the points returned, and the distance getMinDistance returns then *)
  Definition decimate (fuel n : nat) (h : R) : option (list nat * R) := pick fuel n 0 [] [] h.
End Decimate.
(** solveGrid and solveRandom from the candidates on: m_minDist is half the diagonal of the box, 577, 701 *)
Definition seeds (fuel n : nat) (span seed : vec) (cands : list (vec * R)) : option (list (vec * R) * R) :=
  let l := sort_from seed cands in
  match decimate l fuel n (norm span / 2) with
  | Some (idx, h) => Some (map (fun j => nth j l (vzero, 0)) idx, h)
  | None => None
  end.

(** ** Level set *)
(** solveLSet, 441-556: the vertices, in order, the distances from the vertices chosen, the sensitivities *)
Section LevelSet.
  Variable verts : list nat.
  Variable geodesic : list nat -> nat -> R.
  Variable sensitivity : nat -> R.
  (** 513-529 *)
  Definition farthest (chosen : list nat) : nat :=
    snd (fold_left (fun b i => if Rlt_dec (fst b) (geodesic chosen i * sensitivity i) then (geodesic chosen i * sensitivity i, i) else b) verts (0, 0%nat)).
  (** 507-535; the first is the vertex nearest to the seed *)
  Fixpoint grow (left : nat) (chosen : list nat) : list nat :=
    match left with O => chosen | S k => grow k (chosen ++ [farthest chosen]) end.
  (** 537-545: their coordinates; None: a vertex that is not there.  499: without a first vertex nothing is chosen; with one,
      it is there even if no points are asked *)
  Definition level_set (n : nat) (first : option nat) : option (list nat) :=
    match first with
    | None => Some []
    | Some v => let l := grow (n - 1) [v] in if forallb (fun i => existsb (Nat.eqb i) verts) l then Some l else None
    end.
End LevelSet.
(** 547-553: the distance getMinDistance returns, [top] the greatest double *)
Fixpoint level_set_distance (top : R) (points : list vec) : R :=
  match points with
  | [] => top
  | p :: r => level_set_distance (fold_left (fun m q => Rmin m (norm (vsub p q))) r top) r
  end.

(** ** Parameters *)
Record params := Params { q_points : nat; q_engine : Z; q_seed : Z * Z * Z; q_center : bool; q_fixed : bool; q_signature : Z }.
(** the constructor, 41-51 *)
Definition defaults : params := Params 0 2 (0, 0, 0)%Z false false 1.
(** flushSectionXML, 1462-1496: what is written, if anything (numbers written are read back; coordinates taken as integers) *)
Record section := Section_ { x_points : option Z; x_engine : option Z; x_seed : option (Z * Z * Z); x_center : option Z; x_fixed : option Z }.
Definition flush (p : params) : section :=
  Section_ (if Nat.eqb (q_points p) 0 then None else Some (Z.of_nat (q_points p)))
    (if Z.eqb (q_engine p) 2 then None else Some (q_engine p))
    (match q_seed p with (0, 0, 0)%Z => None | s => Some s end)
    (if q_center p then Some 1%Z else None)
    (if negb (Z.eqb (q_signature p) (-1)) && Z.eqb (q_engine p) 0 then Some (q_signature p) else None).
(** setEngine, 263-267 *)
Definition setEngine (e : Z) (p : params) : params :=
  Params (q_points p) (if (e <? 0)%Z || (2 <? e)%Z then 2%Z else e) (q_seed p) (q_center p) (q_fixed p) (q_signature p).
(** absorbSectionXML, 1388-1455: the value of RandomFixed goes to setRandomFixed, as a bool; RandomSignature is not read *)
Definition absorb (x : section) (p : params) : params :=
  let p1 := match x_points x with Some v => Params (Z.to_nat (Z.max v 0)) (q_engine p) (q_seed p) (q_center p) (q_fixed p) (q_signature p) | None => p end in
  let p2 := match x_engine x with Some v => setEngine (Z.min (Z.max v 0) 2) p1 | None => p1 end in
  let p3 := match x_seed x with Some s => Params (q_points p2) (q_engine p2) s (q_center p2) (q_fixed p2) (q_signature p2) | None => p2 end in
  let p4 := match x_center x with Some v => Params (q_points p3) (q_engine p3) (q_seed p3) (negb (Z.eqb v 0)) (q_fixed p3) (q_signature p3) | None => p3 end in
  match x_fixed x with Some v => Params (q_points p4) (q_engine p4) (q_seed p4) (q_center p4) (negb (Z.eqb v 0)) (q_signature p4) | None => p4 end.
(** 709-711: the signature of an execution at a time *)
Definition signature_used (time : Z) (p : params) : Z := if q_fixed p then q_signature p else time.
(** setRandomFixed, 316-318 *)
Definition setRandomFixed (b : bool) (p : params) : params := Params (q_points p) (q_engine p) (q_seed p) (q_center p) b (q_signature p).
(** solveRandom, 709-728: the points come from the signature ([points], the generator and all that follows), and it is kept *)
Definition execute_random {A : Type} (points : Z -> A) (time : Z) (p : params) : A * params :=
  (points (signature_used time p), Params (q_points p) (q_engine p) (q_seed p) (q_center p) (q_fixed p) (signature_used time p)).
