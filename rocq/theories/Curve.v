(** Create3DCurve (src/iogeneric/Create3DCurve.cpp) and CreatePointCloud (src/iogeneric/CreatePointCloud.cpp): curves and clouds
    from lists of points.  Doubles are real numbers; one process (the others only get an empty geometry).  Vectors with
    identifiers (MimmoPiercedVector) are lists in the order of their storage, identifiers natural numbers.  The queue of priorities
    gives any of the longest segments: an execution is a relation.  Not modelled: reserved memory, logs, plots, XML. *)
From Coq Require Import Reals List Arith ZArith Bool.
From Verif Require Import Vec.
Import ListNotations.
Open Scope R_scope.

Definition data (A : Type) : Type := list (nat * A).
Definition ids {A : Type} (l : data A) : list nat := map fst l.
(** operator[] of an identifier that is there *)
Definition get {A : Type} (d : A) (l : data A) (x : nat) : A := match find (fun e => Nat.eqb (fst e) x) l with Some e => snd e | None => d end.
Definition exists_in {A : Type} (l : data A) (x : nat) : bool := existsb (fun e => Nat.eqb (fst e) x) l.
(** setRawPoints, setRawScalarField, setRawVectorField with a plain list, 167-175, 191-199, 215-223: identifiers from 0 *)
Definition numbered {A : Type} (l : list A) : data A := combine (seq 0 (length l)) l.

(** the object *)
Record curve := Curve { v_closed : bool; v_cells : Z; v_points : data vec; v_scalar : data R; v_vector : data vec }.
(** the constructor, 43-47 *)
Definition new_curve : curve := Curve false 0 [] [] [].
Definition setRawPoints (p : data vec) (o : curve) : curve := Curve (v_closed o) (v_cells o) p (v_scalar o) (v_vector o).
Definition setNCells (n : Z) (o : curve) : curve := Curve (v_closed o) n (v_points o) (v_scalar o) (v_vector o).

(** what is being built: the points, the fields, the connectivity by cells, the queue, and the last identifiers in use *)
Record work := Work { w_points : data vec; w_scalar : data R; w_vector : data vec; w_conn : data (nat * nat); w_queue : list (R * nat); w_idV : nat; w_idC : nat }.
Definition biggest (l : list nat) : nat := fold_left Nat.max l 0%nat.
(** int(m_closed) *)
Definition closing (o : curve) : Z := if v_closed o then 1 else 0.
(** fillPreliminaryStructure, 430-453: the segments.  None: the end of an empty list is moved back *)
Definition segments_of (o : curve) : option (data (nat * nat)) :=
  let l := ids (v_points o) in let n := length l in
  let path := map (fun k => (k, (nth k l 0%nat, nth (k + 1) l 0%nat))) (seq 0 (n - 1)) in
  if v_closed o then (if Nat.eqb n 0 then None else Some (path ++ [((n - 1)%nat, (nth (n - 1) l 0%nat, nth 0 l 0%nat))])) else Some path.
(** execute, 371-385, and refineObject, 473-488: before the first segment is split *)
Definition start (o : curve) (conn : data (nat * nat)) : work :=
  let p := v_points o in
  Work p (map (fun x => (x, if exists_in (v_scalar o) x then get 0 (v_scalar o) x else 0)) (ids p))
    (map (fun x => (x, if exists_in (v_vector o) x then get vzero (v_vector o) x else vzero)) (ids p)) conn
    (map (fun c => (norm (vsub (get vzero p (snd (snd c))) (get vzero p (fst (snd c)))), fst c)) conn)
    (biggest (ids p)) (biggest (ids conn)).
(** connectivity[c][1] = v *)
Definition shorten (c v : nat) (l : data (nat * nat)) : data (nat * nat) := map (fun e => if Nat.eqb (fst e) c then (c, (fst (snd e), v)) else e) l.
(** refineObject, 495-516: the segment with this length and cell is split in two, [rest] being the others in the queue *)
Definition split (w : work) (len : R) (c : nat) (rest : list (R * nat)) : work :=
  let v := S (w_idV w) in let k := S (w_idC w) in
  let a := fst (get (0, 0)%nat (w_conn w) c) in let b := snd (get (0, 0)%nat (w_conn w) c) in
  Work (w_points w ++ [(v, vscale (/ 2) (vadd (get vzero (w_points w) b) (get vzero (w_points w) a)))])
    (w_scalar w ++ [(v, / 2 * (get 0 (w_scalar w) b + get 0 (w_scalar w) a))])
    (w_vector w ++ [(v, vscale (/ 2) (vadd (get vzero (w_vector w) b) (get vzero (w_vector w) a)))])
    (shorten c v (w_conn w) ++ [(k, (v, b))])
    (rest ++ [(/ 2 * len, c); (/ 2 * len, k)]) v k.
(** refineObject, 490-517: as many segments as asked, each time any of the longest.  None: the queue is empty *)
Inductive refine : nat -> work -> option work -> Prop :=
| refine_stop : forall w, refine 0 w (Some w)
| refine_empty : forall n w, w_queue w = [] -> refine (S n) w None
| refine_split : forall n w len c before after r, w_queue w = before ++ (len, c) :: after -> (forall e, In e (w_queue w) -> fst e <= len) ->
    refine n (split w len c (before ++ after)) r -> refine (S n) w r.
(** the number of segments, 353 *)
Definition target (o : curve) : Z := Z.max (v_cells o) (Z.of_nat (length (v_points o)) - 1 + closing o).
(** the curve: vertices, cells, and the fields on the vertices *)
Record result := Result { g_points : data vec; g_cells : data (nat * nat); g_scalar : data R; g_vector : data vec }.
Definition result_of (w : work) : result := Result (w_points w) (w_conn w) (w_scalar w) (w_vector w).
(** execute, 336-418, and the object then.  m_nCells is changed for good, 353; None: undefined *)
Inductive execute (o : curve) : option result -> curve -> Prop :=
| execute_undefined : segments_of o = None -> execute o None (setNCells (target o) o)
| execute_done : forall conn r, segments_of o = Some conn ->
    refine (Z.to_nat (Z.max 0 (target o - (Z.of_nat (length (v_points o)) - 1 + closing o)))) (start o conn) r ->
    execute o (option_map result_of r) (setNCells (target o) o).

(** CreatePointCloud, execute, 220-279: the vertices, a cell for each, the fields: zero, then the values given for vertices *)
Definition written {A : Type} (raw : data A) (field : data A) : data A :=
  fold_left (fun f e => if exists_in f (fst e) then map (fun x => if Nat.eqb (fst x) (fst e) then e else x) f else f) raw field.
Definition cloud (points : data vec) (scalar : data R) (vector : data vec) : data vec * data nat * data R * data vec :=
  (points, map (fun x => (x, x)) (ids points), written scalar (map (fun x => (x, 0)) (ids points)), written vector (map (fun x => (x, vzero)) (ids points))).
