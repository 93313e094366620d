(** ProjSegmentOnSurface and ProjPatchOnSurface (src/utils): segments and patches projected on a surface; RBFBox (src/utils/RBFBox.cpp).
    Doubles are real numbers.  The projection of a point (SkdTreeUtils) is a function.  Not modelled: partitions, trees, plots. *)
From Coq Require Import Reals List Arith ZArith NArith Bool.
From Verif Require Import Vec Text.
Import ListNotations.
Open Scope R_scope.

(** ** Segments *)
(** setSegment with two points, ProjSegmentOnSurface.cpp 123-129; [now] the points so far *)
Definition setSegment (a b : vec) (now : vec * vec) : vec * vec := if Rlt_dec (norm (vsub b a)) (/ 10 ^ 18) then now else (a, b).
(** setSegment with a point, a direction and a length, 138-140 *)
Definition setSegmentFrom (origin dir : vec) (length : R) (now : vec * vec) : vec * vec := setSegment origin (vadd origin (vscale length dir)) now.
(** projection, 254-261: the points on the segment.  None: with no cells the step is not a number, with less than -1 resize throws *)
Definition segment_points (n : Z) (ab : vec * vec) : option (list vec) :=
  if Z.eqb n 0 then None else if Z.ltb (n + 1) 0 then None
  else let dx := vscale (/ IZR n) (vsub (snd ab) (fst ab)) in Some (map (fun k => vadd (fst ab) (vscale (INR k) dx)) (seq 0 (Z.to_nat (n + 1)))).
(** 269-311: the vertices by identifier, and the cells *)
Definition project_segment (project : vec -> vec) (n : Z) (ab : vec * vec) : option (list (nat * vec) * list (nat * (nat * nat))) :=
  match segment_points n ab with
  | None => None
  | Some l => Some (combine (seq 0 (length l)) (map project l), map (fun i => (i, (i, (i + 1)%nat))) (seq 0 (Z.to_nat n)))
  end.

(** ** Segments in XML *)
(** coordinates are integers of up to six digits here, that are written as such *)
Definition ends : Type := (Z * Z * Z) * (Z * Z * Z).
(** flushSectionXML, 219-223: the six numbers, nothing between them *)
Definition flush_segment (s : ends) : list N :=
  match s with ((a, b, c), (d, e, f)) => show_int a ++ show_int b ++ show_int c ++ show_int d ++ show_int e ++ show_int f end.
(** in >> x *)
Definition read_into (x : Z) (s : stream) : Z * stream :=
  let (v, s') := get_int s in ((if attempted s then match v with Some z => z | None => 0%Z end else x), s').
(** absorbSectionXML, 154-164: [trim] only takes spaces away *)
Definition absorb_segment (text : list N) (now : ends) : ends :=
  let r :=
    match text with
    | [] => ((0, 0, 0), (1, 1, 1))%Z
    | _ => let s := opened text in
           let (a, s) := read_into 0 s in let (b, s) := read_into 0 s in let (c, s) := read_into 0 s in
           let (d, s) := read_into 1 s in let (e, s) := read_into 1 s in let (f, s) := read_into 1 s in ((a, b, c), (d, e, f))
    end in
  (* setSegment, 123-129: integers are the same point or not *)
  match r with ((a, b, c), (d, e, f)) => if Z.eqb a d && Z.eqb b e && Z.eqb c f then now else r end.

(** ** Patches *)
(** ProjPatchOnSurface.cpp projection, 239-280: the patch projected, and the one given then; [on_target]: they are the same *)
Record patch := Patch { h_vertices : list (nat * vec); h_cells : list (nat * list nat) }.
Definition modifyVertex (x : nat) (p : vec) (g : patch) : patch :=
  Patch (map (fun e => if Nat.eqb (fst e) x then (fst e, p) else e) (h_vertices g)) (h_cells g).
Definition project_patch (project : vec -> vec) (on_target : bool) (g : patch) : patch * patch :=
  let r := fold_left (fun h e => modifyVertex (fst e) (snd e) h) (combine (map fst (h_vertices g)) (map project (map snd (h_vertices g)))) g in
  (r, if on_target then r else g).

(** ** RBFBox *)
(** setSupportRadius, RBFBox.cpp 153-155 *)
Definition setSupportRadius (r : R) : R := Rmax 0 r.
Definition vmin (p q : vec) : vec := V3 (Rmin (vx p) (vx q)) (Rmin (vy p) (vy q)) (Rmin (vz p) (vz q)).
Definition vmax (p q : vec) : vec := V3 (Rmax (vx p) (vx q)) (Rmax (vy p) (vy q)) (Rmax (vz p) (vz q)).
Definition all3 (x : R) : vec := V3 x x x.
(** execute, 217-229, on one process; [top] the greatest double *)
Definition corners (top r : R) (verts : list vec) : vec * vec :=
  fold_left (fun b v => (vmin (fst b) (vsub v (all3 (r * (101 / 100)))), vmax (snd b) (vadd v (all3 (r * (101 / 100)))))) verts (all3 top, all3 (-1 * top)).
(** 233-234, on all *)
Definition reduce (parts : list (vec * vec)) : option (vec * vec) :=
  match parts with [] => None | b :: l => Some (fold_left vmin (map fst l) (fst b), fold_left vmax (map snd l) (snd b)) end.
(** 237-238: span and origin; getAABB, 133-136 *)
Definition box (b : vec * vec) : vec * vec := let span := vsub (snd b) (fst b) in (vadd (fst b) (vscale (/ 2) span), span).
Definition getAABB (os : vec * vec) : vec * vec := (vsub (fst os) (vscale (/ 2) (snd os)), vadd (fst os) (vscale (/ 2) (snd os))).
(** the whole: the box each process gets *)
Definition rbf_box (top r : R) (parts : list (list vec)) : option (vec * vec) := option_map box (reduce (map (corners top r) parts)).
