(** What a Wavefront OBJ file says, without the model but for the kinds of lines and the records of the cells. *)
From Coq Require Import Reals List Arith ZArith Bool.
From Verif Require Import Vec Wavefront.
Import ListNotations.
Open Scope R_scope.

(** A part of a file: its name, its vertices, the coordinates of its textures (one to three), its normals, then the rest. *)
Record part := Part { p_name : name; p_v : list vec; p_t : list (list R); p_n : list vec; p_body : list line }.
Definition text (p : part) : list line :=
  Lo (p_name p) :: map Lv (p_v p) ++ map (fun c => Lvt c false) (p_t p) ++ map Lvn (p_n p) ++ p_body p.
Definition padded (c : list R) : vec := V3 (nth 0 c 0) (nth 1 c 0) (nth 2 c 0).
(** the rest has no vertices and no names of parts *)
Definition statement (l : line) : Prop := match l with Lo _ | Lv _ | Lvt _ _ | Lvn _ => False | _ => True end.
(** which of v/vt/vn are in an entry of a facet *)
Definition shape (e : entry) : bool * bool :=
  (match snd (fst e) with Some _ => true | None => false end, match snd e with Some _ => true | None => false end).
(** A part as the reader expects it: no empty line after the vertices, facets of entries alike in the whole part, a blank at the end of
    the facets of vertices only. *)
Definition laid_out (p : part) : Prop :=
  (forall c, In c (p_t p) -> (1 <= length c <= 3)%nat) /\ (forall l, In l (p_body p) -> statement l) /\
  ((p_v p = [] /\ p_t p = [] /\ p_n p = []) \/ exists l r, p_body p = l :: r /\ l <> Lempty) /\
  exists sh, forall es b, In (Lf es b) (p_body p) -> es <> [] /\ (forall e, In e es -> shape e = sh) /\ (sh = (false, false) -> b = true).

(** What was said last, of a number of lines. *)
Definition latest {A} (say : line -> list A) (d : A) (ls : list line) : A := last (flat_map say ls) d.
Definition material_said : list line -> name := latest (fun l => match l with Lu (w :: _) => [[w]] | _ => [] end) [].
Definition group_said (part_name : name) : list line -> name :=
  latest (fun l => match l with Lg (w :: _) => [if list_eq_dec Nat.eq_dec [w] part_name then [] else [w]] | _ => [] end) [].
Definition smooth_said : list line -> Z := latest (fun l => match l with Ls (Some z) => [z] | Ls None => [0%Z] | _ => [] end) 0%Z.
(** The vertex a number stands for when [n] have come so far: from the first, or from the last if negative. *)
Definition counted (n : nat) (k : Z) : Z := if Z_lt_dec k 0 then (Z.of_nat n + 1 + k)%Z else k.
(** The cells of the facets of three vertices or more, in order, each with what was said last before it. *)
Fixpoint cells_said (ign : bool) (pid : nat) (n : name) (nv nt nn : nat) (before body : list line) : list rcell :=
  match body with
  | [] => []
  | l :: r =>
    match l with
    | Lf es _ =>
      if le_dec 3 (length es) then
        [RCell pid (map (fun e => counted nv (fst (fst e))) es)
               (flat_map (fun e : entry => match snd (fst e) with Some k => [counted nt k] | None => [] end) es)
               (flat_map (fun e : entry => match snd e with Some k => [counted nn k] | None => [] end) es)
               (material_said before) (if ign then [] else group_said n before) (smooth_said before)]
      else []
    | _ => []
    end ++ cells_said ign pid n nv nt nn (before ++ [l]) r
  end.
Fixpoint cells_of (ign : bool) (pid nv nt nn : nat) (parts : list part) : list rcell :=
  match parts with
  | [] => []
  | p :: r =>
    let nv' := (nv + length (p_v p))%nat in let nt' := (nt + length (p_t p))%nat in let nn' := (nn + length (p_n p))%nat in
    cells_said ign pid (p_name p) nv' nt' nn' [] (p_body p) ++ cells_of ign (S pid) nv' nt' nn' r
  end.

(** ** A mesh written and the mesh read *)
(** the corners of a cell: the point, its texture and its normal *)
Definition corner : Type := vec * vec * vec.
Fixpoint corners_of (p t n : list vec) : list corner :=
  match p, t, n with a :: p', b :: t', c :: n' => (a, b, c) :: corners_of p' t' n' | _, _, _ => [] end.
(** a vertex of a list by its number from 1 *)
Definition vertex (l : list vec) (k : Z) : vec := nth (Z.to_nat (k - 1)) l vzero.
Definition corners_read (st : state) (c : rcell) : list corner :=
  corners_of (map (vertex (s_v st)) (r_conn c)) (map (vertex (s_t st)) (r_txt c)) (map (vertex (s_n st)) (r_nrm c)).
Definition cells_read (st : state) (pid : nat) : list rcell := filter (fun c => Nat.eqb (r_pid c) pid) (s_cells st).
(** at most a word *)
Definition one_word (n : name) : Prop := (length n <= 1)%nat.
(** the elements of a list, once each, in any order *)
Definition set_order (f : list nat -> list nat) : Prop := forall l, NoDup (f l) /\ forall x, In x (f l) <-> In x l.
(** a cell of three vertices or more, with a texture and a normal for each *)
Definition sound (c : wcell) : Prop := (3 <= length (w_conn c))%nat /\ length (w_txt c) = length (w_conn c) /\ length (w_nrm c) = length (w_conn c).
(** the point printed *)
Definition printed (shown : R -> R) (p : vec) : vec := V3 (shown (vx p)) (shown (vy p)) (shown (vz p)).
