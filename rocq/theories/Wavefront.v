(** Wavefront OBJ files: their reading and their writing.
    Source: src/iogeneric/IOWavefrontOBJ.cpp (WavefrontOBJData and IOWavefrontOBJ).
    Simplifications: a file is a list of lines, each ended by a newline; a name is the list of its words, without the blanks between
    them (a word is a number here), the empty list for the empty name; numbers are read as they are written and written through a function
    [shown] that stands for the six decimals printed; the cleaning of the mesh after the reading (1719-1853: orphan vertices, double
    vertices, degenerate cells) is not modelled, nor is what is read by more than a process.
    None: an exception, undefined behaviour, or the cases said below not to be modelled. *)
From Coq Require Import Reals List Arith ZArith Bool.
From Verif Require Import Vec.
Import ListNotations.
Open Scope R_scope.

Definition name := list nat.
Definition name_eqb (a b : name) : bool := if list_eq_dec Nat.eq_dec a b then true else false.
(** v, v/vt, v//vn or v/vt/vn *)
Definition entry : Type := Z * option Z * option Z.
Inductive line :=
| Lo (n : name)                        (* o, at least two characters *)
| Lv (p : vec)
| Lvt (c : list R) (blank : bool)      (* some coordinates, then whether there is a blank before the end of the line *)
| Lvn (p : vec)
| Lf (es : list entry) (blank : bool)  (* as for vt *)
| Lg (n : name)
| Lu (n : name)                        (* usemtl *)
| Ls (s : option Z)                    (* None: off, or nothing *)
| Lother                               (* another first character, or vp; two characters at least *)
| Lone                                 (* a character that is none of the keys, as the return of the lines of other systems *)
| Lempty.

(** A cell of the mesh read with those of the textures and of the normals of the same id, and what is given with it. *)
Record rcell := RCell { r_pid : nat; r_conn : list Z; r_txt : list Z; r_nrm : list Z; r_mat : name; r_grp : name; r_smooth : Z }.
(** 2233-2252: what is read so far (the vertices by their place: the id is the place from 1; so for the cells), and what is active *)
Record state := State { s_v : list vec; s_t : list vec; s_n : list vec; s_cells : list rcell;
                        s_fd : option nat; s_mat : name; s_grp : name; s_smooth : Z }.

(** ** Reading *)
(** searchObjectPosition, 2153-2161: the objects, each with the lines from its position to the end of the file *)
Fixpoint objects (ls : list line) : list (name * list line) :=
  match ls with [] => [] | Lo n :: r => (n, r) :: objects r | _ :: r => objects r end.
(** 2162-2188: the v, vt and vn of an object *)
Fixpoint to_next (ls : list line) : list line :=
  match ls with [] => [] | Lo _ :: _ => [] | l :: r => l :: to_next r end.
Definition is_v (l : line) : bool := match l with Lv _ => true | _ => false end.
Definition is_vt (l : line) : bool := match l with Lvt _ _ => true | _ => false end.
Definition is_vn (l : line) : bool := match l with Lvn _ => true | _ => false end.
Definition is_o (l : line) : bool := match l with Lo _ => true | _ => false end.
Definition many (f : line -> bool) (ls : list line) : nat := length (filter f (to_next ls)).

(** 2275-2278, 2313-2316: three coordinates.  A read that fails leaves the last number.  On a line that is not v, vt or vn: not
    modelled (the first numbers of a facet are taken, an exception comes for a word) *)
Definition parse3 (l : line) : option vec :=
  match l with
  | Lv p | Lvn p => Some p
  | Lvt [a] _ => Some (V3 a a a) | Lvt [a; b] _ => Some (V3 a b b) | Lvt (a :: b :: c :: _) _ => Some (V3 a b c)
  | _ => None
  end.
(** 2294-2299: while something is left on the line *)
Definition parse_vt (l : line) : option vec :=
  match l with
  | Lv p | Lvn p => Some p
  | Lvt [a] b => Some (V3 a (if b then a else 0) 0) | Lvt [a; b] k => Some (V3 a b (if k then b else 0))
  | Lvt (a :: b :: c :: _) _ => Some (V3 a b c)
  | _ => None
  end.
(** 2271-2283, 2290-2304, 2309-2322: [k] lines from the current one; the line after them is the current one, of which a character is
    taken (an exception on an empty line and at the end of the file) *)
Fixpoint block (parse : line -> option vec) (k : nat) (cur : line) (rest : list line) : option (list vec * line * list line) :=
  match k with
  | O => Some ([], cur, rest)
  | S k' =>
    match parse cur, rest with
    | Some p, c :: r =>
      match c with
      | Lempty => None
      | _ => match block parse k' c r with Some (ps, c', r') => Some (p :: ps, c', r') | None => None end
      end
    | _, _ => None
    end
  end.
(** 2268-2325, for an object of the given numbers of v, vt and vn *)
Definition blocks (counts : nat * nat * nat) (cur : line) (rest : list line) (st : state) : option (line * list line * state) :=
  let '(kv, kt, kn) := counts in
  match (if is_v cur then block parse3 kv cur rest else Some ([], cur, rest)) with
  | None => None
  | Some (pv, c1, r1) =>
    match (if is_vt c1 then block parse_vt kt c1 r1 else Some ([], c1, r1)) with
    | None => None
    | Some (pt, c2, r2) =>
      match (if is_vn c2 then block parse3 kn c2 r2 else Some ([], c2, r2)) with
      | None => None
      | Some (pn, c3, r3) =>
        Some (c3, r3, State (s_v st ++ pv) (s_t st ++ pt) (s_n st ++ pn) (s_cells st) (s_fd st) (s_mat st) (s_grp st) (s_smooth st))
      end
    end
  end.

(** checkFacetDefinition, 2705-2717 *)
Definition definition (e : entry) : nat :=
  match e with (_, None, None) => 0 | (_, Some _, None) => 1 | (_, Some _, Some _) => 2 | (_, None, Some _) => 3 end.
(** 2340: the numbers of the line *)
Definition tokens (e : entry) : list Z :=
  let '(v, t, n) := e in v :: (match t with Some x => [x] | None => [] end) ++ (match n with Some x => [x] | None => [] end).
(** 2344-2382, while the stream is good: when the only number of an entry ends the line, it is not.  Numbers that are not in whole
    entries of the definition: not modelled *)
Fixpoint plain (blank : bool) (ts : list Z) : list Z :=
  match ts with [] => [] | [t] => if blank then [t] else [] | t :: r => t :: plain blank r end.
Fixpoint pairs (ts : list Z) : option (list (Z * Z)) :=
  match ts with
  | [] => Some []
  | a :: b :: r => match pairs r with Some l => Some ((a, b) :: l) | None => None end
  | _ => None
  end.
Fixpoint triples (ts : list Z) : option (list (Z * Z * Z)) :=
  match ts with
  | [] => Some []
  | a :: b :: c :: r => match triples r with Some l => Some ((a, b, c) :: l) | None => None end
  | _ => None
  end.
Definition facet (fd : nat) (blank : bool) (ts : list Z) : option (list Z * list Z * list Z) :=
  match fd with
  | 0%nat => Some (plain blank ts, [], [])
  | 1%nat => match pairs ts with Some l => Some (map fst l, map snd l, []) | None => None end
  | 2%nat => match triples ts with Some l => Some (map (fun e => fst (fst e)) l, map (fun e => snd (fst e)) l, map snd l) | None => None end
  | _ => match pairs ts with Some l => Some (map fst l, [], map snd l) | None => None end
  end.
(** 2348, 2355, 2361: from the last when negative; the offset is the id of the next *)
Definition resolve (n : nat) (k : Z) : Z := if (k <? 0)%Z then (k + Z.of_nat (S n))%Z else k.
(** pushCell, 2667-2691: three vertices at least *)
Definition supported (conn : list Z) : bool := Nat.leb 3 (length conn).
(** 2328-2398: a facet.  A line without entries: skipped (on it the definition of the first entry read before is taken: not modelled) *)
Definition add_facet (pid : nat) (es : list entry) (blank : bool) (st : state) : option state :=
  match es with
  | [] => Some st
  | e :: _ =>
    let fd := match s_fd st with Some d => d | None => definition e end in
    match facet fd blank (flat_map tokens es) with
    | None => None
    | Some (v, t, n) =>
      let conn := map (resolve (length (s_v st))) v in
      let cells := if supported conn
                   then s_cells st ++ [RCell pid conn (map (resolve (length (s_t st))) t) (map (resolve (length (s_n st))) n) (s_mat st) (s_grp st) (s_smooth st)]
                   else s_cells st in
      Some (State (s_v st) (s_t st) (s_n st) cells (Some fd) (s_mat st) (s_grp st) (s_smooth st))
    end
  end.
(** >> a string: the first word; nothing is changed when there is none *)
Definition take_word (n old : name) : name := match n with [] => old | w :: _ => [w] end.
(** 2327-2438: the current line; [ign]: m_ignoringCellGroups *)
Definition switch (ign : bool) (pid : nat) (default : name) (cur : line) (st : state) : option state :=
  match cur with
  | Lf es blank => add_facet pid es blank st
  | Lu n => Some (State (s_v st) (s_t st) (s_n st) (s_cells st) (s_fd st) (take_word n (s_mat st)) (s_grp st) (s_smooth st))
  | Lg n =>
    if ign then Some st
    else let g := take_word n (s_grp st) in
         Some (State (s_v st) (s_t st) (s_n st) (s_cells st) (s_fd st) (s_mat st) (if name_eqb g default then [] else g) (s_smooth st))
  | Ls s => Some (State (s_v st) (s_t st) (s_n st) (s_cells st) (s_fd st) (s_mat st) (s_grp st) (match s with Some z => z | None => 0%Z end))
  | _ => Some st
  end.
(** 2262-2440; [fuel]: as many lines as there are, at least *)
Fixpoint read_object (fuel : nat) (ign : bool) (pid : nat) (default : name) (counts : nat * nat * nat) (ls : list line) (st : state) : option state :=
  match fuel with
  | O => None
  | S f =>
    match ls with
    | [] => Some st
    | Lone :: r | Lempty :: r => read_object f ign pid default counts r st
    | l :: r =>
      match blocks counts l r st with
      | None => None
      | Some (cur, rest, st1) =>
        match switch ign pid default cur st1 with
        | None => None
        | Some st2 => if is_o cur then Some st2 else read_object f ign pid default counts rest st2
        end
      end
    end
  end.
(** 1656-1668: the objects in order, what is active being reset for each (2233-2235, 2252) *)
Fixpoint read_objects (ign : bool) (pid : nat) (os : list (name * list line)) (st : state) : option state :=
  match os with
  | [] => Some st
  | (n, ls) :: r =>
    match read_object (S (length ls)) ign pid n (many is_v ls, many is_vt ls, many is_vn ls) ls
            (State (s_v st) (s_t st) (s_n st) (s_cells st) None [] [] 0%Z) with
    | None => None
    | Some st' => read_objects ign (S pid) r st'
    end
  end.
Definition blank_state : state := State [] [] [] [] None [] [] 0%Z.
Definition read_lines (ign : bool) (ls : list line) : option state := read_objects ign 0 (objects ls) blank_state.
(** read, 1601-1858: 1707-1714 and 1855-1857, textures or normals without vertices are made null, then updated *)
Definition read (ign : bool) (ls : list line) : option state :=
  match read_lines ign ls with
  | None => None
  | Some st => match s_t st, s_n st with [], _ => None | _, [] => None | _, _ => Some st end
  end.

(** ** Writing *)
(** A cell of the mesh to write: the vertices, those of its textures and of its normals (as many), what is given with it. *)
Record wcell := WCell { w_conn : list nat; w_txt : list nat; w_nrm : list nat; w_mat : name; w_grp : name; w_smooth : Z }.
Section Write.
  (** the coordinates of the vertices of the mesh, of the textures and of the normals *)
  Variables pos tex nrm : nat -> vec.
  (** whether there are textures and normals; m_textureUVMode *)
  Variables has_t has_n uv : bool.
  (** the decimals printed *)
  Variable shown : R -> R.
  (** getVertexFromCellList: MimmoObject.cpp 2557-2576, in the order of an unordered set *)
  Variables order_v order_t order_n : list nat -> list nat.
  (** the names in the order of the cells in memory *)
  Variables mats grps : list name.

  Definition show_vec (p : vec) : vec := V3 (shown (vx p)) (shown (vy p)) (shown (vz p)).
  Definition mem (i : nat) (l : list nat) : bool := existsb (Nat.eqb i) l.
  (** 2480-2508: the vertices not written so far, and the insertion maps (the id written is the place from 1) *)
  Definition fresh (ins l : list nat) : list nat := filter (fun i => negb (mem i ins)) l.
  Fixpoint place (i : nat) (l : list nat) : nat :=
    match l with [] => 0 | j :: r => if Nat.eqb i j then 1 else S (place i r) end.
  Definition index (ins : list nat) (i : nat) : Z := Z.of_nat (place i ins).
  Definition line_t (p : vec) : line :=
    if uv then Lvt [shown (vx p); shown (vy p)] true else Lvt [shown (vx p); shown (vy p); shown (vz p)] false.

  (** syncListsOnData, 77-105: 0 for the empty name, from 1 for the others in the order they come *)
  Fixpoint uniques (seen : list name) (l : list name) : list name :=
    match l with
    | [] => seen
    | n :: r => if name_eqb n [] || existsb (name_eqb n) seen then uniques seen r else uniques (seen ++ [n]) r
    end.
  Fixpoint find_name (n : name) (l : list name) : nat :=
    match l with [] => 0 | m :: r => if name_eqb n m then 1 else S (find_name n r) end.
  Definition key (l : list name) (n : name) : nat := match n with [] => 0%nat | _ => find_name n (uniques [] l) end.
  (** 117-125: the inverse list *)
  Definition named (l : list name) (k : nat) : name := match k with O => [] | S i => nth i (uniques [] l) [] end.
  (** regroupCells, 2606-2628 *)
  Definition leaf (cells : list wcell) (g m : nat) : list wcell :=
    filter (fun c => Nat.eqb (key grps (w_grp c)) g && Nat.eqb (key mats (w_mat c)) m) cells.
  Definition keys (l : list name) : list nat := seq 0 (S (length (uniques [] l))).

  (** 2546-2592 *)
  Definition facet_entries (iv it im : list nat) (c : wcell) : list entry :=
    map (fun i => (index iv (nth i (w_conn c) 0%nat),
                   if has_t then Some (index it (nth i (w_txt c) 0%nat)) else None,
                   if has_n then Some (index im (nth i (w_nrm c) 0%nat)) else None))
        (seq 0 (length (w_conn c))).
  (** 2532-2593: the cells of a leaf, with the smoothing active *)
  Fixpoint write_leaf (iv it im : list nat) (smooth : Z) (cells : list wcell) : list line * Z :=
    match cells with
    | [] => ([], smooth)
    | c :: r =>
      let head := if Z.eqb smooth (w_smooth c) then [] else [Ls (if Z.eqb (w_smooth c) 0 then None else Some (w_smooth c))] in
      let '(ls, s) := write_leaf iv it im (w_smooth c) r in
      (head ++ Lf (facet_entries iv it im c) true :: ls, s)
    end.
  (** 2525-2530: the materials of a group that have cells, the material active *)
  Fixpoint write_mats (iv it im : list nat) (cells : list wcell) (g : nat) (ms : list nat) (mat : nat) (smooth : Z) : list line * nat * Z :=
    match ms with
    | [] => ([], mat, smooth)
    | m :: r =>
      match leaf cells g m with
      | [] => write_mats iv it im cells g r mat smooth
      | l =>
        let head := if Nat.eqb mat m then [] else [Lu (named mats m)] in
        let '(ls, s) := write_leaf iv it im smooth l in
        let '(ls', m', s') := write_mats iv it im cells g r m s in
        (head ++ ls ++ ls', m', s')
      end
    end.
  (** 2514-2523: the groups that have cells; the group active differs from all at first (1947) and changes with each *)
  Fixpoint write_groups (default : name) (iv it im : list nat) (cells : list wcell) (gs : list nat) (mat : nat) (smooth : Z) : list line * nat * Z :=
    match gs with
    | [] => ([], mat, smooth)
    | g :: r =>
      match filter (fun c => Nat.eqb (key grps (w_grp c)) g) cells with
      | [] => write_groups default iv it im cells r mat smooth
      | _ =>
        let '(ls, m, s) := write_mats iv it im cells g (keys mats) mat smooth in
        let '(ls', m', s') := write_groups default iv it im cells r m s in
        (Lg (match g with O => default | _ => named grps g end) :: ls ++ ls', m', s')
      end
    end.
  (** write, 1924-1951 and writeObjectData, 2467-2595: the parts in the order of their identifiers, with the maps and what is active
      from a part to the next *)
  Fixpoint write_parts (parts : list (name * list wcell)) (iv it im : list nat) (mat : nat) (smooth : Z) : list line :=
    match parts with
    | [] => []
    | (n, cells) :: r =>
      let fv := fresh iv (order_v (flat_map w_conn cells)) in
      let ft := if has_t then fresh it (order_t (flat_map w_txt cells)) else [] in
      let fn := if has_n then fresh im (order_n (flat_map w_nrm cells)) else [] in
      let '(body, m, s) := write_groups n (iv ++ fv) (it ++ ft) (im ++ fn) cells (keys grps) mat smooth in
      Lo n :: map (fun i => Lv (show_vec (pos i))) fv ++ map (fun i => line_t (tex i)) ft ++ map (fun i => Lvn (show_vec (nrm i))) fn
        ++ body ++ write_parts r (iv ++ fv) (it ++ ft) (im ++ fn) m s
    end.
  (** 1910-1912: two comments and the name of the file of the materials *)
  Definition write (parts : list (name * list wcell)) : list line := Lother :: Lother :: Lother :: write_parts parts [] [] [] 0 0%Z.
End Write.
