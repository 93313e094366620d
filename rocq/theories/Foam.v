(** OpenFOAM cases: the mesh read, the points written, the fields on it.
    Source: src/ioofoam/IOOFOAM.cpp and src/ioofoam/openFoamFiles_native.cpp.
    Simplifications: what OpenFOAM finds in a directory is a record; labels are natural numbers; one process but where said; the mesh of
    bitpit is given by its interfaces.
    None: an exception or undefined behaviour. *)
From Coq Require Import Reals List Arith Bool.
From Verif Require Import Vec.
Import ListNotations.
Open Scope R_scope.

(** ** The case *)
Inductive shape := Hex | Tet | Prism | Pyr | Other.
(** Foam::fvMesh: points, faces with their owners, neighbours of the first of them, the faces of the cells, their shapes, the patches by
    their first face and their number of faces *)
Record case := Case { c_points : list vec; c_faces : list (list nat); c_owner : nat -> nat; c_neigh : list nat;
                      c_cells : list (list nat); c_shapes : nat -> shape * list nat; c_patches : list (nat * nat) }.
(** initializeCase, openFoamFiles_native.cpp 405-477: the arguments, the time and the mesh are static: they are made the first time only.
    [disk]: what is in the directories *)
Definition initialize {path : Type} (disk : path -> case) (loaded : option case) (p : path) : case :=
  match loaded with Some c => c | None => disk p end.
(** the cases seen by reads one after the other in a process *)
Fixpoint reads {path : Type} (disk : path -> case) (loaded : option case) (ps : list path) : list case :=
  match ps with [] => [] | p :: r => let c := initialize disk loaded p in c :: reads disk (Some c) r end.

(** ** Cells *)
Inductive etype := HEXAHEDRON | TETRA | WEDGE | PYRAMID | POLYHEDRON.
Definition pick (l : list nat) (is : list nat) : list nat := map (fun i => nth i l 0%nat) is.
(** mapEleVConnectivity, openFoamFiles_native.cpp 584-630, with the types of IOOFOAM.cpp 122-125 *)
Definition map_conn (s : shape) (l : list nat) : list nat :=
  match s with
  | Tet => pick l [2; 1; 3; 0]%nat
  | Hex => pick l [0; 3; 7; 4; 1; 2; 6; 5]%nat
  | Prism => pick l [0; 2; 1; 3; 5; 4]%nat
  | Pyr => pick l [3; 2; 1; 0; 4]%nat
  | Other => []
  end.
Definition face (c : case) (f : nat) : list nat := nth f (c_faces c) [].
(** IOOFOAM.cpp 630-649: a border face as it is; another one as it is if the cell on the other side has a greater label *)
Definition turned (c : case) (iC f : nat) : list nat :=
  if Nat.leb (length (c_neigh c)) f then face c f
  else let out := if Nat.eqb iC (c_owner c f) then Nat.ltb iC (nth f (c_neigh c) 0%nat) else Nat.ltb iC (c_owner c f) in
       if out then face c f else rev (face c f).
(** 616-651 *)
Definition poly_conn (c : case) (iC : nat) : list nat :=
  let fs := nth iC (c_cells c) [] in length fs :: flat_map (fun f => length (face c f) :: turned c iC f) fs.
(** 598-652: the type and the connectivity of a cell *)
Definition convert (c : case) (iC : nat) : etype * list nat :=
  let '(s, l) := c_shapes c iC in
  match s with
  | Hex => (HEXAHEDRON, map_conn Hex l) | Tet => (TETRA, map_conn Tet l) | Prism => (WEDGE, map_conn Prism l) | Pyr => (PYRAMID, map_conn Pyr l)
  | Other => (POLYHEDRON, poly_conn c iC)
  end.

(** ** Faces and interfaces *)
(** std::sort *)
Fixpoint insert (x : nat) (l : list nat) : list nat := match l with [] => [x] | y :: r => if Nat.leb x y then x :: l else y :: insert x r end.
Definition sort (l : list nat) : list nat := fold_right insert [] l.
(** std::equal of three iterators: past the end of the second, undefined *)
Fixpoint std_equal (a b : list nat) : option bool :=
  match a, b with
  | [], _ => Some true
  | x :: a', y :: b' => if Nat.eqb x y then std_equal a' b' else Some false
  | _ :: _, [] => None
  end.
(** 1034-1056: among the interfaces of the owner, each with its vertices; Some None for NULL_ID *)
Fixpoint find_interface (ifs : list (nat * list nat)) (f : list nat) : option (option nat) :=
  match ifs with
  | [] => Some None
  | (i, v) :: r => match std_equal (sort v) (sort f) with None => None | Some true => Some (Some i) | Some false => find_interface r f end
  end.
(** 1057: insert leaves what is there *)
Definition map_insert (m : nat -> option (option nat)) (f : nat) (i : option nat) : nat -> option (option nat) :=
  fun g => if Nat.eqb g f then match m f with Some x => Some x | None => Some i end else m g.
(** 1032-1058.  [ifs]: the interfaces of a cell *)
Fixpoint map_faces (c : case) (ifs : nat -> list (nat * list nat)) (fs : list nat) (m : nat -> option (option nat)) : option (nat -> option (option nat)) :=
  match fs with
  | [] => Some m
  | f :: r => match find_interface (ifs (c_owner c f)) (face c f) with None => None | Some i => map_faces c ifs r (map_insert m f i) end
  end.
Definition faces_map (c : case) (ifs : nat -> list (nat * list nat)) (m : nat -> option (option nat)) : option (nat -> option (option nat)) :=
  map_faces c ifs (seq 0 (length (c_faces c))) m.
(** operator[] of the map: the interface 0 if there is none; NULL_ID is no cell of the boundary *)
Definition at_ (m : nat -> option (option nat)) (f : nat) : option nat := match m f with Some x => x | None => Some 0%nat end.

(** ** Patches *)
Definition set_pid (g : nat -> nat) (i : option nat) (p : nat) : nat -> nat := match i with None => g | Some x => fun j => if Nat.eqb j x then p else g j end.
(** 1074-1082: the identifiers of the cells of the boundary, that have the ids of the interfaces; 0 for all at first (1061-1064) *)
Fixpoint set_pids (m : nat -> option (option nat)) (k : nat) (patches : list (nat * nat)) (g : nat -> nat) : nat -> nat :=
  match patches with
  | [] => g
  | (start, size) :: r => set_pids m (S k) r (fold_left (fun g f => set_pid g (at_ m f) (S k)) (seq start size) g)
  end.
Definition pids (m : nat -> option (option nat)) (patches : list (nat * nat)) : nat -> nat := set_pids m 0 patches (fun _ => 0%nat).

(** ** Points *)
(** writePointsOnCase, openFoamFiles_native.cpp 533-544: refused if they are not as many *)
Definition write_points (c : case) (points : list vec) : option case :=
  if Nat.eqb (length (c_points c)) (length points)
  then Some (Case points (c_faces c) (c_owner c) (c_neigh c) (c_cells c) (c_shapes c) (c_patches c)) else None.
(** IOOFOAM.cpp 1113-1153: the vertices of the mesh by id, in the order of the memory; with more processes (1119-1135), those of the
    internal cells by their ids *)
Definition remove_double (l : list nat) : list nat := nodup Nat.eq_dec l.
Definition points_of (many : bool) (ids : list nat) (coords : nat -> vec) (internal : list (list nat)) : list vec :=
  if many then map coords (sort (remove_double (concat internal))) else map coords ids.

(** ** Fields *)
Section Fields.
  Variable V : Type.
  Variables (zero : V) (add : V -> V -> V) (scale : R -> V -> V).
  (** a field by the ids, insert of an id that is there being an exception *)
  Definition field := list (nat * V).
  Definition has (f : field) (i : nat) : bool := existsb (fun e => Nat.eqb i (fst e)) f.
  Definition put (f : field) (i : nat) (v : V) : option field := if has f i then None else Some (f ++ [(i, v)]).
  Definition value (f : field) (i : nat) : option V := match find (fun e => Nat.eqb i (fst e)) f with Some e => Some (snd e) | None => None end.
  (** IOOFOAM.cpp 1330-1341, 1594-1605: the values to the cells in their order; past the end of the values, undefined *)
  Fixpoint read_bulk (cells : list nat) (vals : list V) : option field :=
    match cells, vals with
    | [], _ => Some []
    | c :: r, v :: w => match read_bulk r w with Some f => Some ((c, v) :: f) | None => None end
    | _ :: _, [] => None
    end.
  (** 1365-1371: the values of a patch *)
  Fixpoint put_patch (m : nat -> option (option nat)) (f : nat) (vals : list V) (acc : field) : option field :=
    match vals with
    | [] => Some acc
    | v :: r => match at_ m f with None => None | Some i => match put acc i v with None => None | Some acc' => put_patch m (S f) r acc' end end
    end.
  (** 1373-1378: zero to the cells of the patch *)
  Fixpoint put_zero (cells : list nat) (acc : field) : option field :=
    match cells with [] => Some acc | c :: r => match put acc c zero with None => None | Some acc' => put_zero r acc' end end.
  (** 1380-1387, of the scalar fields only: zero to the cells of no patch *)
  Fixpoint put_missing (cells : list nat) (acc : field) : option field :=
    match cells with
    | [] => Some acc
    | c :: r => if has acc c then put_missing r acc else match put acc c zero with None => None | Some acc' => put_missing r acc' end
    end.
  (** 1355-1389 (scalar) and 1621-1648 (vector).  [cells]: the cells of the boundary with their identifiers; [vals]: the values of the
      patch, none if the field is of another type or the patch is empty; [ps]: the identifiers there are, in an unknown order *)
  Fixpoint read_boundary (scalar : bool) (m : nat -> option (option nat)) (patches : list (nat * nat)) (cells : list (nat * nat))
                         (vals : nat -> list V) (ps : list nat) (acc : field) : option field :=
    match ps with
    | [] => Some acc
    | p :: r =>
      let mine := map fst (filter (fun c => Nat.eqb (snd c) p) cells) in
      let next := match p with
                  | O => if scalar then put_missing mine acc else Some acc
                  | S k => match vals k with [] => put_zero mine acc | _ => put_patch m (fst (nth k patches (0, 0)%nat)) (vals k) acc end
                  end in
      match next with None => None | Some acc' => read_boundary scalar m patches cells vals r acc' end
    end.
  (** interpolateFaceToPoint, openFoamFiles_native.cpp 637-688, 697-748.  A corner: the cell, the vertex and the angle.  None: a cell
      without value, or a sum of angles that is zero *)
  Definition corner : Type := nat * nat * R.
  Fixpoint sum_up (f : field) (cs : list corner) (v : nat) (acc : V * R) : option (V * R) :=
    match cs with
    | [] => Some acc
    | (c, w, a) :: r =>
      match value f c with
      | None => None
      | Some x => sum_up f r v (if Nat.eqb w v then (add (fst acc) (scale a x), snd acc + a) else acc)
      end
    end.
  Definition interpolate (f : field) (cs : list corner) (v : nat) : option V :=
    match sum_up f cs v (zero, 0) with
    | None => None
    | Some (s, a) => if Req_EM_T a 0 then None else Some (scale (/ a) s)
    end.
End Fields.

(** ** Options *)
Record options := Options { o_write : bool; o_points_only : bool; o_overwrite : bool }.
(** absorbSectionXML, IOOFOAM.cpp 493-519: both options set the overwriting *)
Definition absorb (o : options) (points_only overwrite : option bool) : options :=
  let o1 := match points_only with Some b => Options (o_write o) (o_points_only o) b | None => o end in
  match overwrite with Some b => Options (o_write o1) (o_points_only o1) b | None => o1 end.
(** flushSectionXML, 526-534: WritePointsOnly and Overwrite *)
Definition flush (o : options) : option bool * option bool := (Some (o_overwrite o), Some (o_overwrite o)).
(** setDefaults, 408-412, with the mode of the constructor *)
Definition defaults (write : bool) : options := Options write true false.
(** the constructor of IOOFOAM_Kernel from meshes, 54-74, for the types of the meshes; [Some false]: std::runtime_error; None: a null pointer dereferenced *)
Definition construct (bulk boundary : option nat) : option bool :=
  match bulk, boundary with
  | None, None => Some false
  | Some a, Some b => Some (Nat.eqb a 2 && Nat.eqb b 1 || Nat.eqb a 1 && Nat.eqb b 4)
  | _, _ => None
  end.
(** getPatchName, openFoamFiles_native.cpp 353-371; [Some None]: the empty name; None: out of bounds *)
Definition patch_name {A : Type} (names : list A) (k : nat) : option (option A) :=
  if Nat.ltb (length names) k then Some None else match nth_error names k with Some n => Some (Some n) | None => None end.
