(** The data given with a mesh of a Wavefront OBJ file: their lists, the annotations, the pins, the normals, their dump.
    Source: src/iogeneric/IOWavefrontOBJ.cpp (WavefrontOBJData and ManipulateWFOBJData).
    Simplifications: a name is the list of its characters (numbers here); the fields on the cells are given for all the cells of the
    geometry (completeMissingData); one process. *)
From Coq Require Import Reals List Arith ZArith Bool.
From Verif Require Import Vec.
Import ListNotations.
Open Scope R_scope.

Definition chars := list nat.
Definition chars_eqb (a b : chars) : bool := if list_eq_dec Nat.eq_dec a b then true else false.
Definition blank : nat := 32.

(** ** Lists *)
(** an unordered_map from names; insert leaves the value there is *)
Definition known (n : chars) (m : list (chars * nat)) : bool := existsb (fun e => chars_eqb n (fst e)) m.
(** syncListsOnData, 77-90 and 92-105: the map and the next id *)
Definition sync_step (acc : list (chars * nat) * nat) (n : chars) : list (chars * nat) * nat :=
  let '(m, id) := acc in
  if known n m then (m, id) else match n with [] => (m ++ [(n, 0%nat)], id) | _ => (m ++ [(n, id)], S id) end.
Definition sync (field : list chars) : list (chars * nat) := fst (fold_left sync_step field ([], 1%nat)).
(** at *)
Definition key_of (m : list (chars * nat)) (n : chars) : option nat :=
  match find (fun e => chars_eqb n (fst e)) m with Some e => Some (snd e) | None => None end.
(** 117-125: the inverse map *)
Definition name_of (m : list (chars * nat)) (k : nat) : option chars :=
  match find (fun e => Nat.eqb k (snd e)) (rev m) with Some e => Some (fst e) | None => None end.

(** ** Annotations *)
Fixpoint prefix (p s : chars) : bool :=
  match p, s with [], _ => true | a :: p', b :: s' => Nat.eqb a b && prefix p' s' | _, [] => false end.
(** std::string::find *)
Fixpoint contains (s p : chars) : bool := prefix p s || match s with [] => false | _ :: r => contains r p end.
Inductive mode := HARD | SOFT | GETALL | GETALLNOBLANKS.
Record annotation := Annotation { a_name : chars; a_cells : list nat }.
(** computeAnnotations, 829-856 *)
Definition mark (m : mode) (old n : chars) : chars :=
  match m with
  | HARD => n
  | SOFT => match old with [] => n | _ => old end
  | GETALL => match old with [] => n | _ => old ++ blank :: n end
  | GETALLNOBLANKS => match old with [] => n | _ => if contains old n then old else old ++ n end
  end.
Definition set (g : nat -> chars) (i : nat) (n : chars) : nat -> chars := fun j => if Nat.eqb i j then n else g j.
(** 822-824: the cells of the geometry that are annotated, in the order of the geometry (MimmoPiercedVector.tpp 880-887) *)
Definition squeezed (geo : list nat) (a : annotation) : list nat := filter (fun i => existsb (Nat.eqb i) (a_cells a)) geo.
(** 821-858 *)
Definition annotate (m : mode) (geo : list nat) (anns : list annotation) (g : nat -> chars) : nat -> chars :=
  fold_left (fun g a => fold_left (fun g i => set g i (mark m (g i) (a_name a))) (squeezed geo a) g) anns g.

(** ** Pins *)
(** extractPinnedLists, 991-1000 and 1026-1035: by the value of the field *)
Definition pinned_materials (geo : list nat) (field : nat -> chars) (pins : list chars) : list nat :=
  filter (fun i => existsb (chars_eqb (field i)) pins) geo.
(** 1002-1023: by the value or by a part of it *)
Definition pinned_groups (geo : list nat) (field : nat -> chars) (pins : list chars) : list nat :=
  filter (fun i => existsb (chars_eqb (field i)) pins || existsb (contains (field i)) pins) geo.

(** ** Normals *)
(** checkNormalsMagnitude, 786-801.  [close]: bitpit DoubleFloatingEqual to 1; [tiny]: the least positive double *)
Definition check_normal (close : R -> bool) (tiny : R) (v : vec) : vec :=
  let n := norm v in if negb (close n) && (if Rlt_dec tiny n then true else false) then vscale (/ n) v else v.
(** computeNormals, 864-979: the cells of the normals by id, each with the normals of its corners.  [ev]: evalVNormal; [next]: the id of
    the first vertex added.  A cell of five vertices or more is a polygon: its connectivity is not given the number of vertices in front
    (948; MimmoObject.cpp 2232, 3210-3213), so that it is refused unless the first id is the number of those after it.
    The vertices repeated being collapsed (966-970) is not modelled. *)
Definition add_normals (next n : nat) (vs : list vec) : option (list vec) :=
  if Nat.leb n 4 then Some vs else if Nat.eqb n (S next) then Some (tl vs) else None.
Fixpoint recompute (size : nat -> nat) (ev : nat -> nat -> vec) (next : nat) (ids : list nat) (cells : list (nat * list vec)) : list (nat * list vec) :=
  match ids with
  | [] => cells
  | i :: r =>
    let vs := map (ev i) (seq 0 (size i)) in
    recompute size ev (next + size i) r (match add_normals next (size i) vs with Some l => cells ++ [(i, l)] | None => cells end)
  end.
(** 887-900: those of the candidates are erased first *)
Definition compute_normals (geo : list nat) (size : nat -> nat) (ev : nat -> nat -> vec) (next : nat) (candidates : list nat) (cells : list (nat * list vec)) : list (nat * list vec) :=
  let ids := filter (fun i => existsb (Nat.eqb i) candidates) geo in
  recompute size ev next ids (filter (fun c => negb (existsb (Nat.eqb (fst c)) ids)) cells).
Definition normals_of (cells : list (nat * list vec)) (i : nat) : option (list vec) :=
  match find (fun c => Nat.eqb i (fst c)) cells with Some c => Some (snd c) | None => None end.

(** ** Dump *)
Section Dump.
  (** a mesh, as it is dumped and restored *)
  Variable mesh : Type.
  Inductive token := TLoc (cell : bool) | TName (n : chars) | TNum (n : nat) | TInt (z : Z) | TBool (b : bool) | TMesh (m : mesh).
  Record wdata := WData { d_mat : list (nat * chars); d_grp : list (nat * chars); d_smooth : list (nat * Z); d_names : chars * chars * chars;
                          d_file : chars; d_txt : option mesh; d_nrm : option mesh }.
  (** dump, 148-207 *)
  Definition dump_names (name : chars) (l : list (nat * chars)) : list token :=
    TLoc true :: TName name :: TNum (length l) :: flat_map (fun e => [TNum (fst e); TName (snd e)]) l.
  Definition dump_ints (name : chars) (l : list (nat * Z)) : list token :=
    TLoc true :: TName name :: TNum (length l) :: flat_map (fun e => [TNum (fst e); TInt (snd e)]) l.
  Definition dump_mesh (m : option mesh) : list token := match m with Some x => [TBool true; TMesh x] | None => [TBool false] end.
  Definition dump (d : wdata) : list token :=
    let '(a, b, c) := d_names d in
    dump_names a (d_mat d) ++ dump_names b (d_grp d) ++ dump_ints c (d_smooth d) ++ [TName (d_file d)] ++ dump_mesh (d_txt d) ++ dump_mesh (d_nrm d).
  (** restore, 213-299; None: not what was expected (not modelled).  The textures and the normals there are stay if there are none in the
      stream *)
  Fixpoint read_names (k : nat) (s : list token) : option (list (nat * chars) * list token) :=
    match k, s with
    | O, _ => Some ([], s)
    | S k', TNum i :: TName n :: r => match read_names k' r with Some (l, r') => Some ((i, n) :: l, r') | None => None end
    | _, _ => None
    end.
  Fixpoint read_ints (k : nat) (s : list token) : option (list (nat * Z) * list token) :=
    match k, s with
    | O, _ => Some ([], s)
    | S k', TNum i :: TInt n :: r => match read_ints k' r with Some (l, r') => Some ((i, n) :: l, r') | None => None end
    | _, _ => None
    end.
  Definition restore_names (s : list token) : option (chars * list (nat * chars) * list token) :=
    match s with TLoc _ :: TName n :: TNum k :: r => match read_names k r with Some (l, r') => Some (n, l, r') | None => None end | _ => None end.
  Definition restore_ints (s : list token) : option (chars * list (nat * Z) * list token) :=
    match s with TLoc _ :: TName n :: TNum k :: r => match read_ints k r with Some (l, r') => Some (n, l, r') | None => None end | _ => None end.
  Definition restore_mesh (old : option mesh) (s : list token) : option (option mesh * list token) :=
    match s with TBool true :: TMesh m :: r => Some (Some m, r) | TBool false :: r => Some (old, r) | _ => None end.
  Definition restore (old : wdata) (s : list token) : option (wdata * list token) :=
    match restore_names s with
    | Some (a, m, s1) =>
      match restore_names s1 with
      | Some (b, g, s2) =>
        match restore_ints s2 with
        | Some (c, z, TName f :: s3) =>
          match restore_mesh (d_txt old) s3 with
          | Some (t, s4) => match restore_mesh (d_nrm old) s4 with Some (n, s5) => Some (WData m g z (a, b, c) f t n, s5) | None => None end
          | None => None
          end
        | _ => None
        end
      | None => None
      end
    | None => None
    end.
End Dump.
