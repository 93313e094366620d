(** Model of the manipulators of src/manipulators: RotationGeometry, TwistGeometry, ScaleGeometry,
    TranslationGeometry, BendGeometry, Apply and ApplyFilter, and of BaseManipulation::_apply.

    A geometry (MimmoObject) is an entry of a store: its type, its vertices (id and coordinates,
    in iteration order) and the normal of a vertex as bitpit evaluates it from the current
    coordinates (None: the vertex belongs to no cell).  A field (MimmoPiercedVector) is its linked
    geometry, its location and its (id, value) pairs; the name of a field is not modelled.  Only
    point fields matter here: every use is guarded by a test on the location.  Doubles are real
    numbers.  None is an exception of the code, or a division by zero (infinity or NaN in C++).
    update() of a geometry after the coordinates changed (search trees, see Shape.v), the log and
    XML input are not modelled. *)
From Coq Require Import List Arith Bool Reals.
From Verif Require Import Vec SharedPtr Field.
Import ListNotations.
Open Scope R_scope.

Record solid := So { so_type : nat; so_verts : list (nat * vec);
                     so_normal : list (nat * vec) -> nat -> option vec }.
Definition store := nat -> solid.

(** ids of the vertices of a geometry *)
Definition vert_ids (h : store) (g : nat) : list nat := map fst (so_verts (h g)).

(** modifyVertex on all the vertices (MimmoObject.cpp; the ids do not change) *)
Definition put_verts (h : store) (g : nat) (vs : list (nat * vec)) : store :=
  fun k => if Nat.eqb k g then So (so_type (h g)) vs (so_normal (h g)) else h k.

Record fld (A : Type) := Fd { fd_geo : option nat; fd_loc : location; fd_data : list (nat * A) }.
Arguments Fd {A}. Arguments fd_geo {A}. Arguments fd_loc {A}. Arguments fd_data {A}.

(** a field after its construction or clear(), MimmoPiercedVector.tpp 91-96, 157-162 *)
Definition no_field {A} : fld A := Fd None LUndef [].

Definition geo_eqb (a b : option nat) : bool :=
  match a, b with None, None => true | Some x, Some y => Nat.eqb x y | _, _ => false end.

(** completeMissingData on a field located on points, MimmoPiercedVector.tpp 567-579 with
    checkDataIdsCoherence 412-448 and checkDataSizeCoherence 378-400; the result is the field and
    the returned flag. *)
Definition complete {A} (h : store) (v : A) (f : fld A) : option (fld A * bool) :=
  match fd_geo f with
  | None => Some (f, false)
  | Some g =>
      if negb (forallb (fun id => existsb (Nat.eqb id) (vert_ids h g)) (map fst (fd_data f))) then Some (f, false)
      else if Nat.eqb (length (fd_data f)) (length (vert_ids h g)) then Some (f, true)
      else match fill (vert_ids h g) v (fd_data f) with
           | None => None
           | Some l => Some (Fd (fd_geo f) (fd_loc f) l, true)
           end
  end.

(** What all the manipulators share: m_geometry, m_filter and m_displ. *)
Record man := Mn { m_geo : option nat; m_filter : fld R; m_displ : fld vec }.

(** a manipulator after its construction, linked to a geometry by setGeometry or its port *)
Definition new_man (g : option nat) : man := Mn g no_field no_field.

(** setFilter(pointer), RotationGeometry.cpp 155-158 and the same in the other classes:
    None is the null pointer (BendGeometry.cpp 237-239 dereferences it: see bend_setFilter) *)
Definition setFilter (f : option (fld R)) (m : man) : man :=
  match f with None => m | Some f => Mn (m_geo m) f (m_displ m) end.
Definition bend_setFilter (f : option (fld R)) (m : man) : option man :=
  match f with None => None | Some f => Some (Mn (m_geo m) f (m_displ m)) end.

(** checkFilter, RotationGeometry.cpp 229-247; the same text in TwistGeometry.cpp 261-280,
    ScaleGeometry.cpp 204-223, TranslationGeometry.cpp 183-202, BendGeometry.cpp 310-328 *)
Definition unit_filter (h : store) (g : nat) : option (fld R) :=
  match insert_all (vert_ids h g) 1 [] with None => None | Some d => Some (Fd (Some g) LPoint d) end.
Definition checkFilter (h : store) (g : nat) (f : fld R) : option (fld R) :=
  if loc_eqb (fd_loc f) LPoint then
    match complete h 0 f with
    | None => None
    | Some (f', ok) => if ok && geo_eqb (fd_geo f') (Some g) then Some f' else unit_filter h g
    end
  else unit_filter h g.

(** The loop of the execute functions: [value p k] is the displacement of a vertex at p whose
    filter is k. *)
Fixpoint displace (value : vec -> R -> option vec) (fd : list (nat * R)) (vs out : list (nat * vec)) :
  option (list (nat * vec)) :=
  match vs with
  | [] => Some out
  | (id, p) :: r =>
      match find id fd with
      | None => None
      | Some k => match value p k with
                  | None => None
                  | Some v => match insert id v out with
                              | None => None
                              | Some out => displace value fd r out
                              end
                  end
      end
  end.
Definition execute (value : vec -> R -> option vec) (h : store) (m : man) : option man :=
  match m_geo m with
  | None => None
  | Some g => match checkFilter h g (m_filter m) with
              | None => None
              | Some f => match displace value (fd_data f) (so_verts (h g)) [] with
                          | None => None
                          | Some d => Some (Mn (Some g) f (Fd (Some g) LPoint d))
                          end
              end
  end.

(** BaseManipulation::_apply, BaseManipulation.cpp 955-971, and apply() of the classes *)
Definition move (d : list (nat * vec)) (e : nat * vec) : nat * vec :=
  match find (fst e) d with None => e | Some v => (fst e, vadd (snd e) v) end.
Definition apply (h : store) (m : man) : store :=
  match m_geo m with
  | None => h
  | Some g => put_verts h g (map (move (fd_data (m_displ m))) (so_verts (h g)))
  end.

(** exec() with the apply flag set, BaseManipulation.cpp 552-609: execute, then apply (ports
    and plots are not modelled here). *)
Definition exec (value : vec -> R -> option vec) (h : store) (m : man) : option (store * man) :=
  match execute value h m with None => None | Some m => Some (apply h m, m) end.

(** setDirection, RotationGeometry.cpp 135-140, TwistGeometry.cpp 139-144,
    TranslationGeometry.cpp 108-113: divides by the norm. *)
Definition setDirection (d : vec) : option vec :=
  if Req_EM_T (norm d) 0 then None else Some (V3 (vx d / norm d) (vy d / norm d) (vz d / norm d)).

(** an axis: m_origin and m_direction; setAxis (RotationGeometry.cpp 118-121, TwistGeometry.cpp
    122-125), the constructors and the ports store the direction as it is. *)
Record axis := Ax { x_origin : vec; x_dir : vec }.
Definition setAxis (o d : vec) : axis := Ax o d.
Definition axis_setDirection (d : vec) (x : axis) : option axis :=
  match setDirection d with None => None | Some d => Some (Ax (x_origin x) d) end.

(** The formula of Rodrigues as it is written in RotationGeometry.cpp 190-208 and
    TwistGeometry.cpp 222-238. *)
Definition rodrigues (d : vec) (angle : R) (point : vec) : vec :=
  let a := cos angle in
  let b := vscale (1 - cos angle) d in
  let c := sin angle in
  vadd (vadd (vscale a point) (vscale (dot d point) b)) (vscale c (cross d point)).

(** RotationGeometry::execute, RotationGeometry.cpp 174-214: the displacement of a vertex *)
Definition rotation (x : axis) (alpha : R) (p : vec) (k : R) : option vec :=
  let point := vsub p (x_origin x) in
  let rotated := vadd (rodrigues (x_dir x) alpha point) (x_origin x) in
  let point := vadd point (x_origin x) in
  Some (vscale k (vsub rotated point)).

(** TwistGeometry::execute, TwistGeometry.cpp 213-244 *)
Definition twist_angle (alpha D : R) (sym : bool) (distance : R) : R :=
  let rot := Rmin alpha ((Rabs distance / D) * alpha) in
  if Rlt_dec distance 0 then - rot * (if sym then 1 else 0) else rot.
Definition twist (x : axis) (alpha D : R) (sym : bool) (p : vec) (k : R) : option vec :=
  if Req_EM_T D 0 then None else
  let distance := dot (vsub p (x_origin x)) (x_dir x) in
  let rot := twist_angle alpha D sym distance in
  let projected := vadd (vscale distance (x_dir x)) (x_origin x) in
  let point := vsub p projected in
  let rotated := vadd (rodrigues (x_dir x) rot point) projected in
  let point := vadd point projected in
  Some (vscale k (vsub rotated point)).

(** ScaleGeometry::execute, ScaleGeometry.cpp 171-189; m_meanP chooses the mean of the vertices *)
Definition center_of (vs : list (nat * vec)) : vec :=
  vscale (/ INR (length vs)) (fold_left (fun c e => vadd c (snd e)) vs vzero).
Definition cmpmul (a b : vec) : vec := V3 (vx a * vx b) (vy a * vy b) (vz a * vz b).
Definition scaling (s center : vec) (p : vec) (k : R) : option vec :=
  Some (vscale k (vsub (vadd (cmpmul s (vsub p center)) center) p)).
Definition scale_exec (s origin : vec) (mean : bool) (h : store) (m : man) : option (store * man) :=
  match m_geo m with
  | None => None
  | Some g => exec (scaling s (if mean then center_of (so_verts (h g)) else origin)) h m
  end.

(** TranslationGeometry::execute, TranslationGeometry.cpp 162-168 *)
Definition translation (d : vec) (alpha : R) (_ : vec) (k : R) : option vec := Some (vscale k (vscale alpha d)).

(** ** BendGeometry *)
Record mat := M3 { row0 : vec; row1 : vec; row2 : vec }.
Definition unit_mat : mat := M3 (V3 1 0 0) (V3 0 1 0) (V3 0 0 1).
(** matmul, BendGeometry.cpp 371-383 (vector, matrix) and 391-403 (matrix, vector) *)
Definition vec_mat (v : vec) (m : mat) : vec :=
  vadd (vadd (vscale (vx v) (row0 m)) (vscale (vy v) (row1 m))) (vscale (vz v) (row2 m)).
Definition mat_vec (m : mat) (v : vec) : vec := V3 (dot v (row0 m)) (dot v (row1 m)) (dot v (row2 m)).

Record bend := Bn { b_deg : nat -> nat -> nat; b_coef : nat -> nat -> list R;
                    b_origin : vec; b_sys : mat; b_local : bool }.
Definition new_bend : bend := Bn (fun _ _ => 0%nat) (fun _ _ => []) vzero unit_mat false.

Definition upd2 {A} (i j : nat) (v : A) (f : nat -> nat -> A) : nat -> nat -> A :=
  fun a b => if Nat.eqb a i && Nat.eqb b j then v else f a b.
(** std::vector::resize(n, 0.0) *)
Definition resize (n : nat) (l : list R) : list R := firstn n l ++ repeat 0 (n - length l).
(** setDegree, 182-185; setDegree(matrix), 167-173, calls it for all entries *)
Definition setDegree (i j d : nat) (b : bend) : bend :=
  Bn (upd2 i j d (b_deg b)) (upd2 i j (resize (S d) (b_coef b i j)) (b_coef b)) (b_origin b) (b_sys b) (b_local b).
(** setCoeffs, 206-208 and 194-197 *)
Definition setCoeffs (i j : nat) (l : list R) (b : bend) : bend :=
  Bn (b_deg b) (upd2 i j l (b_coef b)) (b_origin b) (b_sys b) (b_local b).
(** setOrigin, 214-218; setRefSystem, 224-230 *)
Definition bend_setOrigin (o : vec) (b : bend) : bend := Bn (b_deg b) (b_coef b) o (b_sys b) true.
Definition setRefSystem (s : mat) (b : bend) : bend := Bn (b_deg b) (b_coef b) (b_origin b) s true.
(** the ports M_POINT and M_AXES, 114-115, write the members directly *)
Definition port_origin (o : vec) (b : bend) : bend := Bn (b_deg b) (b_coef b) o (b_sys b) (b_local b).
Definition port_axes (s : mat) (b : bend) : bend := Bn (b_deg b) (b_coef b) (b_origin b) s (b_local b).

(** toLocalCoord, 336-342; toGlobalCoord, 350-363 *)
Definition toLocal (b : bend) (p : vec) : vec := mat_vec (b_sys b) (vsub p (b_origin b)).
Definition toGlobal (b : bend) (p : vec) : vec := vadd (vec_mat p (b_sys b)) (b_origin b).

(** component i of an array of three *)
Definition comp (i : nat) (v : vec) : R := match i with O => vx v | S O => vy v | _ => vz v end.

(** execute, 260-265: the coefficients resized to the degrees; 274-281: one component *)
Definition coherent (b : bend) : bend :=
  Bn (b_deg b) (fun i j => resize (S (b_deg b i j)) (b_coef b i j)) (b_origin b) (b_sys b) (b_local b).
Definition bend_comp (b : bend) (p : vec) (k : R) (j : nat) : R :=
  fold_left (fun acc z =>
    if Nat.ltb 0 (b_deg b j z) then
      fold_left (fun acc i => acc + (comp z p) ^ i * nth i (b_coef b j z) 0 * k) (seq 0 (b_deg b j z + 1)) acc
    else acc) [0; 1; 2]%nat 0.
(** execute, 267-291 *)
Definition bending (b : bend) (p : vec) (k : R) : option vec :=
  let point := if b_local b then toLocal b p else p in
  let value := V3 (bend_comp b point k 0) (bend_comp b point k 1) (bend_comp b point k 2) in
  Some (if b_local b then vsub (toGlobal b (vadd point value)) p else value).
Definition bend_exec (b : bend) (h : store) (m : man) : option (bend * store * man) :=
  match m_geo m with
  | None => None
  | Some _ => let b := coherent b in
              match exec (bending b) h m with None => None | Some (h, m) => Some (b, h, m) end
  end.

(** ** Apply *)
Record app := Ap { a_geo : option nat; a_input : fld vec; a_scalar : fld R; a_filter : fld R;
                   a_factor : R; a_output : fld vec }.
(** Apply(), Apply.cpp 30-39 *)
Definition new_app (g : option nat) : app := Ap g no_field no_field no_field 1 no_field.
(** setInput 128-131, setScalarInput 138-141, setFilter 148-151, setScaling 158-160 *)
Definition app_setInput (f : option (fld vec)) (a : app) : app :=
  match f with None => a | Some f => Ap (a_geo a) f (a_scalar a) (a_filter a) (a_factor a) (a_output a) end.
Definition app_setScalar (f : option (fld R)) (a : app) : app :=
  match f with None => a | Some f => Ap (a_geo a) (a_input a) f (a_filter a) (a_factor a) (a_output a) end.
Definition app_setFilter (f : option (fld R)) (a : app) : app :=
  match f with None => a | Some f => Ap (a_geo a) (a_input a) (a_scalar a) f (a_factor a) (a_output a) end.
Definition app_setScaling (k : R) (a : app) : app :=
  Ap (a_geo a) (a_input a) (a_scalar a) (a_filter a) k (a_output a).
Definition with_fields (i : fld vec) (s f : fld R) (a : app) : app :=
  Ap (a_geo a) i s f (a_factor a) (a_output a).

Definition size {A} (f : fld A) : bool := match fd_data f with [] => false | _ => true end.

(** a field completed if a condition holds; the flag is the conjunction *)
Definition complete_if {A} (c : bool) (h : store) (v : A) (f : fld A) : option (fld A * bool) :=
  if c then complete h v f else Some (f, false).

(** Apply.cpp 411-417, ApplyFilter.cpp 197-202: scalar times normal on all the vertices *)
Fixpoint along_normals (normal : nat -> option vec) (s : list (nat * R)) (ids : list nat) (out : list (nat * vec)) :
  option (list (nat * vec)) :=
  match ids with
  | [] => Some out
  | id :: r => match find id s, normal id with
               | Some k, Some n => match insert id (vscale k n) out with
                                   | None => None
                                   | Some out => along_normals normal s r out
                                   end
               | _, _ => None
               end
  end.
Definition normal_field (h : store) (g : nat) (s : fld R) : option (fld vec) :=
  match vert_ids h g with
  | [] => Some no_field
  | ids => match along_normals (so_normal (h g) (so_verts (h g))) (fd_data s) ids [] with
           | None => None
           | Some d => Some (Fd (Some g) LPoint d)
           end
  end.

(** Apply.cpp 432-436: the input multiplied in place by the filter *)
Fixpoint times_filter (ids : list nat) (f : list (nat * R)) (d : list (nat * vec)) : option (list (nat * vec)) :=
  match ids with
  | [] => Some d
  | id :: r => match find id d, find id f with
               | Some v, Some k => times_filter r f (set id (vscale k v) d)
               | _, _ => None
               end
  end.

(** checkInput, Apply.cpp 386-455 *)
Definition in_input (h : store) (g : nat) (a : app) : option (app * bool) :=      (* 389-393 *)
  if size (a_input a) then
    match complete_if (loc_eqb (fd_loc (a_input a)) LPoint && geo_eqb (fd_geo (a_input a)) (Some g)) h vzero (a_input a) with
    | None => None
    | Some (i, ok) => Some (with_fields i (a_scalar a) (a_filter a) a, ok)
    end
  else Some (a, false).
Definition in_scalar (h : store) (g : nat) (st : app * bool) : option (app * bool) :=   (* 394-420 *)
  let (a, check) := st in
  if size (a_scalar a) then
    match complete_if (loc_eqb (fd_loc (a_scalar a)) LPoint && Nat.eqb (so_type (h g)) 1
                       && geo_eqb (fd_geo (a_scalar a)) (Some g)) h 0 (a_scalar a) with
    | None => None
    | Some (s, false) => Some (with_fields (a_input a) s (a_filter a) a, false)
    | Some (s, true) => match normal_field h g s with
                        | None => None
                        | Some i => Some (with_fields i s (a_filter a) a, true)
                        end
    end
  else Some (a, check).
Definition in_filter (h : store) (g : nat) (st : app * bool) : option (app * bool) :=   (* 421-440 *)
  let (a, check) := st in
  if size (a_filter a) then
    let c := loc_eqb (fd_loc (a_filter a)) LPoint && Nat.eqb (so_type (h g)) 1 in
    let f := Fd (Some g) (fd_loc (a_filter a)) (fd_data (a_filter a)) in
    match complete_if c h 0 f with
    | None => None
    | Some (f, false) => Some (with_fields (a_input a) (a_scalar a) f a, false)
    | Some (f, true) =>
        match times_filter (vert_ids h g) (fd_data f) (fd_data (a_input a)) with
        | None => None
        | Some d => Some (with_fields (Fd (fd_geo (a_input a)) (fd_loc (a_input a)) d) (a_scalar a) f a, true)
        end
    end
  else Some (a, check).
Definition zero_input (h : store) (g : nat) (a : app) : option app :=   (* 441-452 *)
  match insert_all (vert_ids h g) vzero [] with
  | None => None
  | Some d => Some (with_fields (Fd (Some g) LPoint d) (a_scalar a) (a_filter a) a)
  end.
Definition checkInput (h : store) (g : nat) (a : app) : option app :=
  match in_input h g a with
  | None => None
  | Some st => match in_scalar h g st with
               | None => None
               | Some st => match in_filter h g st with
                            | None => None
                            | Some (a, true) => Some a
                            | Some (a, false) => zero_input h g a
                            end
               end
  end.

(** execute, Apply.cpp 245-301 (the annotations are not modelled): the new coordinates and
    m_output *)
Fixpoint app_loop (factor : R) (input : list (nat * vec)) (vs : list (nat * vec)) (out : list (nat * vec)) :
  option (list (nat * vec) * list (nat * vec)) :=
  match vs with
  | [] => Some ([], out)
  | (id, p) :: r =>
      match find id input with
      | None => None
      | Some v => let val := vscale factor v in
                  match app_loop factor input r (set id val out) with
                  | None => None
                  | Some (vs', out) => Some ((id, vadd p val) :: vs', out)
                  end
      end
  end.
Definition app_execute (h : store) (a : app) : option (store * app) :=
  match a_geo a with
  | None => Some (h, a)
  | Some g =>
      match checkInput h g a with
      | None => None
      | Some a =>
          match app_loop (a_factor a) (fd_data (a_input a)) (so_verts (h g)) (fd_data (a_input a)) with
          | None => None
          | Some (vs, out) => Some (put_verts h g vs,
              Ap (a_geo a) (a_input a) (a_scalar a) (a_filter a) (a_factor a)
                 (Fd (fd_geo (a_input a)) (fd_loc (a_input a)) out))
          end
      end
  end.

(** ** ApplyFilter: the same state; the default factor, numeric_limits<double>::max(), means
    that the factor is not applied *)
Definition max_double : R := (2 - / 2 ^ 52) * 2 ^ 1023.
(** ApplyFilter(), ApplyFilter.cpp 31-34 *)
Definition new_app_filter (g : option nat) : app := app_setScaling max_double (new_app g).
Definition relink {A} (g : option nat) (f : fld A) : fld A := Fd g (fd_loc f) (fd_data f).

(** checkInput, ApplyFilter.cpp 156-227; None also for the exception of 222-226 *)
Definition af_input (h : store) (a : app) : option (option nat * app * bool) :=     (* 161-170 *)
  if size (a_input a) then
    let linked := match a_geo a with Some g => Some g | None => fd_geo (a_input a) end in
    let i := relink linked (a_input a) in
    match complete_if (loc_eqb (fd_loc i) LPoint) h vzero i with
    | None => None
    | Some (i, ok) => Some (linked, with_fields i (a_scalar a) (a_filter a) a, ok)
    end
  else Some (a_geo a, a, false).
Definition af_scalar (h : store) (st : option nat * app * bool) : option (option nat * app * bool) :=   (* 171-204 *)
  let '(linked, a, check) := st in
  if size (a_scalar a) then
    let linked := match linked with Some g => Some g | None => fd_geo (a_scalar a) end in
    let s := relink linked (a_scalar a) in
    match complete_if (loc_eqb (fd_loc s) LPoint) h 0 s with
    | None => None
    | Some (s, false) => Some (linked, with_fields (a_input a) s (a_filter a) a, false)
    | Some (s, true) => match linked with
                        | None => None
                        | Some g => match normal_field h g s with
                                    | None => None
                                    | Some i => Some (linked, with_fields i s (a_filter a) a, true)
                                    end
                        end
    end
  else Some (linked, a, check).
Definition af_filter (h : store) (st : option nat * app * bool) : option (app * bool) :=   (* 205-221 *)
  let '(linked, a, check) := st in
  if size (a_filter a) then
    let f := relink linked (a_filter a) in
    match complete_if (loc_eqb (fd_loc f) LPoint) h 0 f with
    | None => None
    | Some (f, false) => Some (with_fields (a_input a) (a_scalar a) f a, false)
    | Some (f, true) =>
        match linked with
        | None => None
        | Some g => match times_filter (vert_ids h g) (fd_data f) (fd_data (a_input a)) with
                    | None => None
                    | Some d => Some (with_fields (Fd (fd_geo (a_input a)) (fd_loc (a_input a)) d) (a_scalar a) f a, true)
                    end
        end
    end
  else Some (a, check).
Definition af_checkInput (h : store) (a : app) : option app :=
  match af_input h a with
  | None => None
  | Some st => match af_scalar h st with
               | None => None
               | Some st => match af_filter h st with Some (a, true) => Some a | _ => None end
               end
  end.
(** execute, ApplyFilter.cpp 96-108: the geometry is not touched *)
Definition af_execute (h : store) (a : app) : option app :=
  match af_checkInput h a with
  | None => None
  | Some a =>
      let out := if Req_EM_T (a_factor a) max_double then fd_data (a_input a)
                 else map (fun e => (fst e, vscale (a_factor a) (snd e))) (fd_data (a_input a)) in
      Some (Ap (a_geo a) (a_input a) (a_scalar a) (a_filter a) (a_factor a)
               (Fd (fd_geo (a_input a)) (fd_loc (a_input a)) out))
  end.
