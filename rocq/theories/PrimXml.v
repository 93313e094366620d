(** Reading and writing of the settings of primitive shapes in XML.

    Models absorbSectionXML and flushSectionXML of
    - Primitive (src/core/Primitive.cpp 111-183, 190-236);
    - SelectionByBox (src/geohandlers/SelectionByBox.cpp 152-277),
      SelectionBySphere (src/geohandlers/SelectionBySphere.cpp 157-301),
      SelectionByCylinder (src/geohandlers/SelectionByCylinder.cpp 152-304);
    - FVSelectionByBox, FVSelectionBySphere, FVSelectionByCylinder
      (src/geohandlers, same options, on the selection they hold).

    Simplifications.  The text of an option is the list of its words, each a
    number or something else; what is read back from the text of a number
    (6 digits after the point) is [rt], any function.  The setters store what
    they are given: their checks are modelled in Shape.v.  The options of
    BaseManipulation and the topology of the FV blocks are left out.  Asking
    bitpit for an option which is not there, without a fallback, throws
    ([None]). *)

From Coq Require Import Reals.
From Coq Require Import List.
From Verif Require Import Vec.
Import ListNotations.

Inductive word : Type := Num (x : R) | Bad.

Definition text := list word.

(** ss >> temp[0] >> temp[1] >> temp[2]: at the end of the text, or after a
    word which is not a number, the values stay; that word itself gives 0 *)
Definition read3 (d : vec) (t : text) : vec :=
  match t with
  | [] => d
  | Bad :: _ => V3 0 (vy d) (vz d)
  | [Num a] => V3 a (vy d) (vz d)
  | Num a :: Bad :: _ => V3 a 0 (vz d)
  | [Num a; Num b] => V3 a b (vz d)
  | Num a :: Num b :: Bad :: _ => V3 a b 0
  | Num a :: Num b :: Num c :: _ => V3 a b c
  end.

Inductive shape : Type := Cube | Cylinder | Sphere | Wedge.

(** A class with its shape: Primitive, or a selection of that shape *)
Inductive class : Type := CPrimitive | CBox | CSphere | CCylinder.

(** The word written for the shape, and any other *)
Inductive shape_text : Type := SCyl | SSph | SWed | SOther.

Record axes : Type := Axes { ax0 : vec; ax1 : vec; ax2 : vec }.

Record axes_section : Type := AxesSection {
  x_axis0 : option text; x_axis1 : option text; x_axis2 : option text }.

Record section : Type := Section_ {
  x_shape : option shape_text;
  x_dual : option (option bool);
  x_origin : option text;
  x_span : option text;
  x_ref : option axes_section;
  x_inf : option text }.

Record setup : Type := Setup {
  u_shape : shape;
  u_dual : bool;
  u_origin : vec;
  u_span : vec;
  u_axes : axes;
  u_inf : vec }.

(** Primitive.cpp 117-130 *)
Definition shape_of (t : shape_text) : shape :=
  match t with
  | SCyl => Cylinder | SSph => Sphere | SWed => Wedge | SOther => Cube
  end.

(** Primitive.cpp 196-206 *)
Definition text_of (s : shape) : shape_text :=
  match s with
  | Cylinder => SCyl | Sphere => SSph | Wedge => SWed | Cube => SOther
  end.

(** The span taken when the text is short: Primitive.cpp 146,
    SelectionByBox.cpp 185, SelectionBySphere.cpp 190,
    SelectionByCylinder.cpp 187 *)
Definition span0 (c : class) : vec :=
  match c with
  | CPrimitive => V3 0 0 0
  | CBox => V3 1 1 1
  | CSphere => V3 1 (2 * PI) PI
  | CCylinder => V3 1 (2 * PI) 1
  end.

Definition is_primitive (c : class) : bool :=
  match c with CPrimitive => true | _ => false end.

Definition has_inf_read (c : class) : bool :=
  match c with CBox => false | _ => true end.

Definition has_inf_written (c : class) : bool :=
  match c with CBox => false | CPrimitive => false | _ => true end.

(** One axis: Primitive.cpp 163-170 (no test that it is there),
    SelectionByBox.cpp 204-229 and the others (tested) *)
Definition read_axis (c : class) (d : vec) (o : option text) : option vec :=
  match o with
  | Some t => Some (read3 d t)
  | None => if is_primitive c then None else Some d
  end.

Definition read_axes (c : class) (a : axes_section) : option axes :=
  match read_axis c (V3 1 0 0) (x_axis0 a),
        read_axis c (V3 0 1 0) (x_axis1 a),
        read_axis c (V3 0 0 1) (x_axis2 a) with
  | Some p, Some q, Some r => Some (Axes p q r)
  | _, _, _ => None
  end.

(** absorbSectionXML *)
Definition absorb (c : class) (x : section) (s : setup) : option setup :=
  let s := if is_primitive c
           then match x_shape x with
                | Some t => Setup (shape_of t) (u_dual s) (u_origin s)
                                  (u_span s) (u_axes s) (u_inf s)
                | None => s end
           else match x_dual x with
                | Some b =>
                    Setup (u_shape s)
                      (match b with Some v => v | None => false end)
                      (u_origin s) (u_span s) (u_axes s) (u_inf s)
                | None => s end in
  let s := match x_origin x with
           | Some t => Setup (u_shape s) (u_dual s) (read3 (V3 0 0 0) t)
                             (u_span s) (u_axes s) (u_inf s)
           | None => s end in
  let s := match x_span x with
           | Some t => Setup (u_shape s) (u_dual s) (u_origin s)
                             (read3 (span0 c) t) (u_axes s) (u_inf s)
           | None => s end in
  let s := match x_ref x with
           | Some a =>
             match read_axes c a with
             | Some m => Some (Setup (u_shape s) (u_dual s) (u_origin s)
                                     (u_span s) m (u_inf s))
             | None => None end
           | None => Some s end in
  match s with
  | None => None
  | Some s =>
    Some (if has_inf_read c
          then match x_inf x with
               | Some t => Setup (u_shape s) (u_dual s) (u_origin s)
                                 (u_span s) (u_axes s) (read3 (V3 0 0 0) t)
               | None => s end
          else s)
  end.

(** A triple of numbers as it is written, read back as [rt] *)
Definition write3 (rt : R -> R) (v : vec) : text :=
  [Num (rt (vx v)); Num (rt (vy v)); Num (rt (vz v))].

(** flushSectionXML *)
Definition flush (rt : R -> R) (c : class) (s : setup) : section :=
  Section_
    (if is_primitive c then Some (text_of (u_shape s)) else None)
    (if is_primitive c then None else Some (Some (u_dual s)))
    (Some (write3 rt (u_origin s)))
    (Some (write3 rt (u_span s)))
    (Some (AxesSection (Some (write3 rt (ax0 (u_axes s))))
                       (Some (write3 rt (ax1 (u_axes s))))
                       (Some (write3 rt (ax2 (u_axes s))))))
    (if has_inf_written c then Some (write3 rt (u_inf s)) else None).
