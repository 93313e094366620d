(** RotationAxes (src/utils/RotationAxes.cpp) and TranslationPoint (src/utils/TranslationPoint.cpp).
    Doubles are real numbers; a division by zero gives None (NaN).  XML, ports and the base class are
    not modelled. *)
From Coq Require Import Reals List.
From Verif Require Import Vec Shape Specular.
Open Scope R_scope.

(** ** RotationAxes *)
Record rotation := Rot { r_origin : vec; r_direction : vec; r_axes : mat; r_axes_origin : vec; r_alpha : R; r_rotax : mat; r_rotax_origin : vec }.
(** setDirection, 169-176 *)
Definition unit_or_same (v : vec) : vec := if Rlt_dec dmin (norm v) then vscale (/ norm v) v else v.
(** the axes before any call: m_axes[1][1] is set twice and m_axes[2][2] is not, 36-47 *)
Definition first_axes : mat := M3 (V3 1 0 0) (V3 0 1 0) (V3 0 0 0).
(** the constructor, 32-52 *)
Definition new_rotation (origin direction : vec) : rotation := Rot origin (unit_or_same direction) first_axes vzero 0 first_axes vzero.
(** the setters, 152-200 *)
Definition rotOrigin (o : vec) (r : rotation) := Rot o (r_direction r) (r_axes r) (r_axes_origin r) (r_alpha r) (r_rotax r) (r_rotax_origin r).
Definition rotDirection (d : vec) (r : rotation) := Rot (r_origin r) (unit_or_same d) (r_axes r) (r_axes_origin r) (r_alpha r) (r_rotax r) (r_rotax_origin r).
Definition rotAxis (o d : vec) (r : rotation) := rotDirection d (rotOrigin o r).
Definition rotRotation (a : R) (r : rotation) := Rot (r_origin r) (r_direction r) (r_axes r) (r_axes_origin r) a (r_rotax r) (r_rotax_origin r).
Definition rotAxes (m : mat) (r : rotation) := Rot (r_origin r) (r_direction r) m (r_axes_origin r) (r_alpha r) (r_rotax r) (r_rotax_origin r).
Definition rotAxesOrigin (o : vec) (r : rotation) := Rot (r_origin r) (r_direction r) (r_axes r) o (r_alpha r) (r_rotax r) (r_rotax_origin r).
(** the formula, 229-231 and 240-242 *)
Definition formula (d : vec) (a : R) (p : vec) : vec :=
  vadd (vadd (vscale (cos a) p) (vscale (dot d p * (1 - cos a)) d)) (vscale (sin a) (cross d p)).
(** execute, 222-245 *)
Definition rot_execute (r : rotation) : rotation :=
  let p := vadd (r_axes_origin r) (vscale (-1) (r_origin r)) in
  let q := vadd (formula (r_direction r) (r_alpha r) p) (r_origin r) in
  let f := formula (r_direction r) (r_alpha r) in
  Rot (r_origin r) (r_direction r) (r_axes r) (vadd p (r_origin r)) (r_alpha r) (M3 (f (row0 (r_axes r))) (f (row1 (r_axes r))) (f (row2 (r_axes r)))) q.
(** the copy constructor, 96-108: the results are those of a new object *)
Definition rot_copy (r : rotation) : rotation := Rot (r_origin r) (r_direction r) (r_axes r) (r_axes_origin r) (r_alpha r) first_axes vzero.

(** ** TranslationPoint *)
Record translation := Tra { t_direction : option vec; t_origin : vec; t_alpha : R }.
(** setDirection, 132-139: the test is the wrong way *)
Definition tra_unit (v : vec) : option vec := if Rlt_dec (norm v) dmin then (if Req_EM_T (norm v) 0 then None else Some (vscale (/ norm v) v)) else Some v.
Definition traDirection (v : vec) (t : translation) := Tra (tra_unit v) (t_origin t) (t_alpha t).
(** 144-155 *)
Definition traTranslation (a : R) (t : translation) := Tra (t_direction t) (t_origin t) a.
Definition traOrigin (o : vec) (t : translation) := Tra (t_direction t) o (t_alpha t).
(** the constructor, 31-35; [junk]: what m_origin holds *)
Definition new_translation (v junk : vec) : translation := Tra (tra_unit v) junk 0.
(** execute, 163-166: getTranslatedOrigin *)
Definition tra_execute (t : translation) : option vec := match t_direction t with Some d => Some (vadd (t_origin t) (vscale (t_alpha t) d)) | None => None end.
