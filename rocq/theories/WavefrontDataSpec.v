(** What is expected of the data given with a mesh, without the model but for the annotations. *)
From Coq Require Import Reals List Arith Bool.
From Verif Require Import Vec WavefrontData.
Import ListNotations.
Open Scope R_scope.

(** the first place of a name *)
Definition comes_before (l : list chars) (a b : chars) : Prop := exists l1 l2, l = l1 ++ a :: l2 /\ ~ In b l1 /\ ~ In a l1 /\ a <> b.
(** a part of a name *)
Definition part_of (p s : chars) : Prop := exists a b, s = a ++ p ++ b.
(** the names of the annotations of a cell, in order *)
Definition names_on (anns : list annotation) (i : nat) : list chars := map a_name (filter (fun a => if in_dec Nat.eq_dec i (a_cells a) then true else false) anns).
(** names with a blank between *)
Fixpoint joined (l : list chars) : chars := match l with [] => [] | [n] => n | n :: r => n ++ 32%nat :: joined r end.
