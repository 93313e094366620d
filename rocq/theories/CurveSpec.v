(** What is expected of a curve made from points. *)
From Coq Require Import Reals List Arith ZArith Permutation.
From Verif Require Import Vec Curve.
Import ListNotations.
Open Scope R_scope.

(** the value of an identifier *)
Definition value {A : Type} (l : data A) (x : nat) (v : A) : Prop := In (x, v) l.
(** the points given, in order, are joined each to the next, and the last to the first if the curve is closed *)
Definition joined (closed : bool) (l : list nat) : list (nat * nat) :=
  combine l (tl l) ++ (if closed then match l with [] => [] | x :: _ => [(last l x, x)] end else []).
(** vertices along a segment, each with the part of the segment before it *)
Fixpoint increasing (l : list (R * nat)) : Prop :=
  match l with x :: (y :: _) as r => fst x < fst y /\ increasing r | _ => True end.
Definition along (u v : nat) (l : list (R * nat)) : Prop := exists inner, l = (0, u) :: inner ++ [(1, v)] /\ increasing l.
(** the vertices strictly inside, and the pieces *)
Definition inside (l : list (R * nat)) : list nat := map snd (removelast (tl l)).
Definition pieces (l : list (R * nat)) : list (nat * nat) := combine (map snd l) (tl (map snd l)).
(** on the straight segment, and fields are in proportion *)
Definition straight (g : result) (u v : nat) (t : R) (x : nat) : Prop :=
  exists pu pv su sv fu fv, value (g_points g) u pu /\ value (g_points g) v pv /\ value (g_scalar g) u su /\ value (g_scalar g) v sv /\ value (g_vector g) u fu /\ value (g_vector g) v fv /\
    value (g_points g) x (vadd (vscale (1 - t) pu) (vscale t pv)) /\ value (g_scalar g) x ((1 - t) * su + t * sv) /\ value (g_vector g) x (vadd (vscale (1 - t) fu) (vscale t fv)).
(** the curve goes along the segments that join the points given, and nowhere else *)
Definition follows (o : curve) (g : result) : Prop :=
  exists subs : list (list (R * nat)),
    Forall2 (fun s l => along (fst s) (snd s) l /\ forall t x, In (t, x) l -> straight g (fst s) (snd s) t x) (joined (v_closed o) (map fst (v_points o))) subs /\
    Permutation (map snd (g_cells g)) (concat (map pieces subs)) /\
    Permutation (map fst (g_points g)) (map fst (v_points o) ++ concat (map inside subs)).
(** the points given, with their values or zero, are vertices *)
Definition field_kept {A : Type} (zero : A) (raw field : data A) (x : nat) : Prop := (forall v, value raw x v -> value field x v) /\ ((forall v, ~ value raw x v) -> value field x zero).
Definition kept (o : curve) (g : result) : Prop :=
  forall x p, value (v_points o) x p -> value (g_points g) x p /\ field_kept 0 (v_scalar o) (g_scalar g) x /\ field_kept vzero (v_vector o) (g_vector g) x.
(** the length of a cell *)
Definition has_length (g : result) (c : nat) (len : R) : Prop := exists a b pa pb, value (g_cells g) c (a, b) /\ value (g_points g) a pa /\ value (g_points g) b pb /\ len = norm (vsub pb pa).
(** a cell that is a whole segment between points given *)
Definition whole (o : curve) (g : result) (c : nat) : Prop := exists s, value (g_cells g) c s /\ In s (joined (v_closed o) (map fst (v_points o))).
Definition distinct {A : Type} (l : data A) : Prop := NoDup (map fst l).
(** the input: each identifier once *)
Definition proper (o : curve) : Prop := distinct (v_points o) /\ distinct (v_scalar o) /\ distinct (v_vector o).
