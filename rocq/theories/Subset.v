(** Model of the vector helpers of src/common/customOperators.hpp: getVectorSubset,
    fillVectorSubset, logical_summing, posVectorFind and checkVectorFind, and of countSubstring of
    src/common/customOperators.cpp.  An int is an integer without overflow, a std::vector is a
    list; None is an access out of bounds. *)
From Coq Require Import List ZArith Bool Lia.
Import ListNotations.
Open Scope Z_scope.

(** source.size() *)
Definition vsize {A} (l : list A) : Z := Z.of_nat (length l).
(** source[k] and source[k] = x *)
Definition vget {A} (l : list A) (k : Z) : option A := if k <? 0 then None else nth_error l (Z.to_nat k).
Fixpoint vupd {A} (l : list A) (n : nat) (x : A) : list A :=
  match l, n with [], _ => [] | _ :: r, O => x :: r | a :: r, S n => a :: vupd r n x end.
Definition vset {A} (l : list A) (k : Z) (x : A) : option (list A) :=
  if (0 <=? k) && (k <? vsize l) then Some (vupd l (Z.to_nat k) x) else None.

(** i = max(min(i, maxElement), 0), customOperators.hpp:307-309 and 354-356 *)
Definition clamp (n i : Z) : Z := Z.max (Z.min i (n - 1)) 0.

(** for (k = first; k < last; ++k) { result[counter] = source[k]; ++counter; }, 312-325; [n] is
    the number of rounds, [room] the number of free places in result. *)
Fixpoint copy {A} (src : list A) (n : nat) (k : Z) (room : nat) : option (list A) :=
  match n with
  | O => Some []
  | S n => match room, vget src k with
           | S room, Some a => match copy src n (k + 1) room with None => None | Some r => Some (a :: r) end
           | _, _ => None
           end
  end.
(** getVectorSubset, customOperators.hpp:298-329 *)
Definition getVectorSubset {A} (i j : Z) (src : list A) : option (list A) :=
  let n := vsize src in
  if (n <=? i) || (j <? 0) then Some [] else
  let i := clamp n i in
  let j := clamp n j in
  if j <=? i then
    match copy src (Z.to_nat (n - i)) i (length src) with
    | None => None
    | Some a => match copy src (Z.to_nat j) 0 (length src - length a) with None => None | Some b => Some (a ++ b) end
    end
  else copy src (Z.to_nat (j - i)) i (length src).

(** for (k = first; k < last; ++k) source[k] = cValue, 359-369 *)
Fixpoint fill_from {A} (n : nat) (k : Z) (x : A) (src : list A) : option (list A) :=
  match n with
  | O => Some src
  | S n => match vset src k x with None => None | Some s => fill_from n (k + 1) x s end
  end.
(** int compared with size_t, 351: the int is converted to an unsigned number of 64 bits *)
Definition to_unsigned (i : Z) : Z := i mod 2 ^ 64.
(** fillVectorSubset, customOperators.hpp:350-372 *)
Definition fillVectorSubset {A} (i j : Z) (src : list A) (x : A) : option (list A) :=
  let n := vsize src in
  if (n <=? to_unsigned i) || (j <? 0) then Some src else
  let i := clamp n i in
  let j := clamp n j in
  if j <=? i then
    match fill_from (Z.to_nat (n - i)) i x src with None => None | Some s => fill_from (Z.to_nat j) 0 x s end
  else fill_from (Z.to_nat (j - i)) i x src.

(** int -> bool *)
Definition to_bool (k : Z) : bool := negb (k =? 0).
(** logical_summing(bool, bool, policy), 90-103; None: no policy is set and the variable returned
    was never written *)
Definition logical_summing (root target p0 p1 p2 : bool) : option bool :=
  let r := if p0 then Some target else None in
  let r := if p1 then Some (to_bool (Z.b2z root + Z.b2z target)) else r in
  if p2 then
    let res := to_bool (Z.b2z root - Z.b2z target) in
    Some (if res then to_bool (Z.b2z res - Z.b2z target) else res)
  else r.
(** logical_summing(int, int, policy), 122-133 *)
Definition logical_summing_int (root target : Z) (policy : bool) : Z :=
  let r := Z.b2z (to_bool root) in
  let t := Z.b2z (to_bool target) in
  Z.b2z (if policy then to_bool (r + t)
         else let res := to_bool (r - t) in if res then to_bool (Z.b2z res - t) else res).

(** std::find(begin, end, target) - begin *)
Fixpoint std_find (l : list Z) (x : Z) : nat :=
  match l with [] => O | a :: r => if a =? x then O else S (std_find r x) end.
(** checkVectorFind, 192-198 and 208-214; findPosition, 272-280 (posVectorFind, 155-165, has the
    same text; it is also in Lattice.v) *)
Definition checkVectorFind (l : list Z) (x : Z) : bool := negb (Nat.eqb (std_find l x) (length l)).
Definition findPosition (l : list Z) (x : Z) : Z :=
  if Nat.eqb (std_find l x) (length l) then -1 else Z.of_nat (std_find l x).

(** ** countSubstring, src/common/customOperators.cpp:45-56, on strings as lists of characters *)
Fixpoint starts (s sub : list Z) : bool :=
  match sub, s with [], _ => true | a :: sub, b :: s => (a =? b) && starts s sub | _ :: _, [] => false end.
(** str.find(sub, offset): the first position >= offset where sub occurs *)
Fixpoint str_find (s sub : list Z) : option nat :=
  if starts s sub then Some O else
  match s with [] => None | _ :: r => match str_find r sub with None => None | Some p => Some (S p) end end.
(** the for loop; the string from the offset on, at most [fuel] rounds *)
Fixpoint count_loop (fuel : nat) (s sub : list Z) : option nat :=
  match str_find s sub with
  | None => Some O
  | Some p => match fuel with
              | O => None
              | S f => match count_loop f (skipn (p + length sub) s) sub with None => None | Some c => Some (S c) end
              end
  end.
Definition countSubstring (s sub : list Z) : option nat :=
  match sub with [] => Some O | _ => count_loop (length s) s sub end.
