(** Model of the text files written and read with the operators of the standard streams
    (std::fstream, std::ifstream, std::stringstream), as src/iogeneric uses them: GenericInput.tpp,
    GenericOutput.tpp, GenericDispls.cpp, IOCloudPoints.cpp.

    A character is its code.  A number is a decimal m * 10^e, as every double is; it is written with its
    first significant digits (6 unless asked otherwise), rounded to nearest, and the number read is the
    one written in the file (the rounding to the nearest double is not modelled).  Of the layout of a
    number only the sign, the digits and the exponent are modelled: 1234567 is written 123457e1, not
    1.23457e+06.  Infinities and NaN are not modelled. *)
From Coq Require Import List NArith ZArith Bool.
Import ListNotations.

(** ** Numbers *)
Definition dec : Type := Z * Z.
(** how many digits more than p *)
Fixpoint excess (fuel : nat) (p : nat) (n : Z) : nat :=
  match fuel with
  | O => O
  | S f => if Z.ltb n (10 ^ Z.of_nat p) then O else S (excess f p (n / 10))
  end.
(** to nearest, the even digit when in the middle *)
Definition nearest (n k : Z) : Z :=
  let q := (n / k)%Z in let r := (n mod k)%Z in
  if Z.ltb (2 * r) k then q else if Z.ltb k (2 * r) then (q + 1)%Z else if Z.even q then q else (q + 1)%Z.
Definition rounded (p : nat) (d : dec) : dec :=
  let (m, e) := d in
  let k := Z.of_nat (excess (S (Z.to_nat (Z.log2 (Z.abs m)))) p (Z.abs m)) in
  (Z.sgn m * nearest (Z.abs m) (10 ^ k), e + k)%Z.

(** ** Characters *)
Definition c_space : N := 32. Definition c_tab : N := 9. Definition c_line : N := 10. Definition c_ret : N := 13.
Definition c_comma : N := 44. Definition c_minus : N := 45. Definition c_zero : N := 48. Definition c_e : N := 101.
(** std::isspace *)
Definition is_space (c : N) : bool := N.eqb c 32 || (N.leb 9 c && N.leb c 13).
Definition is_digit (c : N) : bool := N.leb 48 c && N.leb c 57.

Fixpoint show_N (fuel : nat) (n : N) : list N :=
  match fuel with
  | O => []
  | S f => if N.ltb n 10 then [48 + n]%N else show_N f (n / 10) ++ [(48 + n mod 10)%N]
  end.
Definition show_int (z : Z) : list N :=
  let a := Z.to_N (Z.abs z) in
  let ds := show_N (S (N.to_nat (N.log2 a))) a in
  if Z.ltb z 0 then c_minus :: ds else ds.
(** out << x *)
Definition show_num (p : nat) (d : dec) : list N := let (m, e) := rounded p d in show_int m ++ c_e :: show_int e.

(** ** Input streams *)
(** what is left, the end has been met, an extraction has failed *)
Record stream := St { rest : list N; at_end : bool; failed : bool }.
Definition opened (text : list N) : stream := St text false false.
(** in.good() *)
Definition good (s : stream) : bool := negb (at_end s) && negb (failed s).

Fixpoint skip_space (l : list N) : list N := match l with [] => [] | c :: r => if is_space c then skip_space r else l end.
Fixpoint take_digits (l : list N) : list N * list N :=
  match l with [] => ([], []) | c :: r => if is_digit c then let (d, r') := take_digits r in (c :: d, r') else ([], l) end.
Definition value_of_digits (d : list N) : Z := fold_left (fun v c => (10 * v + (Z.of_N c - 48))%Z) d 0%Z.
(** a sign and digits; None: no digit *)
Definition scan_int (l : list N) : option Z * list N :=
  let (neg, l1) := match l with c :: r => if N.eqb c c_minus then (true, r) else (false, l) | [] => (false, l) end in
  let (d, r) := take_digits l1 in
  match d with [] => (None, r) | _ => (Some (if neg then (- value_of_digits d)%Z else value_of_digits d), r) end.
(** digits, and an exponent if the letter is there *)
Definition scan_num (l : list N) : option dec * list N :=
  let (m, r) := scan_int l in
  match m with
  | None => (None, r)
  | Some m => match r with
              | c :: r1 => if N.eqb c c_e then let (e, r2) := scan_int r1 in (match e with Some e => Some (m, e) | None => None end, r2) else (Some (m, 0%Z), r)
              | [] => (Some (m, 0%Z), r)
              end
  end.
Definition extract {A : Type} (scan : list N -> option A * list N) (s : stream) : option A * stream :=
  if good s then
    match skip_space (rest s) with
    | [] => (None, St [] true true)
    | l => let (x, r) := scan l in
           (x, St r (match r with [] => true | _ => false end) (match x with None => true | Some _ => false end))
    end
  else (None, St (rest s) (at_end s) true).
(** in >> x, x an integer, a double; [None]: the stream has failed *)
Definition get_int : stream -> option Z * stream := extract scan_int.
Definition get_num : stream -> option dec * stream := extract scan_num.
(** in >> c, one character (the end is not met if it is the last) *)
Definition get_char (s : stream) : option N * stream :=
  if good s then match skip_space (rest s) with [] => (None, St [] true true) | c :: r => (Some c, St r false false) end
  else (None, St (rest s) (at_end s) true).
(** in >> word *)
Fixpoint take_word (l : list N) : list N * list N :=
  match l with [] => ([], []) | c :: r => if is_space c then ([], l) else let (w, r') := take_word r in (c :: w, r') end.
Definition get_word : stream -> option (list N) * stream := extract (fun l => let (w, r) := take_word l in (Some w, r)).
(** std::getline *)
Fixpoint take_line (l : list N) : list N * option (list N) :=
  match l with
  | [] => ([], None)
  | c :: r => if N.eqb c c_line then ([], Some r) else let (w, r') := take_line r in (c :: w, r')
  end.

(** s >> x on a number: x is set, to zero if no number is read, as soon as the stream is good and
    something other than spaces is left (C++11 num_get); otherwise x is unchanged *)
Definition attempted (s : stream) : bool := good s && match skip_space (rest s) with [] => false | _ => true end.
