(** Model of NastranInterface, src/iogeneric/MimmoGeometry.cpp and MimmoGeometry.hpp: surfaces written to and read from files of the
    Nastran bulk format, and of how MimmoGeometry numbers what it writes.

    A character is its code, a file the list of its lines.  A coordinate is given by what std::fixed makes of it, the nearest multiple of
    10^-8 (Short) or 10^-16 (Long): its sign and how many of them.  None: an exception.  RBE2 and RBE3 cards, that are not enabled unless in
    derived classes, and hexadecimal, infinite and undefined numbers are not modelled. *)
From Coq Require Import String Ascii List NArith ZArith Bool.
From Verif Require Import Text.
Import ListNotations.
Open Scope list_scope.

(** ** Strings *)
Fixpoint chars (s : string) : list N := match s with EmptyString => [] | String a r => N_of_ascii a :: chars r end.
Definition line : Type := list N.
(** std::string::substr; None: std::out_of_range *)
Definition substr (l : line) (pos len : nat) : option line := if Nat.ltb (length l) pos then None else Some (firstn len (skipn pos l)).
(** trim, MimmoGeometry.cpp 1780-1794, bitpit::utils::string::trim *)
Definition trim (l : line) : line := rev (skip_space (rev (skip_space l))).
Definition same (a b : line) : bool := if list_eq_dec N.eq_dec a b then true else false.
Fixpoint last_index (c : N) (l : line) : option nat :=
  match l with
  | [] => None
  | x :: r => match last_index c r with Some k => Some (S k) | None => if N.eqb x c then Some O else None end
  end.
Definition c_plus : N := 43. Definition c_dot : N := 46. Definition c_E : N := 69.
(** convertVertex, 1800-1813 *)
Definition insert_E (l : line) (pos : nat) : line := firstn pos l ++ c_E :: skipn pos l.
Definition convert_vertex (l : line) : line :=
  match last_index c_minus l with
  | Some (S k) => insert_E l (S k)
  | _ => match last_index c_plus l with Some (S k) => insert_E l (S k) | _ => l end
  end.
(** a sign, if there is one *)
Definition sign (l : line) : bool * line :=
  match l with
  | c :: r => if N.eqb c c_minus then (true, r) else if N.eqb c c_plus then (false, r) else (false, l)
  | [] => (false, l)
  end.
Definition signed (neg : bool) (z : Z) : Z := if neg then (- z)%Z else z.
(** std::stoi; None: std::invalid_argument or std::out_of_range *)
Definition stoi (l : line) : option Z :=
  let (neg, l1) := sign (skip_space l) in
  let (d, _) := take_digits l1 in
  match d with
  | [] => None
  | _ => let z := signed neg (value_of_digits d) in if (Z.leb (-2147483648) z && Z.leb z 2147483647)%bool then Some z else None
  end.
(** std::stod; None: std::invalid_argument *)
Definition exponent (l : line) : Z :=
  match l with
  | c :: r =>
    if (N.eqb c c_e || N.eqb c c_E)%bool then
      let (neg, l1) := sign r in let (d, _) := take_digits l1 in match d with [] => 0%Z | _ => signed neg (value_of_digits d) end
    else 0%Z
  | [] => 0%Z
  end.
Definition stod (l : line) : option dec :=
  let (neg, l1) := sign (skip_space l) in
  let (d, r) := take_digits l1 in
  let (f, r') := match r with c :: r1 => if N.eqb c c_dot then take_digits r1 else ([], r) | [] => ([], r) end in
  match d ++ f with
  | [] => None
  | df => Some (signed neg (value_of_digits df), (exponent r' - Z.of_nat (length f))%Z)
  end.

(** ** Writing *)
Inductive format := Short | Long.
Definition width (w : format) : nat := match w with Short => 8 | Long => 16 end.
Definition pad_left (w : nat) (l : line) : line := repeat c_space (w - length l) ++ l.
Definition pad_right (w : nat) (l : line) : line := l ++ repeat c_space (w - length l).
(** writeKeyword, 1306-1322 *)
Definition keyword (w : format) (key : line) : line := pad_right 8 (match w with Short => key | Long => key ++ [42%N] end).
(** writeValue, MimmoGeometry.hpp 298-334: std::fixed, so without exponents; cut at the width *)
Definition value (w : format) (text : line) : line := pad_left (width w) (firstn (width w) text).
(** a coordinate: its sign and how many times 10^-8 or 10^-16 *)
Definition coord : Type := bool * N.
Fixpoint fixed_digits (p : nat) (n : N) : line := match p with O => [] | S q => fixed_digits q (n / 10) ++ [(48 + n mod 10)%N] end.
Definition show_nat (n : N) : line := show_N (S (N.to_nat (N.log2 n))) n.
Definition show_fixed (p : nat) (c : coord) : line :=
  (if fst c then [c_minus] else []) ++ show_nat (snd c / 10 ^ N.of_nat p) ++ c_dot :: fixed_digits p (snd c mod 10 ^ N.of_nat p).
(** writeCoord, 1330-1381 *)
Definition point : Type := coord * coord * coord.
Definition write_coord (w : format) (id : Z) (p : point) : list line :=
  let v c := value w (show_fixed (width w) c) in let '(x, y, z) := p in
  let first := keyword w (chars "GRID") ++ value w (show_int id) ++ value w [] ++ v x ++ v y in
  match w with
  | Short => [first ++ v z]
  | Long => [first; keyword w [] ++ v z]
  end.
(** writeFace, 1391-1453: always Short *)
Definition write_face (key : string) (conn : list Z) (id pid : Z) : line :=
  keyword Short (chars key) ++ value Short (show_int id) ++ value Short (show_int pid) ++ flat_map (fun v => value Short (show_int v)) conn.
(** writeGeometry, 1465-1495: the labels (id and part identifier) go on only with the faces written *)
Fixpoint write_faces (labels : list (Z * Z)) (faces : list (list Z)) : list line :=
  match faces, labels with
  | f :: r, (id, pid) :: ls =>
    if Nat.eqb (length f) 3 then write_face "CTRIA3" f id pid :: write_faces ls r
    else if Nat.eqb (length f) 4 then write_face "CQUAD4" f id pid :: write_faces ls r
    else write_faces labels r
  | _, _ => []
  end.
(** writeFooter, 1502-1548 *)
Definition footer (w : format) (pids : list Z) : list line :=
  map (fun p => keyword w (chars "PSHELL") ++ value w (show_int p) ++ flat_map (fun _ => value w (show_int 1)) (seq 0 6)) pids ++
  [keyword w (chars "MAT1") ++ value w (show_int 1) ++ flat_map (fun _ => value w []) (seq 0 7)].
(** write, 1561-1574: the lines, and the empty one after the last end of line *)
Definition write (w : format) (name : line) (points : list (Z * point)) (labels : list (Z * Z)) (faces : list (list Z)) (pids : list Z) : list line :=
  [chars "TITLE=mimmo " ++ name ++ chars " mesh"; chars "$"; chars "BEGIN BULK"] ++
  flat_map (fun p => write_coord w (fst p) (snd p)) points ++ write_faces labels faces ++ footer w pids ++ [chars "ENDDATA"; []].
(** MimmoGeometry::write, 593-606: part identifiers from one *)
Definition offset (pids : list Z) : Z :=
  let has z := existsb (Z.eqb z) pids in
  if (has (-1) || has 0)%Z%bool then (1 + if has (-1)%Z then 1 else 0)%Z else 0%Z.
Definition written_pids (pids : list Z) : list Z := map (fun p => (p + offset pids)%Z) pids.

(** ** Reading *)
Record data := Data { d_points : list (Z * (dec * dec * dec)); d_faces : list (Z * Z * list Z) }.
(** the cards: the width of the fields of a grid point, of a face and how many vertices, or a bar *)
Inductive card := Grid (k : nat) | Face (k n : nat) | Bar | Another.
Definition card_of (l : line) : card :=
  let s := trim (firstn 8 l) in
  if same s (chars "GRID") then Grid 8 else if same s (chars "GRID*") then Grid 16
  else if same s (chars "CTRIA3") then Face 8 3 else if same s (chars "CTRIA3*") then Face 16 3
  else if same s (chars "CQUAD4") then Face 8 4 else if same s (chars "CQUAD4*") then Face 16 4
  else if same s (chars "CBAR") then Bar else Another.
(** enabled by the constructor, 1282-1291 *)
Definition enabled (c : card) : bool := match c with Grid _ | Face _ _ => true | _ => false end.
Definition bind {A B : Type} (x : option A) (f : A -> option B) : option B := match x with Some a => f a | None => None end.
Definition int_at (l : line) (pos k : nat) : option Z := bind (substr l pos k) stoi.
Definition num_at (l : line) (pos k : nat) : option dec := bind (substr l pos k) (fun t => stod (convert_vertex (trim t))).
Fixpoint ints_at (l : line) (pos k n : nat) : option (list Z) :=
  match n with O => Some [] | S n => bind (int_at l pos k) (fun x => bind (ints_at l (pos + k) k n) (fun r => Some (x :: r))) end.
Definition read_face (l : line) (k n : nat) (d : data) : option data :=
  bind (int_at l k k) (fun id => bind (int_at l (2 * k) k) (fun pid => bind (ints_at l (3 * k) k n) (fun conn => Some (Data (d_points d) (d_faces d ++ [(id, pid, conn)]))))).
(** what the cards do, 1617-1702 *)
Definition process (l : line) (d : data) : option data :=
  match card_of l with
  | Grid k => bind (int_at l k k) (fun id => bind (num_at l (3 * k) k) (fun x => bind (num_at l (4 * k) k) (fun y => bind (num_at l (5 * k) k) (fun z =>
      Some (Data (d_points d ++ [(id, (x, y, z))]) (d_faces d))))))
  | Face k n => read_face l k n d
  | Bar => read_face l 8 2 d
  | Another => Some d
  end.
(** read, 1587-1774: the line at hand and those left; the end is met when the last is taken *)
Fixpoint go (rest : list line) (cur : line) (d : data) : option data :=
  if enabled (card_of cur) then
    bind (process cur d) (fun d' => match rest with l :: ((_ :: _) as r) => go r l d' | _ => Some d' end)
  else match rest with l :: r => go r l d | [] => process cur d end.
Definition read (lines : list line) : option data := go lines [] (Data [] []).
