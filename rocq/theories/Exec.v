(** Model of BaseManipulation::exec (src/core/BaseManipulation.cpp 551-605) and of the creation of
    ports (src/core/BaseManipulation.tpp 33-141). *)
From Coq Require Import List Arith Bool ZArith.
From Verif Require Import Chain Pins.
Import ListNotations.

(** Observable actions of exec, in order. *)
Inductive exec_event := EvExecute | EvPort (s : pid) | EvPlot | EvApply.
Inductive exec_result :=
| ExThrowPort (p : pid)              (* mandatory port not linked *)
| ExThrowFamily (ps : list pid)      (* none of mandatory ports linked *)
| ExDone (trace : list exec_event).

(** std::map<int, vector>: push_back into the entry of a family, keys kept sorted (557-562). The two
    maps families and familiesID of the code always have the same keys and lengths and are modelled
    by one map of (id, port). *)
Fixpoint fam_push (f : Z) (x : pid * port_in) (m : list (Z * list (pid * port_in))) :=
  match m with
  | [] => [(f, [x])]
  | (g, l) :: r => if (f <? g)%Z then (f, [x]) :: m
                   else if (f =? g)%Z then (g, l ++ [x]) :: r
                   else (g, l) :: fam_push f x r
  end.

Definition families (ins : list (pid * port_in)) : list (Z * list (pid * port_in)) :=
  fold_left (fun m kp => if pi_mand (snd kp) then fam_push (pi_fam (snd kp)) kp m else m) ins [].

Definition is_linked (p : port_in) : bool := negb (Nat.eqb (length (pi_links p)) 0).

(** Lines 564-591: first error, families in ascending order. *)
Definition family_error (fl : Z * list (pid * port_in)) : option exec_result :=
  let (f, l) := fl in
  if (f =? 0)%Z then
    match find (fun kp => negb (is_linked (snd kp))) l with
    | Some kp => Some (ExThrowPort (fst kp))
    | None => None
    end
  else if existsb (fun kp => is_linked (snd kp)) l then None
  else Some (ExThrowFamily (map fst l)).

Fixpoint first_error (m : list (Z * list (pid * port_in))) : option exec_result :=
  match m with
  | [] => None
  | fl :: r => match family_error fl with Some e => Some e | None => first_error r end
  end.

(** exec, 551-605. [expert] is the global MIMMO_EXPERT, [active] m_active, [plot] m_execPlot,
    [app] m_apply; exceptions thrown by execute() itself are not modelled. *)
Definition exec (expert active plot app : bool) (b : block) : exec_result :=
  match (if expert then None else first_error (families (b_ins b))) with
  | Some e => e
  | None =>
      ExDone ((if active then [EvExecute] else []) ++
              map (fun kp => EvPort (fst kp))
                  (filter (fun kp => 0 <? length (po_links (snd kp))) (b_outs b)) ++
              (if plot then [EvPlot] else []) ++ (if app then [EvApply] else []))
  end.

(** m[k] = v on a map: overwrite or insert. *)
Definition assign {A} (k : nat) (v : A) (l : list (nat * A)) : list (nat * A) :=
  if has_key k l then update k (fun _ => v) l else l ++ [(k, v)].

(** [reg] is PortManager: the data type of a registered port name. *)
(** createPortOut, BaseManipulation.tpp 33-52 and 62-81. *)
Definition create_port_out (reg : pid -> option dtype) (b : block) (s : pid) : block * bool :=
  match reg s with
  | None => (b, false)
  | Some t => if has_key s (b_outs b) then (b, false)
              else (set_outs b (assign s {| po_links := []; po_type := t |} (b_outs b)), true)
  end.

(** createPortIn, BaseManipulation.tpp 92-111 and 123-141; the test is on m_portOut as in the code. *)
Definition create_port_in (reg : pid -> option dtype) (b : block) (r : pid) (mandatory : bool) (family : Z) : block * bool :=
  match reg r with
  | None => (b, false)
  | Some t => if has_key r (b_outs b) then (b, false)
              else (set_ins b (assign r {| pi_links := []; pi_type := t; pi_mand := mandatory; pi_fam := family |} (b_ins b)), true)
  end.
