(** Specification vocabulary for the pin graph. *)
From Coq Require Import List Arith Bool ZArith.
From Verif Require Import Chain Pins.
Import ListNotations.

Definition pair_dec : forall x y : obj * pid, {x = y} + {x <> y}.
Proof. decide equality; apply Nat.eq_dec. Defined.
#[global] Arguments pair_dec : simpl never.

(** All links leaving block a, over all of its output ports; all links entering b. *)
Definition all_out (w : world) (a : obj) : list (obj * pid) := flat_map (out_links w a) (out_ports w a).
Definition all_in (w : world) (b : obj) : list obj := flat_map (in_links w b) (in_ports w b).

(** Multiplicities recorded in the tables (0 if not listed). *)
Definition chi_mult (w : world) (a b : obj) : nat :=
  match lookup b (b_chi (w a)) with Some n => n | None => 0 end.
Definition par_mult (w : world) (b a : obj) : nat :=
  match lookup a (b_par (w b)) with Some n => n | None => 0 end.

(** Number of pins from (any port of) a to port r of b, seen from the sender's side. *)
Definition n_sent (w : world) (a b : obj) (r : pid) : nat := count_occ pair_dec (all_out w a) (b, r).
(** The same seen from the receiver's side. *)
Definition n_received (w : world) (a b : obj) (r : pid) : nat := count_occ Nat.eq_dec (in_links w b r) a.
(** Number of pins from a to b, seen from either side. *)
Definition n_to (w : world) (a b : obj) : nat := count_occ Nat.eq_dec (map fst (all_out w a)) b.
Definition n_from (w : world) (a b : obj) : nat := count_occ Nat.eq_dec (all_in w b) a.

(** Tables with one entry per key and positive multiplicities. *)
Definition table_ok (l : list (obj * nat)) : Prop :=
  NoDup (map fst l) /\ forall k n, In (k, n) l -> 1 <= n.

(** The two ends of the graph and the parent/child tables agree. *)
Definition graph_ok (w : world) : Prop :=
  (forall a b r, n_sent w a b r = n_received w a b r) /\
  (forall a b, chi_mult w a b = n_to w a b) /\
  (forall a b, par_mult w b a = n_from w a b).

(** Port names are unique on each side of each block, table keys are unique. *)
Definition well_formed (w : world) : Prop :=
  forall o, NoDup (out_ports w o) /\ NoDup (in_ports w o) /\ table_ok (b_chi (w o)) /\ table_ok (b_par (w o)).

(** The world before any pin: no links, no parents, no children; ports that will be built later
    are without links and with unique names as well. *)
Definition no_pins_yet (w : world) : Prop :=
  forall o, b_chi (w o) = [] /\ b_par (w o) = [] /\
    NoDup (out_ports w o) /\ NoDup (in_ports w o) /\
    (forall s, out_links w o s = []) /\ (forall r, in_links w o r = []) /\
    (b_built (w o) = false -> b_outs (w o) = [] /\ b_ins (w o) = []) /\
    (forall os is, b_proto (w o) = Some (os, is) ->
       NoDup (map fst os) /\ NoDup (map fst is) /\
       (forall k p, In (k, p) os -> po_links p = []) /\ (forall k p, In (k, p) is -> pi_links p = [])).

(** At most one pin between any port of a and b as a whole, and vice versa. *)
Definition single_links (w : world) (a b : obj) : Prop :=
  (forall s, count_occ Nat.eq_dec (map fst (out_links w a s)) b <= 1) /\
  (forall r, count_occ Nat.eq_dec (in_links w b r) a <= 1).

Definition is_add (op : pin_op) : Prop := match op with AddPin _ _ _ _ _ => True | _ => False end.

(** Links not touching o are unchanged, in order; links touching o may only disappear. *)
Definition drops_only (w w' : world) (o : obj) : Prop :=
  (forall x p, out_ports w' x = out_ports w x /\ in_ports w' x = in_ports w x /\
     filter (fun l => negb (Nat.eqb x o) && negb (to_obj o l)) (out_links w' x p)
       = filter (fun l => negb (Nat.eqb x o) && negb (to_obj o l)) (out_links w x p) /\
     filter (fun y => negb (Nat.eqb x o) && negb (Nat.eqb y o)) (in_links w' x p)
       = filter (fun y => negb (Nat.eqb x o) && negb (Nat.eqb y o)) (in_links w x p)).

(** The pin exists, and is the only link of port s of a to b and of port r of b from a. *)
Definition sole_pin (w : world) (a b : obj) (s r : pid) : Prop :=
  In (b, r) (out_links w a s) /\
  count_occ Nat.eq_dec (map fst (out_links w a s)) b = 1 /\
  count_occ Nat.eq_dec (in_links w b r) a = 1.

(** Some mandatory port of family 0 is unlinked, or some other family has all its mandatory ports
    unlinked. *)
Definition bad_mandatory (ins : list (pid * port_in)) : Prop :=
  (exists k p, In (k, p) ins /\ pi_mand p = true /\ pi_fam p = 0%Z /\ pi_links p = []) \/
  (exists k p, In (k, p) ins /\ pi_mand p = true /\ pi_fam p <> 0%Z /\
     forall k' p', In (k', p') ins -> pi_mand p' = true -> pi_fam p' = pi_fam p -> pi_links p' = []).

