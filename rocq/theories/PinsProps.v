(** Property theorems about pins, ports and exec (C07 - C13). *)
From Coq Require Import List Arith Bool ZArith Lia.
From Verif Require Import Chain Pins PinsSpec PinsProofs Exec ExecProofs PinsWitness.
Import ListNotations.

(** C07.  [accepts w a b s r forced]: the sender is not BACKWARD, the receiver not FORWARD, port s
    exists among the outputs of a, port r among the inputs of b, and the types are equal or the
    link is forced.  The ports of both blocks are already built. *)
Theorem C07_addPin :
  forall w a b s r forced, b_built (w a) = true -> b_built (w b) = true ->
  exists w' done, add_pin w a b s r forced = PinDone w' done /\
    (done = true <->
       (b_ct (w a) <> BACKWARD /\ b_ct (w b) <> FORWARD /\
        exists po pi, lookup s (b_outs (w a)) = Some po /\ lookup r (b_ins (w b)) = Some pi /\
          (forced = true \/ po_type po = pi_type pi))) /\
    (done = false -> w' = w) /\
    (done = true ->
       (forall x p, out_links w' x p = out_links w x p ++ (if Nat.eqb x a && Nat.eqb p s then [(b, r)] else [])) /\
       (forall x p, in_links w' x p = in_links w x p ++ (if Nat.eqb x b && Nat.eqb p r then [a] else [])) /\
       (forall x y, chi_mult w' x y = chi_mult w x y + (if Nat.eqb x a && Nat.eqb y b then 1 else 0)) /\
       (forall x y, par_mult w' x y = par_mult w x y + (if Nat.eqb x b && Nat.eqb y a then 1 else 0))).
Proof. exact add_pin_spec. Qed.
Print Assumptions C07_addPin.

Example C07_nonvacuous :
  b_built (after plain 2) = true /\ b_built (after plain 3) = true /\ accepts (after plain) 2 3 1 3 false.
Proof. exact (conj plain_built2 (conj plain_built3 plain_accepts)). Qed.

(** C07, blocks whose ports are not built yet: addPin builds the missing ports first (it throws
    if a block cannot build them), and then behaves as above. *)
Theorem C07_addPin_builds_ports :
  forall w a b s r forced,
  match build_ports w a with
  | None => add_pin w a b s r forced = PinThrow
  | Some w1 => match build_ports w1 b with
               | None => add_pin w a b s r forced = PinThrow
               | Some w2 => b_built (w2 a) = true /\ b_built (w2 b) = true /\
                            add_pin w a b s r forced = add_pin w2 a b s r forced
               end
  end.
Proof. exact add_pin_builds. Qed.
Print Assumptions C07_addPin_builds_ports.

(** C08. *)
Theorem C08_graph_ends_agree :
  forall w ops w', no_pins_yet w -> Forall is_add ops -> pin_run w ops = Some w' ->
  graph_ok w' /\
  (forall a b, In a (map fst (b_par (w' b))) <-> exists r, In a (in_links w' b r)) /\
  (forall a b, In b (map fst (b_chi (w' a))) <-> exists s r, In (b, r) (out_links w' a s)) /\
  (forall a b, In a (map fst (b_par (w' b))) <-> In b (map fst (b_chi (w' a)))).
Proof. exact adds_agree. Qed.
Print Assumptions C08_graph_ends_agree.

Example C08_nonvacuous :
  no_pins_yet fresh /\ Forall is_add plain /\ pin_run fresh plain = Some (after plain) /\
  par_mult (after plain) 1 0 = 2 /\ n_received (after plain) 0 1 2 = 1.
Proof. exact (conj fresh_ok (conj (ltac:(repeat constructor) : Forall is_add plain) (conj (proj1 plain_ok) plain_counts))). Qed.

(** C09: refuted.  With the links [a; x; a; y] on one input port, removeAllPins(a,b) keeps a pin
    of a and drops the one of y, whose sender still lists it. *)
Theorem C09_removeAllPins_refuted :
  exists ops w a b y r s, Forall is_add ops /\ pin_run fresh ops = Some w /\ y <> a /\
    In a (in_links (remove_all_pins w a b) b r) /\
    In y (in_links w b r) /\ ~ In y (in_links (remove_all_pins w a b) b r) /\
    In (b, r) (out_links (remove_all_pins w a b) y s).
Proof.
  exact (ex_intro _ four (ex_intro _ (after four) (ex_intro _ 0 (ex_intro _ 1 (ex_intro _ 3 (ex_intro _ 2 (ex_intro _ 0
    (conj (ltac:(repeat constructor) : Forall is_add four) (conj (proj1 four_ok) (conj (ltac:(discriminate) : 3 <> 0) remove_all_wrong)))))))))).
Qed.
Print Assumptions C09_removeAllPins_refuted.

(** C09, the part that holds: if no port of a has two links to b and no port of b two links
    from a, then exactly the pins from a to b disappear, all other links keep their order, and the
    graph stays consistent. *)
Theorem C09_removeAllPins_partial :
  forall w a b, well_formed w -> graph_ok w -> single_links w a b ->
  let w' := remove_all_pins w a b in
  (forall p, out_links w' a p = filter (fun l => negb (Nat.eqb (fst l) b)) (out_links w a p)) /\
  (forall p, in_links w' b p = filter (fun y => negb (Nat.eqb y a)) (in_links w b p)) /\
  (forall x p, x <> a -> out_links w' x p = out_links w x p) /\
  (forall x p, x <> b -> in_links w' x p = in_links w x p) /\
  ~ In a (map fst (b_par (w' b))) /\ ~ In b (map fst (b_chi (w' a))) /\
  well_formed w' /\ graph_ok w'.
Proof. exact remove_all_partial. Qed.
Print Assumptions C09_removeAllPins_partial.

Example C09_nonvacuous :
  well_formed (after plain) /\ graph_ok (after plain) /\ single_links (after plain) 0 1 /\
  in_links (after plain) 1 2 = [0; 2] /\ in_links (remove_all_pins (after plain) 0 1) 1 2 = [2].
Proof. exact (conj (proj1 (proj2 plain_ok)) (conj (proj2 (proj2 plain_ok)) (conj (plain_singles 0 1) plain_removed))). Qed.

(** C10: refuted.  (1) a pin that does not exist still takes one from the parent multiplicity,
    here a stays linked to b but is no parent any more. *)
Theorem C10_removePin_missing_refuted :
  exists ops w a b s r r', Forall is_add ops /\ pin_run fresh ops = Some w /\
    out_links w a s = [] /\ in_links w b r = [] /\
    par_mult w b a = 1 /\ par_mult (remove_pin w a b s r) b a = 0 /\
    in_links (remove_pin w a b s r) b r' = [a].
Proof.
  exact (ex_intro _ one (ex_intro _ (after one) (ex_intro _ 0 (ex_intro _ 1 (ex_intro _ 1 (ex_intro _ 3 (ex_intro _ 2
    (conj (ltac:(repeat constructor) : Forall is_add one) (conj (proj1 one_ok) remove_missing_pin))))))))).
Qed.
Print Assumptions C10_removePin_missing_refuted.

(** (2) when the sender port feeds two ports of the receiver, removing one pin removes the output
    half of the other one. *)
Theorem C10_removePin_wrong_half_refuted :
  exists ops w a b s r1 r2, Forall is_add ops /\ pin_run fresh ops = Some w /\ r1 <> r2 /\
    out_links w a s = [(b, r1); (b, r2)] /\
    out_links (remove_pin w a b s r2) a s = [(b, r2)] /\
    in_links (remove_pin w a b s r2) b r2 = [] /\ in_links (remove_pin w a b s r2) b r1 = [a].
Proof.
  exact (ex_intro _ fan (ex_intro _ (after fan) (ex_intro _ 0 (ex_intro _ 1 (ex_intro _ 0 (ex_intro _ 2 (ex_intro _ 3
    (conj (ltac:(repeat constructor) : Forall is_add fan) (conj (proj1 fan_ok) (conj (ltac:(discriminate) : 2 <> 3) remove_wrong_pin)))))))))).
Qed.
Print Assumptions C10_removePin_wrong_half_refuted.

(** C10, the part that holds: the pin exists and is the only one from port s of a to b and the
    only one from a into port r of b. *)
Theorem C10_removePin_partial :
  forall w a b s r, well_formed w -> graph_ok w -> sole_pin w a b s r ->
  let w' := remove_pin w a b s r in
  (exists l1 l2, out_links w a s = l1 ++ (b, r) :: l2 /\ out_links w' a s = l1 ++ l2) /\
  (exists l1 l2, in_links w b r = l1 ++ a :: l2 /\ in_links w' b r = l1 ++ l2) /\
  (forall x p, (x, p) <> (a, s) -> out_links w' x p = out_links w x p) /\
  (forall x p, (x, p) <> (b, r) -> in_links w' x p = in_links w x p) /\
  well_formed w' /\ graph_ok w'.
Proof. exact remove_pin_sole. Qed.
Print Assumptions C10_removePin_partial.

Example C10_nonvacuous :
  well_formed (after plain) /\ graph_ok (after plain) /\ sole_pin (after plain) 0 1 1 3.
Proof. exact (conj (proj1 (proj2 plain_ok)) (conj (proj2 (proj2 plain_ok)) plain_sole)). Qed.

(** C11: refuted.  (1) after four addPin calls, removePins() of the receiver (and with it clear()
    and the destructor) never ends. *)
Theorem C11_removePins_terminates_refuted :
  exists ops w o, Forall is_add ops /\ pin_run fresh ops = Some w /\
    forall fuel, remove_pins fuel w o = None.
Proof.
  exact (ex_intro _ four (ex_intro _ (after four) (ex_intro _ 1
    (conj (ltac:(repeat constructor) : Forall is_add four) (conj (proj1 four_ok) removePins_loops))))).
Qed.
Print Assumptions C11_removePins_terminates_refuted.

(** (2) after two addPin calls, removing all pins of the sender leaves a link to it. *)
Theorem C11_removePins_dangling_refuted :
  exists ops w o b r w', Forall is_add ops /\ pin_run fresh ops = Some w /\
    remove_pins 5 w o = Some w' /\ b <> o /\ In o (in_links w' b r).
Proof.
  exact (let '(ex_intro _ w' (conj H1 H2)) := removePins_dangling in
    ex_intro _ twice (ex_intro _ (after twice) (ex_intro _ 0 (ex_intro _ 1 (ex_intro _ 2 (ex_intro _ w'
    (conj (ltac:(repeat constructor) : Forall is_add twice) (conj (proj1 twice_ok) (conj H1 (conj (ltac:(discriminate) : 1 <> 0) H2)))))))))).
Qed.
Print Assumptions C11_removePins_dangling_refuted.

(** C11, the part that holds: if between the ports of o and any other block there is at most one
    link per port, removePins ends, o is isolated, and links not involving o are untouched. *)
Theorem C11_removePins_partial :
  forall w o, well_formed w -> graph_ok w ->
  (forall x, single_links w x o /\ single_links w o x) ->
  exists n w', (forall fuel, n <= fuel -> remove_pins fuel w o = Some w') /\
    drops_only w w' o /\ well_formed w' /\ graph_ok w' /\
    (forall p, out_links w' o p = []) /\ (forall p, in_links w' o p = []) /\
    (forall x p r, ~ In (o, r) (out_links w' x p)) /\ (forall x p, ~ In o (in_links w' x p)) /\
    (forall x, ~ In o (map fst (b_par (w' x)))) /\ (forall x, ~ In o (map fst (b_chi (w' x)))) /\
    b_par (w' o) = [] /\ b_chi (w' o) = [].
Proof. exact remove_pins_ok. Qed.
Print Assumptions C11_removePins_partial.

Example C11_nonvacuous :
  well_formed (after plain) /\ graph_ok (after plain) /\
  (forall x, single_links (after plain) x 1 /\ single_links (after plain) 1 x) /\
  b_par (after plain 1) <> [] /\ b_chi (after plain 1) <> [].
Proof. exact (conj (proj1 (proj2 plain_ok)) (conj (proj2 (proj2 plain_ok)) (conj (plain_singles_all 1) plain_tables))). Qed.

(** C12. *)
Theorem C12_mandatory_ports :
  forall active plot app b,
  (* safe mode: it throws iff a mandatory port is missing, and names the missing ports *)
  ((exists k p, In (k, p) (b_ins b) /\ pi_mand p = true /\ pi_fam p = 0%Z /\ pi_links p = []) \/
   (exists k p, In (k, p) (b_ins b) /\ pi_mand p = true /\ pi_fam p <> 0%Z /\
      forall k' p', In (k', p') (b_ins b) -> pi_mand p' = true -> pi_fam p' = pi_fam p -> pi_links p' = []) ->
   exists p, exec false active plot app b = ExThrowPort p \/ exists ps, exec false active plot app b = ExThrowFamily ps) /\
  (forall p, exec false active plot app b = ExThrowPort p ->
     exists pi, In (p, pi) (b_ins b) /\ pi_mand pi = true /\ pi_fam pi = 0%Z /\ pi_links pi = []) /\
  (forall ps, exec false active plot app b = ExThrowFamily ps ->
     exists f, f <> 0%Z /\ ps <> [] /\
       ps = map fst (filter (fun kp => pi_mand (snd kp) && (pi_fam (snd kp) =? f)%Z) (b_ins b)) /\
       forall k p, In (k, p) (b_ins b) -> pi_mand p = true -> pi_fam p = f -> pi_links p = []).
Proof.
  exact (fun active plot app b => conj (proj1 (exec_safe active plot app b))
    (conj (exec_throw_port active plot app b) (exec_throw_family active plot app b))).
Qed.
Print Assumptions C12_mandatory_ports.

(** In expert mode, or with the mandatory ports in place, execute() runs iff the block is active,
    then each linked output port once, then the optional plot and apply. *)
Theorem C12_exec_runs :
  forall expert active plot app b, NoDup (map fst (b_outs b)) ->
  expert = true \/ ~ bad_mandatory (b_ins b) ->
  exists ports,
    exec expert active plot app b = ExDone ((if active then [EvExecute] else []) ++ map EvPort ports ++
      (if plot then [EvPlot] else []) ++ (if app then [EvApply] else [])) /\
    NoDup ports /\ forall s, In s ports <-> exists p, In (s, p) (b_outs b) /\ po_links p <> [].
Proof. exact exec_runs. Qed.
Print Assumptions C12_exec_runs.

Example C12_nonvacuous :
  ~ bad_mandatory (b_ins mixed_block) /\ bad_mandatory (b_ins bad_block) /\
  exec false true false true mixed_block = ExDone [EvExecute; EvPort 0; EvApply] /\
  exec false true false true bad_block = ExThrowFamily [3; 22].
Proof. exact (conj mixed_not_bad (conj bad_is_bad (conj eq_refl eq_refl))). Qed.

(** C13 for output ports. *)
Theorem C13_createPortOut :
  forall reg b s, let (b', ok) := create_port_out reg b s in
  (ok = true <-> reg s <> None /\ ~ In s (map fst (b_outs b))) /\
  (ok = false -> b' = b) /\
  (ok = true -> b_ins b' = b_ins b /\ b_par b' = b_par b /\ b_chi b' = b_chi b /\
     exists t, reg s = Some t /\
     forall k, lookup k (b_outs b') = if Nat.eqb k s then Some {| po_links := []; po_type := t |} else lookup k (b_outs b)).
Proof. exact create_out_spec. Qed.
Print Assumptions C13_createPortOut.

(** C13 for input ports: refuted, the name is looked for among the output ports. *)
Theorem C13_createPortIn_refuted :
  (exists reg b p, reg p <> None /\ ~ In p (map fst (b_ins b)) /\ snd (create_port_in reg b p false 0) = false) /\
  (exists reg b p, In p (map fst (b_ins b)) /\ snd (create_port_in reg b p false 0) = true /\
     lookup p (b_ins (fst (create_port_in reg b p false 0))) <> lookup p (b_ins b)).
Proof.
  exact (conj
    (ex_intro _ all_registered (ex_intro _ (fst (create_port_out all_registered bare 5)) (ex_intro _ 5
       (conj (ltac:(discriminate) : all_registered 5 <> None) createPortIn_wrong))))
    (ex_intro _ all_registered (ex_intro _ (fst (create_port_in all_registered bare 5 true 0)) (ex_intro _ 5
       createPortIn_twice)))).
Qed.
Print Assumptions C13_createPortIn_refuted.

(** C13 for input ports, the part that holds: the name is used on both sides or on none. *)
Theorem C13_createPortIn_partial :
  forall reg b s m f,
  (In s (map fst (b_outs b)) <-> In s (map fst (b_ins b))) ->
  let (b', ok) := create_port_in reg b s m f in
  (ok = true <-> reg s <> None /\ ~ In s (map fst (b_ins b))) /\
  (ok = false -> b' = b) /\
  (ok = true -> b_outs b' = b_outs b /\ b_par b' = b_par b /\ b_chi b' = b_chi b /\
     exists t, reg s = Some t /\
     forall k, lookup k (b_ins b') = if Nat.eqb k s then Some {| pi_links := []; pi_type := t; pi_mand := m; pi_fam := f |} else lookup k (b_ins b)).
Proof. exact create_in_partial. Qed.
Print Assumptions C13_createPortIn_partial.

Example C13_nonvacuous :
  (In 24 (map fst (b_outs mixed_block)) <-> In 24 (map fst (b_ins mixed_block))) /\
  snd (create_port_in all_registered mixed_block 24 true 1) = true.
Proof. split; [simpl; intuition discriminate|reflexivity]. Qed.
