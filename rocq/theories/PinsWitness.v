(** Concrete worlds for the pin properties. *)
From Coq Require Import List Arith Bool ZArith Lia.
From Verif Require Import Chain Pins PinsSpec PinsProofs Exec ExecProofs.
Import ListNotations.

Definition ty : dtype := {| con := 0; dat := 0 |}.
Definition op (k : pid) : pid * port_out := (k, {| po_links := []; po_type := ty |}).
Definition ip (k : pid) : pid * port_in := (k, {| pi_links := []; pi_type := ty; pi_mand := false; pi_fam := 0%Z |}).

(** Every block has output ports 0, 1 and input ports 2, 3, to be built on the first addPin. *)
Definition blk : block := {| b_outs := []; b_ins := []; b_par := []; b_chi := []; b_ct := BOTH;
  b_built := false; b_proto := Some ([op 0; op 1], [ip 2; ip 3]) |}.
Definition fresh : world := fun _ => blk.

Lemma fresh_ok : no_pins_yet fresh.
Proof.
  intros o. simpl. repeat split; try reflexivity; try apply NoDup_nil.
  all: injection H as <- <-.
  - simpl. repeat constructor; simpl; intuition discriminate.
  - simpl. repeat constructor; simpl; intuition discriminate.
  - simpl. intros k p [[= <- <-]|[[= <- <-]|[]]]; reflexivity.
  - simpl. intros k p [[= <- <-]|[[= <- <-]|[]]]; reflexivity.
Qed.

(** a=0, b=1, x=2, y=3: links of port 2 of b become [a; x; a; y]. *)
Definition four : list pin_op :=
  [AddPin 0 1 0 2 false; AddPin 2 1 0 2 false; AddPin 0 1 1 2 false; AddPin 3 1 0 2 false].

Definition after (ops : list pin_op) : world := match pin_run fresh ops with Some w => w | None => fresh end.

Lemma run_after : forall ops, Forall is_add ops -> pin_run fresh ops <> None ->
  pin_run fresh ops = Some (after ops) /\ well_formed (after ops) /\ graph_ok (after ops).
Proof.
  intros ops F H. unfold after. destruct (pin_run fresh ops) as [w|] eqn:E; [|congruence].
  split; [reflexivity|]. destruct (no_pins_inv _ fresh_ok) as (L & W & G).
  destruct (adds_inv ops fresh w L W G F E) as (_ & A & B). auto.
Qed.

Ltac adds := repeat constructor.

Lemma four_ok : pin_run fresh four = Some (after four) /\ well_formed (after four) /\ graph_ok (after four).
Proof. apply run_after; [adds|vm_compute; discriminate]. Qed.

Lemma four_links : in_links (after four) 1 2 = [0; 2; 0; 3].
Proof. vm_compute. reflexivity. Qed.

(** removeAllPins(a,b) leaves a link from a on b, and removes the one from y. *)
Lemma remove_all_wrong :
  In 0 (in_links (remove_all_pins (after four) 0 1) 1 2) /\
  In 3 (in_links (after four) 1 2) /\ ~ In 3 (in_links (remove_all_pins (after four) 0 1) 1 2) /\
  In (1, 2) (out_links (remove_all_pins (after four) 0 1) 3 0).
Proof.
  split; [vm_compute; tauto|]. split; [vm_compute; tauto|]. split; [vm_compute; intuition discriminate|vm_compute; tauto].
Qed.

(** removePin of a pin that does not exist (port 1 of a to port 3 of b, nothing linked there). *)
Definition one : list pin_op := [AddPin 0 1 0 2 false].
Lemma one_ok : pin_run fresh one = Some (after one) /\ well_formed (after one) /\ graph_ok (after one).
Proof. apply run_after; [adds|vm_compute; discriminate]. Qed.

Lemma remove_missing_pin :
  out_links (after one) 0 1 = [] /\ in_links (after one) 1 3 = [] /\
  par_mult (after one) 1 0 = 1 /\ par_mult (remove_pin (after one) 0 1 1 3) 1 0 = 0 /\
  in_links (remove_pin (after one) 0 1 1 3) 1 2 = [0].
Proof. repeat (apply conj; [vm_compute; reflexivity|]). vm_compute. reflexivity. Qed.

(** removePin(a,b,0,3) when port 0 of a feeds both ports 2 and 3 of b. *)
Definition fan : list pin_op := [AddPin 0 1 0 2 false; AddPin 0 1 0 3 false].
Lemma fan_ok : pin_run fresh fan = Some (after fan) /\ well_formed (after fan) /\ graph_ok (after fan).
Proof. apply run_after; [adds|vm_compute; discriminate]. Qed.

Lemma remove_wrong_pin :
  out_links (after fan) 0 0 = [(1, 2); (1, 3)] /\
  out_links (remove_pin (after fan) 0 1 0 3) 0 0 = [(1, 3)] /\
  in_links (remove_pin (after fan) 0 1 0 3) 1 3 = [] /\
  in_links (remove_pin (after fan) 0 1 0 3) 1 2 = [0].
Proof. repeat (apply conj; [vm_compute; reflexivity|]). vm_compute. reflexivity. Qed.

(** * Non-termination of removePins *)
Lemma remove_all_wf : forall w a b, well_formed w -> well_formed (remove_all_pins w a b).
Proof.
  intros w a b W. destruct (remove_all_effect w a b W) as (_ & _ & OP & IP & EC & EP).
  intros o. rewrite OP, IP, EC, EP. destruct (W o) as (A1 & A2 & A3 & A4).
  split; [assumption|]. split; [assumption|]. split.
  - destruct (Nat.eqb_spec o a); [subst; apply decr_n_ok|]; assumption.
  - destruct (Nat.eqb_spec o b); [subst; apply decr_n_ok|]; assumption.
Qed.

Lemma stuck_in : forall fuel w p n t o, well_formed w -> b_par (w o) = (p, n) :: t -> n_from w p o = 0 ->
  remove_pins_in fuel w o = None.
Proof.
  induction fuel; intros w p n t o W P Z; simpl; rewrite P; [reflexivity|].
  destruct (remove_all_effect w p o W) as (_ & EI & _ & IP & _ & EP).
  apply (IHfuel _ p n t).
  - apply remove_all_wf. exact W.
  - rewrite EP, Nat.eqb_refl, Z. exact P.
  - unfold n_from, all_in in *. rewrite IP. rewrite <- Z. apply count_flat_same. intros k K.
    rewrite EI, Nat.eqb_refl. rewrite drift_none; [reflexivity|].
    apply count_occ_not_In in Z.
    assert (NI : ~ In p (in_links w o k)) by (intro X; apply Z; apply in_flat_map; eauto).
    apply (count_occ_not_In Nat.eq_dec) in NI. rewrite count_filter in NI.
    destruct (filter _ _); [reflexivity|discriminate].
Qed.

Lemma rpi_nonempty : forall fuel w o p n t, b_par (w o) = (p, n) :: t ->
  remove_pins_in fuel w o = match fuel with 0 => None | S f => remove_pins_in f (remove_all_pins w p o) o end.
Proof. intros fuel w o p n t H. destruct fuel; simpl; rewrite H; reflexivity. Qed.

(** b.removePins() in the world [four] never ends. *)
Lemma removePins_loops : forall fuel, remove_pins fuel (after four) 1 = None.
Proof.
  intros fuel. unfold remove_pins.
  assert (H : remove_pins_in fuel (after four) 1 = None); [|rewrite H; reflexivity].
  destruct four_ok as (_ & W & _).
  assert (P0 : b_par (after four 1) = [(0, 2); (2, 1); (3, 1)]) by (vm_compute; reflexivity).
  assert (P1 : b_par (remove_all_pins (after four) 0 1 1) = [(2, 1); (3, 1)]) by (vm_compute; reflexivity).
  rewrite (rpi_nonempty _ _ _ _ _ _ P0). destruct fuel as [|fuel]; [reflexivity|].
  rewrite (rpi_nonempty _ _ _ _ _ _ P1). destruct fuel as [|fuel]; [reflexivity|].
  apply (stuck_in fuel _ 3 1 []).
  - apply remove_all_wf, remove_all_wf. exact W.
  - vm_compute. reflexivity.
  - vm_compute. reflexivity.
Qed.

(** a.removePins() in a world with two pins from a into the same port of b ends, but b keeps a
    link to the destroyed block. *)
Definition twice : list pin_op := [AddPin 0 1 0 2 false; AddPin 0 1 1 2 false].
Lemma twice_ok : pin_run fresh twice = Some (after twice) /\ well_formed (after twice) /\ graph_ok (after twice).
Proof. apply run_after; [adds|vm_compute; discriminate]. Qed.
Lemma removePins_dangling : exists w', remove_pins 5 (after twice) 0 = Some w' /\ In 0 (in_links w' 1 2).
Proof.
  destruct (remove_pins 5 (after twice) 0) as [w'|] eqn:E.
  - exists w'. apply conj; [reflexivity|].
    assert (H : match remove_pins 5 (after twice) 0 with Some w' => In 0 (in_links w' 1 2) | None => False end)
      by (vm_compute; tauto).
    rewrite E in H. exact H.
  - exfalso. assert (H : match remove_pins 5 (after twice) 0 with Some w' => True | None => False end) by (vm_compute; exact I).
    rewrite E in H. exact H.
Qed.

(** Non-vacuity: worlds where the partial theorems apply. *)
Definition plain : list pin_op :=
  [AddPin 0 1 0 2 false; AddPin 0 1 1 3 false; AddPin 2 1 0 2 false; AddPin 1 3 1 2 false].
Lemma plain_ok : pin_run fresh plain = Some (after plain) /\ well_formed (after plain) /\ graph_ok (after plain).
Proof. apply run_after; [adds|vm_compute; discriminate]. Qed.

Lemma plain_outs : forall o s, out_links (after plain) o s =
  match o, s with 0, 0 => [(1, 2)] | 0, 1 => [(1, 3)] | 2, 0 => [(1, 2)] | 1, 1 => [(3, 2)] | _, _ => [] end.
Proof.
  intros o s.
  do 4 (destruct o as [|o]; [do 2 (destruct s as [|s]; [vm_compute; reflexivity|]); vm_compute; reflexivity|]).
  vm_compute. reflexivity.
Qed.
Lemma plain_ins : forall o s, in_links (after plain) o s =
  match o, s with 1, 2 => [0; 2] | 1, 3 => [0] | 3, 2 => [1] | _, _ => [] end.
Proof.
  intros o s.
  do 4 (destruct o as [|o]; [do 4 (destruct s as [|s]; [vm_compute; reflexivity|]); vm_compute; reflexivity|]).
  vm_compute. reflexivity.
Qed.

Lemma plain_singles : forall a b, single_links (after plain) a b.
Proof.
  intros a b. split; intros p.
  - rewrite plain_outs.
    do 4 (destruct a as [|a]; [do 2 (destruct p as [|p]; [simpl; try lia; destruct b as [|[|[|[|b]]]]; simpl; lia|]); simpl; lia|]).
    simpl. lia.
  - rewrite plain_ins.
    do 4 (destruct b as [|b]; [do 4 (destruct p as [|p]; [simpl; try lia; destruct a as [|[|[|[|a]]]]; simpl; lia|]); simpl; lia|]).
    simpl. lia.
Qed.

Lemma plain_singles_all : forall o, singles (after plain) o.
Proof. intros o x. split; apply plain_singles. Qed.

Lemma plain_sole : sole_pin (after plain) 0 1 1 3.
Proof. unfold sole_pin. apply conj; [vm_compute; auto|]. apply conj; vm_compute; reflexivity. Qed.

Lemma plain_accepts : accepts (after plain) 2 3 1 3 false.
Proof.
  unfold accepts. apply conj; [vm_compute; discriminate|]. apply conj; [vm_compute; discriminate|].
  exists {| po_links := []; po_type := ty |}, {| pi_links := []; pi_type := ty; pi_mand := false; pi_fam := 0%Z |}.
  apply conj; [vm_compute; reflexivity|]. apply conj; [vm_compute; reflexivity|]. right. reflexivity.
Qed.

(** exec. *)
Definition mixed_block : block :=
  {| b_outs := [(0, {| po_links := [(1, 2)]; po_type := ty |}); op 1];
     b_ins := [(2, {| pi_links := [5]; pi_type := ty; pi_mand := true; pi_fam := 0%Z |});
               (3, {| pi_links := []; pi_type := ty; pi_mand := true; pi_fam := 2%Z |});
               (22, {| pi_links := [6]; pi_type := ty; pi_mand := true; pi_fam := 2%Z |});
               (23, {| pi_links := []; pi_type := ty; pi_mand := false; pi_fam := 0%Z |})];
     b_par := []; b_chi := []; b_ct := BOTH; b_built := true; b_proto := None |}.
Definition bad_block : block :=
  set_ins mixed_block [(3, {| pi_links := []; pi_type := ty; pi_mand := true; pi_fam := 2%Z |});
                       (22, {| pi_links := []; pi_type := ty; pi_mand := true; pi_fam := 2%Z |})].

Lemma mixed_not_bad : ~ bad_mandatory (b_ins mixed_block).
Proof.
  intros [(k & p & I & M & F & L)|(k & p & I & M & F & L)]; simpl in I;
    repeat (destruct I as [[= <- <-]|I]; [simpl in *; try congruence|]); try tauto.
  - specialize (L 22 _ (or_intror (or_intror (or_introl eq_refl))) eq_refl eq_refl). discriminate.
  - specialize (L 22 _ (or_intror (or_intror (or_introl eq_refl))) eq_refl eq_refl). discriminate.
Qed.
Lemma bad_is_bad : bad_mandatory (b_ins bad_block).
Proof.
  right. exists 3. eexists. split; [simpl; left; reflexivity|]. split; [reflexivity|]. split; [discriminate|].
  simpl. intros k' p' [[= <- <-]|[[= <- <-]|[]]] _ _; reflexivity.
Qed.

(** Ports. *)
Definition all_registered : pid -> option dtype := fun _ => Some ty.
Definition bare : block := {| b_outs := []; b_ins := []; b_par := []; b_chi := []; b_ct := BOTH; b_built := false; b_proto := None |}.
Lemma createPortIn_wrong :
  let b1 := fst (create_port_out all_registered bare 5) in
  ~ In 5 (map fst (b_ins b1)) /\ snd (create_port_in all_registered b1 5 false 0) = false.
Proof. simpl. tauto. Qed.
Lemma createPortIn_twice :
  let b1 := fst (create_port_in all_registered bare 5 true 0) in
  In 5 (map fst (b_ins b1)) /\ snd (create_port_in all_registered b1 5 false 0) = true /\
  lookup 5 (b_ins (fst (create_port_in all_registered b1 5 false 0))) <> lookup 5 (b_ins b1).
Proof. simpl. repeat split; auto. discriminate. Qed.

Lemma plain_counts : par_mult (after plain) 1 0 = 2 /\ n_received (after plain) 0 1 2 = 1.
Proof. apply conj; vm_compute; reflexivity. Qed.
Lemma plain_removed : in_links (after plain) 1 2 = [0; 2] /\ in_links (remove_all_pins (after plain) 0 1) 1 2 = [2].
Proof. apply conj; vm_compute; reflexivity. Qed.
Lemma plain_tables : b_par (after plain 1) <> [] /\ b_chi (after plain 1) <> [].
Proof. apply conj; vm_compute; discriminate. Qed.
Lemma plain_built2 : b_built (after plain 2) = true.
Proof. vm_compute. reflexivity. Qed.
Lemma plain_built3 : b_built (after plain 3) = true.
Proof. vm_compute. reflexivity. Qed.
