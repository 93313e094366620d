(** Concrete cases for C17. *)
From Coq Require Import List Arith Bool ZArith Lia Permutation.
From Verif Require Import Chain Pins PinsSpec PinsProofs PinsWitness Xml XmlSpec XmlProofs.
Import ListNotations.

(** Output port 0 of block 0 feeds port 2 of blocks 1 .. 11; block o has name 100 + o. *)
Definition fan : list pin_op := map (fun b => AddPin 0 b 0 2 false) (seq 1 11).
Definition fan_names : list (nat * obj) := map (fun o => (100 + o, o)) (seq 0 12).
Definition all_registered (_ : nat) : bool := true.

Lemma fan_ok : pin_run fresh fan = Some (after fan) /\ well_formed (after fan) /\ graph_ok (after fan).
Proof. apply run_after; [adds|vm_compute; discriminate]. Qed.

Lemma fan_links : out_links (after fan) 0 0 = map (fun b => (b, 2)) (seq 1 11).
Proof. vm_compute. reflexivity. Qed.

Definition restored (l : list conn) : world :=
  match absorb fan_names all_registered fresh true l with AbsDone w _ => w | AbsThrow => fresh end.

Lemma fan_restored : absorb fan_names all_registered fresh true (visit_order (flush fan_names (after fan)))
  = AbsDone (restored (visit_order (flush fan_names (after fan)))) true.
Proof.
  unfold restored.
  destruct (absorb fan_names all_registered fresh true (visit_order (flush fan_names (after fan)))) as [|w ok] eqn:E.
  - exfalso. revert E. vm_compute. discriminate.
  - assert (K : match absorb fan_names all_registered fresh true (visit_order (flush fan_names (after fan)))
                with AbsDone _ b => b | AbsThrow => false end = true) by (vm_compute; reflexivity).
    rewrite E in K. now rewrite K.
Qed.

Lemma fan_order_changed :
  out_links (restored (visit_order (flush fan_names (after fan)))) 0 0
  = map (fun b => (b, 2)) [1; 2; 11; 3; 4; 5; 6; 7; 8; 9; 10].
Proof. vm_compute. reflexivity. Qed.

Lemma fan_good : good_names fan_names.
Proof.
  split; vm_compute; repeat (constructor; [simpl; intuition discriminate|]); constructor.
Qed.

Lemma sends_elsewhere : forall a s ops w w', lazy_ok w -> out_links w a s = [] -> pin_run w ops = Some w' ->
  Forall (fun o => match o with AddPin x _ p _ _ => x <> a \/ p <> s | _ => False end) ops ->
  out_links w' a s = [].
Proof.
  intros a s. induction ops as [|op ops IH]; intros w w' Lw Z R F; simpl in R.
  - injection R as <-. exact Z.
  - inversion F as [|? ? F1 F2]; subst. destruct op as [x y s0 r f| |]; try contradiction. simpl in R.
    destruct (add_pin w x y s0 r f) as [|w1 d] eqn:E; [discriminate|].
    destruct (add_pin_cases _ _ _ _ _ _ _ _ Lw E) as (L1 & _ & X).
    refine (IH w1 w' L1 _ R F2). destruct d.
    + destruct X as (X & _). rewrite X, Z.
      destruct (Nat.eqb_spec a x) as [e|e]; [|reflexivity].
      destruct (Nat.eqb_spec s s0) as [e'|e']; [|reflexivity].
      exfalso. destruct F1; congruence.
    + destruct X as (X & _). now rewrite X.
Qed.

Lemma fan_out_only : forall a s, a <> 0 \/ s <> 0 -> out_links (after fan) a s = [].
Proof.
  intros a s H. destruct (no_pins_inv _ fresh_ok) as (L0 & _ & _).
  refine (sends_elsewhere a s fan fresh (after fan) L0 _ (proj1 fan_ok) _).
  - apply fresh_ok.
  - unfold fan. apply Forall_forall. intros o I. apply in_map_iff in I. destruct I as (b & <- & I). lia.
Qed.

Lemma fan_pins : forall a s b r, In (b, r) (out_links (after fan) a s) -> a = 0 /\ s = 0 /\ r = 2 /\ 1 <= b < 12.
Proof.
  intros a s b r. pose proof fan_out_only as Z. pose proof fan_links as L.
  revert Z L. generalize (after fan). intros w Z L I.
  destruct (Nat.eq_dec a 0) as [->|N]; [|rewrite Z in I by auto; destruct I].
  destruct (Nat.eq_dec s 0) as [->|N]; [|rewrite Z in I by auto; destruct I].
  rewrite L in I. apply in_map_iff in I. destruct I as (x & E & B). injection E as -> <-.
  apply in_seq in B. lia.
Qed.

Lemma fan_named : pins_are_named fan_names all_registered (after fan).
Proof.
  intros a s b r I. apply fan_pins in I. destruct I as (-> & -> & -> & B).
  assert (X : forall o, o < 12 -> In o (map snd fan_names)).
  { intros o L. unfold fan_names. rewrite map_map. apply in_map_iff. exists o. split; [reflexivity|apply in_seq; lia]. }
  split; [apply X; lia|]. split; [apply X; lia|]. split; reflexivity.
Qed.

Lemma fan_connectable : forall a s b r, In (b, r) (out_links (after fan) a s) -> connectable fresh a s b r.
Proof.
  intros a s b r I. apply fan_pins in I. destruct I as (-> & -> & -> & B).
  split; [discriminate|]. split; [discriminate|]. exists ty. split; reflexivity.
Qed.

Lemma order_lost : exists names registered w w0 w',
  good_names names /\ well_formed w /\ graph_ok w /\ pins_are_named names registered w /\
  no_pins_yet w0 /\ (forall a s b r, In (b, r) (out_links w a s) -> connectable w0 a s b r) /\
  absorb names registered w0 true (visit_order (flush names w)) = AbsDone w' true /\
  exists a s, out_links w' a s <> out_links w a s.
Proof.
  exists fan_names, all_registered, (after fan), fresh, (restored (visit_order (flush fan_names (after fan)))).
  split; [exact fan_good|]. split; [apply fan_ok|]. split; [apply fan_ok|]. split; [exact fan_named|].
  split; [exact fresh_ok|]. split; [exact fan_connectable|]. split; [exact fan_restored|].
  exists 0, 0. rewrite fan_order_changed, fan_links. discriminate.
Qed.

(** Two names for one block: every pin it sends is written, and restored, twice. *)
Definition twice_names : list (nat * obj) := [(100, 0); (200, 0); (101, 1)].
Lemma two_names_double : exists w', absorb twice_names all_registered fresh true (flush twice_names (after one)) = AbsDone w' true /\
  out_links (after one) 0 0 = [(1, 2)] /\ out_links w' 0 0 = [(1, 2); (1, 2)].
Proof.
  destruct (absorb twice_names all_registered fresh true (flush twice_names (after one))) as [|w ok] eqn:E.
  { exfalso. revert E. vm_compute. discriminate. }
  assert (K : match absorb twice_names all_registered fresh true (flush twice_names (after one))
              with AbsDone w b => (out_links w 0 0, b) | AbsThrow => ([], false) end = ([(1, 2); (1, 2)], true)) by (vm_compute; reflexivity).
  rewrite E in K. injection K as K1 K2. exists w. split; [now rewrite K2|]. split; [vm_compute; reflexivity|exact K1].
Qed.

(** A file with an unknown block, an unknown port, a missing option and one good connection. *)
Definition odd_file : list conn :=
  [ {| c_snd := Some 999; c_sp := Some 0; c_rcv := Some 101; c_rp := Some 2 |};
    {| c_snd := Some 100; c_sp := Some 7; c_rcv := Some 101; c_rp := Some 2 |};
    {| c_snd := Some 100; c_sp := Some 0; c_rcv := None; c_rp := Some 2 |};
    {| c_snd := Some 100; c_sp := Some 1; c_rcv := Some 101; c_rp := Some 3 |} ].
Definition few_registered (p : nat) : bool := p <? 4.
Lemma odd_file_absorbed :
  match absorb fan_names few_registered fresh true odd_file with
  | AbsDone w ok => (ok, out_links w 0 0, out_links w 0 1, in_links w 1 2, in_links w 1 3)
  | AbsThrow => (false, [], [], [], [])
  end = (true, [], [(1, 3)], [], [0]).
Proof. vm_compute. reflexivity. Qed.
