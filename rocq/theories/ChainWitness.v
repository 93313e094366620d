(** Concrete graphs used as witnesses and examples for the chain properties. *)
From Coq Require Import List ZArith Bool Arith Lia Permutation Relations.
From Verif Require Import Chain ChainSpec ChainProofs.
Import ListNotations.
Open Scope nat_scope.

(** 0 -> 1 -> 3, 0 -> 2 -> 3 *)
Definition diamond : graph :=
  {| parents := fun o => match o with 1 => [0] | 2 => [0] | 3 => [2; 1] | _ => [] end;
     children := fun o => match o with 0 => [1; 2] | 1 => [3] | 2 => [3] | _ => [] end |}.

(** 0 <-> 1 *)
Definition two_cycle : graph :=
  {| parents := fun o => match o with 0 => [1] | 1 => [0] | _ => [] end;
     children := fun o => match o with 0 => [1] | 1 => [0] | _ => [] end |}.

(** 2 -> 0 -> 1 -> 2 *)
Definition three_cycle : graph :=
  {| parents := fun o => match o with 0 => [2] | 1 => [0] | 2 => [1] | _ => [] end;
     children := fun o => match o with 0 => [1] | 1 => [2] | 2 => [0] | _ => [] end |}.

(** 1 -> 0, 2 -> 0, 0 -> 3 *)
Definition fork : graph :=
  {| parents := fun o => match o with 0 => [1; 2] | 3 => [0] | _ => [] end;
     children := fun o => match o with 1 => [0] | 2 => [0] | 0 => [3] | _ => [] end |}.

Definition no_pins : graph := {| parents := fun _ => []; children := fun _ => [] |}.

(** 1 -> 0 *)
Definition one_pin : graph :=
  {| parents := fun o => match o with 0 => [1] | _ => [] end;
     children := fun o => match o with 1 => [0] | _ => [] end |}.

Ltac solve_consistent :=
  split;
  [ intros p c; do 4 (try (destruct p as [|p])); do 4 (try (destruct c as [|c])); simpl; intuition lia
  | intros o; do 4 (try (destruct o as [|o])); simpl; repeat constructor; simpl; intuition lia ].

(** acyclic from a rank function *)
Lemma ranked_acyclic g (rk : obj -> nat) :
  (forall p c, edge g p c -> rk p < rk c) -> acyclic g.
Proof.
  intros H o Hc.
  assert (K : forall x y, clos_trans obj (edge g) x y -> rk x < rk y).
  { intros x y Hxy. induction Hxy as [a b He|a b c _ IH1 _ IH2]; [auto|lia]. }
  specialize (K _ _ Hc). lia.
Qed.

Lemma diamond_consistent : consistent diamond.
Proof. solve_consistent. Qed.
Lemma diamond_acyclic : acyclic diamond.
Proof.
  apply (ranked_acyclic _ (fun o => match o with 0 => 0 | 1 => 1 | 2 => 1 | _ => 2 end)).
  intros p c. unfold edge. do 4 (try (destruct p as [|p])); simpl; intuition (subst; lia).
Qed.

Lemma diamond_example :
  consistent diamond /\ acyclic diamond /\ NoDup (map fst [en 3 (-1); en 1 7; en 0 (-1); en 2 (-1)]) /\
  add_objects 5 diamond empty_chain [en 3 (-1); en 1 7; en 0 (-1); en 2 (-1)]
  = CDone {| entries := [en 0 1; en 1 7; en 2 2; en 3 0]; counter := 3 |} 0.
Proof.
  split; [exact diamond_consistent|]. split; [exact diamond_acyclic|].
  split; [|reflexivity]. simpl. repeat constructor; simpl; intuition lia.
Qed.

Lemma three_loop : forall f i j k,
  add f three_cycle [(0, i); (1, j)] 2 k = OutOfFuel /\
  add f three_cycle [(2, i); (0, j)] 1 k = OutOfFuel /\
  add f three_cycle [(1, i); (2, j)] 0 k = OutOfFuel.
Proof.
  induction f as [|f IH]; intros i j k; [repeat split|].
  destruct f as [|f]; [repeat split|].
  repeat split.
  - change (add (S (S f)) three_cycle [(0, i); (1, j)] 2 k)
      with (match readd (add (S f) three_cycle) [(1, j)] [(2, k); (0, i)] with
            | Done l3 _ => Done l3 (0 + 1) | other => other end).
    cbn [readd]. destruct (IH k i j) as (_ & -> & _). reflexivity.
  - change (add (S (S f)) three_cycle [(2, i); (0, j)] 1 k)
      with (match readd (add (S f) three_cycle) [(0, j)] [(1, k); (2, i)] with
            | Done l3 _ => Done l3 (0 + 1) | other => other end).
    cbn [readd]. destruct (IH k i j) as (_ & _ & ->). reflexivity.
  - change (add (S (S f)) three_cycle [(1, i); (2, j)] 0 k)
      with (match readd (add (S f) three_cycle) [(2, j)] [(0, k); (1, i)] with
            | Done l3 _ => Done l3 (0 + 1) | other => other end).
    cbn [readd]. destruct (IH k i j) as (-> & _ & _). reflexivity.
Qed.

Lemma cycle3_never_returns :
  exists g c o, consistent g /\
    (exists reqs, add_objects 3 g empty_chain reqs = CDone c 0) /\
    forall fuel id, add_object fuel g c o id = COutOfFuel.
Proof.
  exists three_cycle, {| entries := [en 0 0; en 1 1]; counter := 2 |}, 2.
  split; [solve_consistent|]. split.
  - exists [en 0 (-1); en 1 (-1)]. reflexivity.
  - intros fuel id. unfold add_object. cbn [entries counter].
    pose proof (proj1 (three_loop fuel 0 1 (if (id <? 0)%Z then 2%Z else id))) as E.
    unfold en. cbv zeta. unfold entry. rewrite E. reflexivity.
Qed.

Lemma fork_acyclic : acyclic fork.
Proof.
  apply (ranked_acyclic _ (fun o => match o with 0 => 1 | 1 => 0 | 2 => 0 | _ => 2 end)).
  intros p c. unfold edge. do 4 (try (destruct p as [|p])); simpl; intuition (subst; lia).
Qed.

Lemma returned_index_wrong :
  exists g c o c' r, consistent g /\ acyclic g /\ ordered g (objs (entries c)) /\
    NoDup (o :: objs (entries c)) /\
    add_object 5 g c o (-1) = CDone c' (Z.of_nat r) /\
    nth_error (objs (entries c')) r <> Some o.
Proof.
  exists fork, {| entries := [en 3 0; en 1 1; en 2 2]; counter := 3 |}, 0.
  eexists _, 1. split; [solve_consistent|]. split; [exact fork_acyclic|].
  split.
  - apply ord_ordered. simpl. unfold edge. simpl. intuition (subst; simpl in *; intuition lia).
  - split; [simpl; repeat constructor; simpl; intuition lia|].
    split; [reflexivity|]. simpl. discriminate.
Qed.

Lemma exec_examples :
  exec diamond [en 0 1; en 2 2; en 1 7; en 3 0] = Some [0; 2; 1; 3] /\
  exec diamond [en 0 1; en 3 2; en 1 7] = None /\
  has_cycle_in two_cycle (objs [en 1 0; en 0 1]).
Proof.
  repeat split. exists 0. eapply t_trans with (y := 1); apply t_step; simpl;
    repeat split; simpl; auto; left; reflexivity.
Qed.

Lemma late_pin_loop_error :
  exists g0 g1 c, acyclic g0 /\ acyclic g1 /\ consistent g0 /\ consistent g1 /\
    (exists reqs, add_objects 3 g0 empty_chain reqs = CDone c 0) /\
    (forall p x, edge g0 p x -> edge g1 p x) /\
    exec g1 (entries c) = None.
Proof.
  exists no_pins, one_pin, {| entries := [en 0 0; en 1 1]; counter := 2 |}.
  split; [apply (ranked_acyclic _ (fun o => o)); intros p c []|].
  split.
  { apply (ranked_acyclic _ (fun o => match o with 0 => 1 | _ => 0 end)).
    intros p c. unfold edge. do 2 (try (destruct p as [|p])); simpl; intuition (subst; lia). }
  split; [split; simpl; [tauto|constructor]|]. split; [solve_consistent|].
  split; [exists [en 0 (-1); en 1 (-1)]; reflexivity|]. split; [intros p x []|reflexivity].
Qed.

Lemma no_loop_error_when_pins_first :
  forall g, consistent g -> acyclic g ->
  forall reqs, NoDup (map fst reqs) ->
  exists n c, (forall fuel, n <= fuel -> add_objects fuel g empty_chain reqs = CDone c 0) /\
     exec g (entries c) = Some (objs (entries c)).
Proof.
  intros g Hg Hac reqs ND. destruct (add_objects_spec g Hg Hac reqs ND) as (n & c & Hn & HP & Ho).
  exists n, c. split; [exact Hn|].
  destruct (exec_spec g (entries c)) as [[_ H]|[H _]]; auto; [|contradiction].
  eapply Permutation_NoDup; [apply Permutation_sym, objs_perm; exact HP|].
  unfold objs. rewrite assigned_objs. exact ND.
Qed.

Lemma delete_object_exact :
  forall g c id, NoDup (ids (entries c)) ->
  entries (fst (delete_object g c id)) = filter (fun e => negb (Z.eqb (snd e) id)) (entries c) /\
  (snd (delete_object g c id) = true <->
   exists o, In (o, id) (entries c) /\ (parents g o <> [] \/ children g o <> [])).
Proof.
  intros g c id ND. rewrite <- (delete_entry_flag g id (entries c) ND).
  rewrite <- (delete_entry_spec g id (entries c) ND).
  unfold delete_object. destruct (delete_entry g id (entries c)). simpl. tauto.
Qed.

Lemma clone_id_collision :
  exists g c c1 c2, consistent g /\ acyclic g /\
    (exists reqs, add_objects 3 g empty_chain reqs = CDone c 0) /\
    clone 3 g c = CDone c1 0 /\ add_object 3 g c1 9 (-1) = CDone c2 1 /\
    ~ NoDup (ids (entries c2)).
Proof.
  exists no_pins, {| entries := [en 4 0]; counter := 1 |}.
  eexists _, _. split; [split; simpl; [tauto|constructor]|].
  split; [apply (ranked_acyclic _ (fun o => o)); intros p c []|].
  split; [exists [en 4 (-1)]; reflexivity|].
  split; [reflexivity|]. split; [reflexivity|].
  cbn. intros H. inversion H as [|? ? Hn _]; subst. apply Hn. left; reflexivity.
Qed.
