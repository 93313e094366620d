(** C177: copy and comparison of ports. *)

From Coq Require Import ZArith String List Bool Lia.
From Verif Require Import PortEq PortEqSpec.
Import ListNotations.
Open Scope list_scope.
Local Open Scope Z_scope.

Lemma vec_eq_iff : forall (A : Type) (e : A -> A -> bool),
  (forall x y, e x y = true <-> x = y) ->
  forall l m, vec_eq e l m = true <-> l = m.
Proof.
  intros A e E. induction l as [|x r IH]; intros [|y s]; simpl;
    try (split; [discriminate|discriminate]); [tauto|].
  rewrite andb_true_iff, E, IH. split; [intros [-> ->]; reflexivity|].
  intros H. inversion H. auto.
Qed.

Lemma tag_eq_iff : forall a b, tag_eq a b = true <->
  t_con a = t_con b /\ t_data a = t_data b.
Proof.
  intros a b. unfold tag_eq. cbn [andb].
  rewrite andb_true_iff, !String.eqb_eq. tauto.
Qed.

(** Two output ports compare equal exactly when they have the same links and
    the same type of data. *)
Theorem C177_out : forall p q, o_eq p q = true <-> same_out p q.
Proof.
  intros p q. unfold o_eq, same_out. cbn [andb].
  rewrite !andb_true_iff, tag_eq_iff.
  rewrite (vec_eq_iff _ _ String.eqb_eq), (vec_eq_iff _ _ Z.eqb_eq). tauto.
Qed.
Print Assumptions C177_out.

(** The copy of a port has all that the port has: links, data waiting, type,
    obligation, owner, variable and method. *)
Theorem C177_copies :
  (forall p, o_copy p = p) /\ (forall p, i_copy p = p) /\
  (forall p : typed oport, y_copy o_copy p = p) /\
  (forall p : typed iport, y_copy i_copy p = p).
Proof.
  repeat split.
  - intros [a b c d]; reflexivity.
  - intros [a b c d e]; reflexivity.
  - intros [[a b c d] x y z]; reflexivity.
  - intros [[a b c d e] x y z]; reflexivity.
Qed.
Print Assumptions C177_copies.

(** The ports of blocks compare equal exactly when they belong to the same
    block and use the same variable and the same method. *)
Theorem C177_typed : forall (P : Type) (p q : typed P), y_eq p q = true <->
  (y_obj p = y_obj q /\ y_var p = y_var q /\ y_fun p = y_fun q).
Proof.
  intros P p q. unfold y_eq. cbn [andb].
  rewrite !andb_true_iff, !Z.eqb_eq. tauto.
Qed.
Print Assumptions C177_typed.

(** What the comparison of two input ports really says: same links and same
    type of data, the second port being mandatory and of a family which is
    not 0.  The obligation of the first does not count. *)
Theorem C177_in : forall p q, fst (i_eq p q) = true <->
  (i_objs p = i_objs q /\ t_con (i_tag p) = t_con (i_tag q) /\
   t_data (i_tag p) = t_data (i_tag q) /\
   i_mand q = true /\ i_family q <> 0).
Proof.
  intros p q. unfold i_eq. cbn [fst andb].
  rewrite !andb_true_iff, negb_true_iff, Z.eqb_neq, tag_eq_iff.
  rewrite (vec_eq_iff _ _ Z.eqb_eq). tauto.
Qed.
Print Assumptions C177_in.

(** Links, data waiting and type of the first port never change; and a port of
    other links or other type leaves the first port as it was. *)
Theorem C177_in_left : forall p q,
  i_objs (snd (i_eq p q)) = i_objs p /\
  i_buffer (snd (i_eq p q)) = i_buffer p /\
  i_tag (snd (i_eq p q)) = i_tag p /\
  (i_objs p <> i_objs q \/ t_con (i_tag p) <> t_con (i_tag q) \/
   t_data (i_tag p) <> t_data (i_tag q) -> snd (i_eq p q) = p) /\
  (i_mand p = i_mand q -> i_family p = i_family q -> snd (i_eq p q) = p).
Proof.
  intros p q. unfold i_eq. cbn [snd andb].
  destruct (vec_eq Z.eqb (i_objs p) (i_objs q) && tag_eq (i_tag p) (i_tag q))
    eqn:E; cbn [andb].
  - apply andb_true_iff in E. destruct E as [E1 E2].
    apply (vec_eq_iff _ _ Z.eqb_eq) in E1. apply tag_eq_iff in E2.
    destruct (i_mand q) eqn:M; cbn [i_objs i_buffer i_tag i_mand];
      (repeat split; [tauto|]); intros F G; destruct p; cbn in *; congruence.
  - repeat split; reflexivity.
Qed.
Print Assumptions C177_in_left.

(** A port as they are by default, neither mandatory nor in a family, is not
    equal to itself. *)
Theorem C177_reflexive_refuted :
  ~ (forall p q, same_in p q -> fst (i_eq p q) = true).
Proof.
  intros X.
  specialize (X (IPort [3] [] false 0 (Tag "MC_SCALAR" "MD_FLOAT"))
                (IPort [3] [] false 0 (Tag "MC_SCALAR" "MD_FLOAT"))).
  assert (Y : same_in (IPort [3] [] false 0 (Tag "MC_SCALAR" "MD_FLOAT"))
                (IPort [3] [] false 0 (Tag "MC_SCALAR" "MD_FLOAT")))
    by (unfold same_in; cbn; tauto).
  specialize (X Y). discriminate X.
Qed.
Print Assumptions C177_reflexive_refuted.

(** An optional port is equal to a mandatory one. *)
Theorem C177_sound_refuted :
  ~ (forall p q, fst (i_eq p q) = true -> same_in p q).
Proof.
  intros X.
  destruct (X (IPort [3] [] false 0 (Tag "MC_SCALAR" "MD_FLOAT"))
              (IPort [3] [] true 2 (Tag "MC_SCALAR" "MD_FLOAT")) eq_refl)
    as (_ & _ & _ & Y & _).
  discriminate Y.
Qed.
Print Assumptions C177_sound_refuted.

(** Comparing changes the first port: a mandatory port compared with an
    optional one is no longer mandatory, so that a chain no longer refuses to
    run without it. *)
Theorem C177_unchanged_refuted :
  ~ (forall p q, snd (i_eq p q) = p).
Proof.
  intros X.
  specialize (X (IPort [] [] true 1 (Tag "MC_SCALAR" "MD_FLOAT"))
                (IPort [] [] false 0 (Tag "MC_SCALAR" "MD_FLOAT"))).
  discriminate X.
Qed.
Print Assumptions C177_unchanged_refuted.

Example C177_nonvacuous :
  o_eq (OPort [3; 4] ["a"; "b"] [1] (Tag "V" "F"))%string
       (OPort [3; 4] ["a"; "b"] [] (Tag "V" "F"))%string = true /\
  o_eq (OPort [3; 4] ["a"; "b"] [] (Tag "V" "F"))%string
       (OPort [3; 4] ["b"; "a"] [] (Tag "V" "F"))%string = false /\
  fst (i_eq (IPort [3] [] true 1 (Tag "V" "F"))
            (IPort [3] [] true 1 (Tag "V" "F"))) = true /\
  y_eq (Typed tt 5 0 7) (Typed tt 5 0 8) = false.
Proof. repeat split. Qed.
