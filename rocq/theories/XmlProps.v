(** Property theorems C17 (statements only; proofs in XmlProofs.v and XmlWitness.v). *)
From Coq Require Import List Arith Bool Permutation.
From Verif Require Import Chain Pins PinsSpec PinsProofs PinsWitness Xml XmlSpec XmlProofs XmlWitness.
Import ListNotations.

(** C17: whatever the order in which the sections are visited, the restored pins are those that
    were written: same links on every output and input port and same parent/child tables. *)
Theorem C17_connections_restored :
  forall names registered w w0 l,
  good_names names -> well_formed w -> graph_ok w -> pins_are_named names registered w ->
  no_pins_yet w0 ->
  (forall a s b r, In (b, r) (out_links w a s) -> connectable w0 a s b r) ->
  Permutation l (flush names w) ->
  exists w', absorb names registered w0 true l = AbsDone w' true /\
    (forall x p, Permutation (out_links w' x p) (out_links w x p)) /\
    (forall x p, Permutation (in_links w' x p) (in_links w x p)) /\
    (forall a b, chi_mult w' a b = chi_mult w a b) /\ (forall a b, par_mult w' b a = par_mult w b a).
Proof. exact restore_any_order. Qed.
Print Assumptions C17_connections_restored.

(** C17, through a file: the sections are read in the order of their titles. *)
Theorem C17_file_round_trip :
  forall names registered w w0,
  good_names names -> well_formed w -> graph_ok w -> pins_are_named names registered w ->
  no_pins_yet w0 ->
  (forall a s b r, In (b, r) (out_links w a s) -> connectable w0 a s b r) ->
  exists w', absorb names registered w0 true (visit_order (flush names w)) = AbsDone w' true /\
    (forall x p, Permutation (out_links w' x p) (out_links w x p)) /\
    (forall x p, Permutation (in_links w' x p) (in_links w x p)) /\
    (forall a b, chi_mult w' a b = chi_mult w a b) /\ (forall a b, par_mult w' b a = par_mult w b a).
Proof. exact restore_file. Qed.
Print Assumptions C17_file_round_trip.

(** A section with an unknown block or port, or with a missing option, changes nothing: the
    sections before and after it are read as if it were not there. *)
Theorem C17_bad_section_skipped : forall names registered c l2 l1 w ok,
  (forall n m s r, c_snd c = Some n -> c_rcv c = Some m -> c_sp c = Some s -> c_rp c = Some r ->
     ~ In n (map fst names) \/ ~ In m (map fst names) \/ registered s = false \/ registered r = false) ->
  absorb names registered w ok (l1 ++ c :: l2) = absorb names registered w ok (l1 ++ l2).
Proof. exact absorb_skips. Qed.
Print Assumptions C17_bad_section_skipped.

(** "In the same order on each port" is false: section titles are visited as strings. *)
Theorem C17_order_refuted : exists names registered w w0 w',
  good_names names /\ well_formed w /\ graph_ok w /\ pins_are_named names registered w /\
  no_pins_yet w0 /\ (forall a s b r, In (b, r) (out_links w a s) -> connectable w0 a s b r) /\
  absorb names registered w0 true (visit_order (flush names w)) = AbsDone w' true /\
  exists a s, out_links w' a s <> out_links w a s.
Proof. exact order_lost. Qed.
Print Assumptions C17_order_refuted.

(** The order on the output ports is kept when the sections are visited as they were created. *)
Theorem C17_order_partial : forall names registered w w0,
  good_names names -> well_formed w -> graph_ok w -> pins_are_named names registered w ->
  no_pins_yet w0 ->
  (forall a s b r, In (b, r) (out_links w a s) -> connectable w0 a s b r) ->
  exists w', absorb names registered w0 true (flush names w) = AbsDone w' true /\
    (forall x p, out_links w' x p = out_links w x p).
Proof. exact restore_in_order. Qed.
Print Assumptions C17_order_partial.

(** Any file: the old pins stay first, and every new pin is the one named by a section whose
    blocks and ports exist, are registered and are compatible. *)
Theorem C17_no_wrong_pin : forall names registered l w ok w' ok', lazy_ok w ->
  absorb names registered w ok l = AbsDone w' ok' ->
  (forall a s, exists new, out_links w' a s = out_links w a s ++ new /\
     forall b r, In (b, r) new -> exists c n m, In c l /\
       c_snd c = Some n /\ lookup n names = Some a /\ c_rcv c = Some m /\ lookup m names = Some b /\
       c_sp c = Some s /\ c_rp c = Some r /\ registered s = true /\ registered r = true /\
       connectable w a s b r).
Proof. exact absorb_sound. Qed.
Print Assumptions C17_no_wrong_pin.

Example C17_nonvacuous :
  (good_names fan_names /\ well_formed (after fan) /\ graph_ok (after fan) /\
   pins_are_named fan_names all_registered (after fan) /\ no_pins_yet fresh /\
   (forall a s b r, In (b, r) (out_links (after fan) a s) -> connectable fresh a s b r) /\
   Permutation (visit_order (flush fan_names (after fan))) (flush fan_names (after fan))) /\
  lazy_ok fresh.
Proof.
  split; [|exact (proj1 (no_pins_inv _ fresh_ok))].
  split; [exact fan_good|]. split; [apply fan_ok|]. split; [apply fan_ok|]. split; [exact fan_named|].
  split; [exact fresh_ok|]. split; [exact fan_connectable|]. apply visit_perm.
Qed.
