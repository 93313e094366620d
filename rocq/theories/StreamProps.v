(** Property theorems C14-C16 and C42 (statements only; proofs in StreamProofs.v). *)
From Coq Require Import List NArith Bool Arith.
From Verif Require Import Stream StreamSpec StreamProofs StreamWitness.
Import ListNotations.

(** C14: at each execution of a history every receiver gets the value sent at that time, for
    every port type of the library, whatever bytes the buffer held and however it grows. *)
Theorem C14_pin_delivery :
  forall t, In t port_types -> forall (h : list (sending t)) (vs : list (den t)) (buf : list N),
  Forall2 (fun x v => value_sent (s_src x) = Some v /\ valid t v) h vs ->
  port_history t h buf
  = Some (map (fun xv => map (fun r => (r, snd xv)) (receivers (s_links (fst xv)))) (combine h vs)).
Proof. exact (fun t H => port_history_ok t (proj1 (forallb_forall _ _) port_types_ok t H)). Qed.
Print Assumptions C14_pin_delivery.

(** The same for user ports of any other type without maps inside maps. *)
Theorem C14_pin_delivery_user_types :
  forall t, no_map_in_map t = true -> forall (h : list (sending t)) (vs : list (den t)) (buf : list N),
  Forall2 (fun x v => value_sent (s_src x) = Some v /\ valid t v) h vs ->
  port_history t h buf
  = Some (map (fun xv => map (fun r => (r, snd xv)) (receivers (s_links (fst xv)))) (combine h vs)).
Proof. exact port_history_ok. Qed.
Print Assumptions C14_pin_delivery_user_types.

Example C14_nonvacuous :
  Forall2 (fun x v => value_sent (s_src x) = Some v /\ valid (TVec (TNum 2)) v) vec_sends
          [[1; 2; 3]%N; [300]%N] /\
  port_history (TVec (TNum 2)) vec_sends [77; 77; 77]%N
  = Some [ [(4%nat, 0%nat, [1; 2; 3]%N); (5%nat, 1%nat, [1; 2; 3]%N)]; [(5%nat, 1%nat, [300]%N)] ].
Proof.
  split; [|exact vec_history].
  repeat constructor; vm_compute; reflexivity.
Qed.

(** C15: the full statement (every type, every value, read back equal with the position right
    after) is false: maps inside maps, and maps inside pierced vectors. *)
Theorem C15_round_trip_refuted :
  exists t v, valid t v /\ exists x, read t (dflt t) (write t v) = Some (x, []) /\ x <> v.
Proof. exact nested_wrong. Qed.
Print Assumptions C15_round_trip_refuted.

Theorem C15_round_trip_partial :
  forall t, no_map_in_map t = true -> forall v, valid t v ->
  forall rest, read t (dflt t) (write t v ++ rest) = Some (v, rest).
Proof. exact (fun t O v V => proj1 (read_write t O v V)). Qed.
Print Assumptions C15_round_trip_partial.

(** For the types without a map reachable through vectors and arrays, also when the destination
    is not fresh. *)
Theorem C15_round_trip_any_destination_partial :
  forall t, no_map_in_map t = true -> no_map_outside_pairs t = true -> forall v, valid t v ->
  forall d rest, read t d (write t v ++ rest) = Some (v, rest).
Proof. exact (fun t O F v V => proj2 (read_write t O v V) F). Qed.
Print Assumptions C15_round_trip_any_destination_partial.

(** vector< map<string, pair<FileDataInfo, pierced vector of array<double,3>>> > is covered. *)
Example C15_nonvacuous :
  no_map_in_map (TVec (TMap TStr (TPair TFile (TField (TArr 3 (TNum 8)))))) = true /\
  exists v, valid (TVec (TMap TStr (TPair TFile (TField (TArr 3 (TNum 8)))))) v /\
            v = [[([104; 105]%N, ({| ftype := 7; fdir := [46]%N; fname := [] |},
                  {| f_geo := (1, 2)%N; f_name := data_name; f_loc := 1;
                     f_data := [(3, [1; 2; 3])]%N |}))]; []].
Proof.
  split; [reflexivity|]. eexists. split; [|reflexivity].
  cbn. unfold chars_ok, size_ok, fits. cbn.
  repeat split; repeat constructor; simpl; intuition discriminate.
Qed.

(** C16: refuted; the old entries stay.  What holds: the written entries win, the others stay,
    so the destination is replaced exactly when it was empty (or held no other key). *)
Theorem C16_map_replaced_refuted :
  exists k v, exists m old : den (TMap k v),
  valid (TMap k v) m /\ valid (TMap k v) old /\
  exists x, read (TMap k v) old (write (TMap k v) m) = Some (x, []) /\
  exists key val, value_of (den_dec k) key m = None /\ value_of (den_dec k) key x = Some val.
Proof. exact map_not_replaced. Qed.
Print Assumptions C16_map_replaced_refuted.

Theorem C16_map_merged_partial :
  forall k v, no_map_in_map (TMap k v) = true ->
  forall (m old : den (TMap k v)) rest, valid (TMap k v) m -> NoDup (map fst old) ->
  exists r, read (TMap k v) old (write (TMap k v) m ++ rest) = Some (r, rest) /\
    NoDup (map fst r) /\
    forall x, value_of (den_dec k) x r =
      match value_of (den_dec k) x m with Some y => Some y | None => value_of (den_dec k) x old end.
Proof. exact read_map_merges. Qed.
Print Assumptions C16_map_merged_partial.

Theorem C16_map_replaced_if_empty_partial :
  forall k v, no_map_in_map (TMap k v) = true ->
  forall (m : den (TMap k v)) rest, valid (TMap k v) m ->
  read (TMap k v) [] (write (TMap k v) m ++ rest) = Some (m, rest).
Proof. exact read_map_empty. Qed.
Print Assumptions C16_map_replaced_if_empty_partial.

Example C16_nonvacuous : no_map_in_map t_map = true /\ valid t_map map1 /\
  read t_map map_old (write t_map map1) = Some ([(7, 70); (1, 10)]%N, []).
Proof. split; [reflexivity|]. split; [exact map1_valid|exact map_keeps_old]. Qed.

(** C42: no strict prefix of a written value is ever read as a value. *)
Theorem C42_truncated_message_fails :
  forall t, no_map_in_map t = true -> forall v, valid t v ->
  forall p q, write t v = p ++ q -> q <> [] -> read t (dflt t) p = None.
Proof. exact truncated_fails. Qed.
Print Assumptions C42_truncated_message_fails.

Example C42_nonvacuous : write TStr [65; 66]%N = [2; 0; 0; 0; 0; 0; 0; 0; 65]%N ++ [66]%N.
Proof. reflexivity. Qed.
