(** Concrete cases for C14-C16 and C42. *)
From Coq Require Import List NArith Bool Lia.
From Verif Require Import Stream StreamSpec StreamProofs.
Import ListNotations.
Open Scope N_scope.

(** std::map<int, std::map<int,int>> *)
Definition t_nested : ty := TMap (TNum 4) (TMap (TNum 4) (TNum 4)).
Definition nested : den t_nested := [(1, [(10, 1)]); (2, [(20, 2)])].

Lemma nested_valid : valid t_nested nested.
Proof.
  cbn. unfold size_ok, fits. simpl.
  repeat split; repeat constructor; simpl; intuition (try lia; try discriminate).
Qed.

(** The second inner map gets the entry of the first one. *)
Lemma nested_read :
  read t_nested (dflt t_nested) (write t_nested nested)
  = Some ([(1, [(10, 1)]); (2, [(10, 1); (20, 2)])], []).
Proof. vm_compute. reflexivity. Qed.

Lemma nested_wrong : exists t v, valid t v /\
  exists x, read t (dflt t) (write t v) = Some (x, []) /\ x <> v.
Proof.
  exists t_nested, nested. split; [exact nested_valid|].
  eexists. split; [exact nested_read|]. discriminate.
Qed.

(** A pierced vector of maps has the same defect. *)
Definition t_fieldmap : ty := TField (TMap (TNum 4) (TNum 4)).
Definition fieldmap : den t_fieldmap :=
  {| f_geo := (0, 0); f_name := data_name; f_loc := 1; f_data := [(5, [(1, 1)]); (6, [])] |}.
Lemma fieldmap_read :
  read t_fieldmap (dflt t_fieldmap) (write t_fieldmap fieldmap)
  = Some ({| f_geo := (0, 0); f_name := data_name; f_loc := 1;
             f_data := [(5, [(1, 1)]); (6, [(1, 1)])] |}, []).
Proof. vm_compute. reflexivity. Qed.

Definition t_map := TMap (TNum 8) (TNum 8).
Definition map1 : den t_map := [(1, 10)].
Definition map_old : den t_map := [(7, 70)].
Lemma map1_valid : valid t_map map1.
Proof.
  cbn. unfold size_ok, fits. simpl.
  repeat split; repeat constructor; simpl; intuition (try lia; try discriminate).
Qed.
Lemma map_keeps_old :
  read t_map map_old (write t_map map1) = Some ([(7, 70); (1, 10)], []).
Proof. vm_compute. reflexivity. Qed.

Lemma map_not_replaced : exists k v, exists m old : den (TMap k v),
  valid (TMap k v) m /\ valid (TMap k v) old /\
  exists x, read (TMap k v) old (write (TMap k v) m) = Some (x, []) /\
  exists key val, value_of (den_dec k) key m = None /\ value_of (den_dec k) key x = Some val.
Proof.
  exists (TNum 8), (TNum 8), map1, map_old. split; [exact map1_valid|]. split.
  { cbn. unfold size_ok, fits. simpl. repeat split; repeat constructor; simpl; intuition (try lia; try discriminate). }
  eexists. split; [exact map_keeps_old|]. exists 7, 70. split; reflexivity.
Qed.

(** A long message followed by a short one through the same port, two receivers and a null link. *)
Definition vec_sends : list (sending (TVec (TNum 2))) :=
  [ @Build_sending (TVec (TNum 2)) [(Some 4%nat, 0%nat); (None, 0%nat); (Some 5%nat, 1%nat)]
      {| getv := Some [1; 2; 3]; var := None |} [9];
    @Build_sending (TVec (TNum 2)) [(Some 5%nat, 1%nat)] {| getv := None; var := Some [300] |} [] ].
Lemma vec_history :
  port_history (TVec (TNum 2)) vec_sends [77; 77; 77]
  = Some [ [(4%nat, 0%nat, [1; 2; 3]); (5%nat, 1%nat, [1; 2; 3])]; [(5%nat, 1%nat, [300])] ].
Proof. vm_compute. reflexivity. Qed.
