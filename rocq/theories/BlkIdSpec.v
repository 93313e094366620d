(** What a user expects of the life of blocks, without the operations of the
    model. *)

From Coq Require Import ZArith String List.
From Verif Require Import BlkId.
Import ListNotations.
Local Open Scope Z_scope.

(** [b] is alive under the handle [h]. *)
Definition alive (w : world) (h : Z) (b : blk) : Prop :=
  In (h, b) (w_blks w).

(** The user never forces an identity. *)
Definition no_set_id (os : list op) : Prop :=
  forall h i, ~ In (OSetId h i) os.

(** Different blocks have different identities. *)
Definition ids_distinct (w : world) : Prop :=
  forall h k b c, alive w h b -> alive w k c -> b_id b = b_id c -> h = k.

(** Different blocks have different communicators. *)
Definition comms_distinct (w : world) : Prop :=
  forall h k b c, alive w h b -> alive w k c -> b_comm b = b_comm c -> h = k.

(** Operations duplicating a communicator. *)
Definition duplicates (o : op) : bool :=
  match o with
  | ONew _ => true
  | OCopy _ _ => true
  | OAssign _ _ => true
  | _ => false
  end.

(** Operations making a block. *)
Definition makes (o : op) : bool :=
  match o with
  | ONew _ => true
  | OCopy _ _ => true
  | _ => false
  end.

(** The last name asked for before the first block is made, or the default
    one. *)
Fixpoint asked_file (d : string) (os : list op) : string :=
  match os with
  | [] => d
  | ONew _ :: _ => d
  | OLogger s :: r => asked_file s r
  | _ :: r => asked_file d r
  end.

Fixpoint asked_dir (d : string) (os : list op) : string :=
  match os with
  | [] => d
  | ONew _ :: _ => d
  | OLogdir s :: r => asked_dir s r
  | _ :: r => asked_dir d r
  end.
