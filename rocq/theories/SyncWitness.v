(** Examples of synchronization statuses. Coordinates are integers here. *)
From Coq Require Import List ZArith Bool Lia.
From Verif Require Import Sync SyncSpec SyncProofs.
Import ListNotations.
Open Scope Z_scope.

(** A triangle is built, everything is built on it, a vertex is moved and a second triangle added. *)
Definition story : list (op Z) :=
  [AddVertex 5 10; AddVertex 7 20; AddVertex 9 30; AddCell 3 [5; 7; 9]; BuildSkdTree; BuildKdTree; UpdateInterfaces;
   BuildPointConnectivity; ModifyVertex 7 25; AddVertex 2 40; AddCell 8 [5; 9; 2]].
Definition story_end : geo Z * obj Z := Eval vm_compute in match run story (construct 1) with Some s => s | None => construct 1 end.
Definition told : geo Z * obj Z := Eval vm_compute in match run (story ++ [Update]) (construct 1) with Some s => s | None => construct 1 end.

Lemma run_history : forall ops s s', Forall (fun a => forall g, legal a g) ops -> run ops s = Some s' -> @history Z ops s s'.
Proof.
  induction ops as [|a ops IH]; intros s s' L R; cbn in R |- *; [congruence|].
  inversion L as [|? ? La Ll]; subst. split; [apply La|]. destruct (step a s) as [s1|] eqn:E; [|discriminate]. exists s1. split; [reflexivity|]. apply IH; assumption.
Qed.

Lemma story_history : history story (construct 1) story_end.
Proof. apply run_history; [repeat constructor|vm_compute; reflexivity]. Qed.
Lemma told_history : history (story ++ [Update]) (construct 1) told.
Proof. apply run_history; [repeat constructor|vm_compute; reflexivity]. Qed.

(** Two triangles glued at an edge, in a built geometry. *)
Definition other : geo Z * obj Z := Eval vm_compute in match run [AddVertex 0 1; AddVertex 1 2; AddVertex 2 3; AddCell 0 [0; 1; 2]; BuildPatchInfo; BuildPointConnectivity] (construct 1) with
  | Some s => s | None => construct 1 end.
Lemma other_history : history [AddVertex 0 1; AddVertex 1 2; AddVertex 2 3; AddCell 0 [0; 1; 2]; BuildPatchInfo; BuildPointConnectivity] (construct 1) other.
Proof. apply run_history; [repeat constructor|vm_compute; reflexivity]. Qed.

(** The patch is emptied and a cell is added afterwards. *)
Definition refill : list (op Z) := [ResetPatch; AddVertex 0 1; AddVertex 1 2; AddVertex 2 3; AddCell 0 [0; 1; 2]; Update].
Definition refilled : geo Z * obj Z := Eval vm_compute in match run refill (construct 1) with Some s => s | None => construct 1 end.
Lemma refill_history : history refill (construct 1) refilled.
Proof. apply run_history; [repeat constructor|vm_compute; reflexivity]. Qed.
