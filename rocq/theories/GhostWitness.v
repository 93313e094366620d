(** A geometry of three points on a line of cells, shared by two processes. *)
From Coq Require Import List ZArith Bool Lia.
From Verif Require Import Ghost GhostSpec.
Import ListNotations.
Open Scope Z_scope.

(** Rank 0 has the points 1, 2 and a copy of 3; rank 1 the points 3, 4 and a copy of 2.  Rank 0
    also sends its copy of 3, of which it does not know the number. *)
Definition w2 : list part :=
  [ {| p_verts := [10; 20; 30]; p_interior := fun v => v <? 25; p_sources := [(1%nat, [20; 30])]; p_targets := [(1%nat, [30])] |};
    {| p_verts := [7; 8; 9]; p_interior := fun v => 7 <? v; p_sources := [(0%nat, [8])]; p_targets := [(0%nat, [7; 8])] |} ].

Definition point2 (r : nat) (v : Z) : Z := match r with O => v / 10 | _ => v - 5 end.

Lemma vertex2 : forall r v, vertex_of w2 r v -> (r = 0%nat /\ (v = 10 \/ v = 20 \/ v = 30)) \/ (r = 1%nat /\ (v = 7 \/ v = 8 \/ v = 9)).
Proof.
  intros [|[|r]] v [p [E I]]; cbn in E; try (injection E as <-; cbn in I).
  - left. split; [reflexivity|]. destruct I as [<-|[<-|[<-|[]]]]; auto.
  - right. split; [reflexivity|]. destruct I as [<-|[<-|[<-|[]]]]; auto.
  - destruct r; discriminate.
Qed.

Lemma interior2 : forall r v, interior_of w2 r v <-> (r = 0%nat /\ (v = 10 \/ v = 20)) \/ (r = 1%nat /\ (v = 8 \/ v = 9)).
Proof.
  intros r v. split.
  - intros [p [E [I F]]]. assert (vertex_of w2 r v) as V by (exists p; split; assumption). apply vertex2 in V.
    destruct V as [[-> V]|[-> V]]; cbn in E; injection E as <-; cbn in F; destruct V as [->|[->| ->]]; cbn in F; try discriminate; tauto.
  - intros [[-> [-> | ->]]|[-> [-> | ->]]]; eexists; (split; [reflexivity|]); cbn; auto.
Qed.

Lemma sends2 : forall r s l, sends w2 r s l -> (r = 0%nat /\ s = 1%nat /\ l = [20; 30]) \/ (r = 1%nat /\ s = 0%nat /\ l = [8]).
Proof.
  intros [|[|r]] s l [p [E F]]; cbn in E; try (injection E as <-; cbn in F).
  - destruct s as [|[|s]]; cbn in F; try discriminate. injection F as <-. left. auto.
  - destruct s as [|s]; cbn in F; try discriminate. injection F as <-. right. auto.
  - destruct r; discriminate.
Qed.

Lemma expects2 : forall r s l, expects w2 r s l -> (r = 0%nat /\ s = 1%nat /\ l = [30]) \/ (r = 1%nat /\ s = 0%nat /\ l = [7; 8]).
Proof.
  intros [|[|r]] s l [p [E F]]; cbn in E; try (injection E as <-; cbn in F).
  - destruct s as [|[|s]]; cbn in F; try discriminate. injection F as <-. left. auto.
  - destruct s as [|s]; cbn in F; try discriminate. injection F as <-. right. auto.
  - destruct r; discriminate.
Qed.

Lemma vtx : forall r v, In (r, v) [(0%nat, 10); (0%nat, 20); (0%nat, 30); (1%nat, 7); (1%nat, 8); (1%nat, 9)] -> vertex_of w2 r v.
Proof.
  intros r v H. cbn in H. repeat (destruct H as [H|H]; [injection H as <- <-; eexists; split; [reflexivity|cbn; auto]|]). contradiction.
Qed.

Lemma partitioned2 : partitioned w2 point2.
Proof.
  constructor.
  - intros [|[|r]] p E; cbn in E; try (injection E as <-; cbn).
    + repeat constructor; cbn; intros H; intuition lia.
    + repeat constructor; cbn; intros H; intuition lia.
    + destruct r; discriminate.
  - intros r v u V U. apply vertex2 in V. apply vertex2 in U.
    destruct V as [[-> V]|[-> V]]; destruct U as [[X U]|[X U]]; try discriminate; destruct V as [->|[->| ->]]; destruct U as [->|[->| ->]];
      cbn; intros H; try reflexivity; vm_compute in H; discriminate.
  - intros r v V. apply vertex2 in V. destruct V as [[-> [->|[->| ->]]]|[-> [->|[->| ->]]]].
    + exists 0%nat, 10. split; [apply interior2; auto|reflexivity].
    + exists 0%nat, 20. split; [apply interior2; auto|reflexivity].
    + exists 1%nat, 8. split; [apply interior2; auto|reflexivity].
    + exists 0%nat, 20. split; [apply interior2; auto|reflexivity].
    + exists 1%nat, 8. split; [apply interior2; auto|reflexivity].
    + exists 1%nat, 9. split; [apply interior2; auto|reflexivity].
  - intros r v o u A B. apply interior2 in A. apply interior2 in B.
    destruct A as [[-> [->| ->]]|[-> [->| ->]]]; destruct B as [[-> [->| ->]]|[-> [->| ->]]]; intros H; try reflexivity; vm_compute in H; discriminate.
  - intros r s l S. apply sends2 in S. destruct S as [[-> [-> ->]]|[-> [-> ->]]].
    + exists [7; 8]. split; [eexists; split; reflexivity|]. split; [reflexivity|].
      intros [|[|i]] a b A B; cbn in A, B; try (destruct i; discriminate); injection A as <-; injection B as <-.
      * split; [apply vtx; cbn; auto|]. split; [apply vtx; cbn; auto|reflexivity].
      * split; [apply vtx; cbn; auto|]. split; [apply vtx; cbn; auto 10|reflexivity].
    + exists [30]. split; [eexists; split; reflexivity|]. split; [reflexivity|].
      intros [|i] a b A B; cbn in A, B; try (destruct i; discriminate); injection A as <-; injection B as <-.
      split; [apply vtx; cbn; auto 10|]. split; [apply vtx; cbn; auto|reflexivity].
  - intros s r l X. apply expects2 in X. destruct X as [[-> [-> ->]]|[-> [-> ->]]]; eexists; eexists; split; reflexivity.
  - intros s v o u V N I H. apply vertex2 in V. apply interior2 in I. rewrite interior2 in N.
    destruct V as [[-> [->|[->| ->]]]|[-> [->|[->| ->]]]]; try (exfalso; apply N; tauto);
      destruct I as [[-> [->| ->]]|[-> [->| ->]]]; vm_compute in H; try discriminate.
    + exists [30]. split; [eexists; split; reflexivity|cbn; auto].
    + exists [7; 8]. split; [eexists; split; reflexivity|cbn; auto].
Qed.

Lemma arrive2 : arrive w2 0 [1%nat] /\ arrive w2 1 [0%nat].
Proof.
  split; (split; [repeat constructor; cbn; tauto|]); intros s; split.
  - intros [<-|[]]. eexists; eexists; split; reflexivity.
  - intros [l S]. apply sends2 in S. destruct S as [[-> [? ?]]|[-> [? ?]]]; [discriminate|left; reflexivity].
  - intros [<-|[]]. eexists; eexists; split; reflexivity.
  - intros [l S]. apply sends2 in S. destruct S as [[-> [? ?]]|[-> [? ?]]]; [left; reflexivity|discriminate].
Qed.
