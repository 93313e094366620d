(** C90: parts of a mesh and closed meshes. *)
From Coq Require Import List Arith Bool Lia Permutation.
From Verif Require Import Obj Select Topo TopoSpec TriProofs TopoProofs.
Import ListNotations.

(** The parts of a mesh that is not empty are its cells sorted by connection through faces: each cell
    is in one part, once, and two cells are in the same part when a chain of cells that share a face
    leads from one to the other.  Any order of the neighbours and any number of cells on a face. *)
Theorem C90_parts : forall m adj, NoDup (map fst m) -> adjacent_right m adj -> m <> [] ->
  exists parts, decomposeLoop adj (map fst m) = Some parts /\ Permutation (concat parts) (map fst m) /\
  forall p, In p parts -> p <> [] /\ forall x y, In x p -> (In y p <-> linked m x y).
Proof.
  intros m adj N A Ne. destruct (decompose_ok m adj N A (S (length (map fst m))) [] []) as (parts & E & P & F).
  - cbn [length]. lia.
  - destruct m; [contradiction|cbn; lia].
  - constructor.
  - intros x. reflexivity.
  - constructor.
  - intros x [].
  - intros a b [].
  - constructor.
  - exists parts. split; [exact E|]. split; [exact P|]. intros p Hp. rewrite Forall_forall in F. destruct (F p Hp) as (s & Hs & L). split.
    + intros ->. destruct Hs.
    + intros x y Hx. apply L in Hx. rewrite L. split; intros H.
      * apply (linked_trans m x s y); [apply linked_sym, Hx|exact H].
      * apply (linked_trans m s x y); [exact Hx|exact H].
Qed.
Print Assumptions C90_parts.

(** A mesh is one part exactly when all its cells are connected. *)
Theorem C90_one : forall m adj, NoDup (map fst m) -> adjacent_right m adj -> m <> [] ->
  ((exists p, decomposeLoop adj (map fst m) = Some [p]) <-> forall x y, In x (map fst m) -> In y (map fst m) -> linked m x y).
Proof.
  intros m adj N A Ne. destruct (C90_parts m adj N A Ne) as (parts & E & P & F). rewrite E. split.
  - intros (p & Q). injection Q as ->. cbn [concat] in P. rewrite app_nil_r in P. intros x y Hx Hy.
    apply (proj2 (F p (or_introl eq_refl)) x y); apply (Permutation_in _ (Permutation_sym P)); assumption.
  - intros L. destruct parts as [|p [|q r]].
    + exfalso. cbn in P. apply Permutation_nil in P. destruct m; [contradiction|discriminate].
    + exists p. reflexivity.
    + exfalso. destruct (F p (or_introl eq_refl)) as (Np & Lp). destruct (F q (or_intror (or_introl eq_refl))) as (Nq & _).
      destruct p as [|x p]; [contradiction|]. destruct q as [|y q]; [contradiction|].
      assert (Hy : In y (x :: p)).
      { apply (Lp x y (or_introl eq_refl)). apply L; apply (Permutation_in _ P); cbn [concat]; [left; reflexivity|].
        apply in_app_iff. right. left. reflexivity. }
      assert (D : NoDup ((x :: p) ++ (y :: q) ++ concat r)) by (apply (Permutation_NoDup (Permutation_sym P)), N).
      assert (G : forall l1 l2 : list nat, NoDup (l1 ++ l2) -> In y l1 -> In y l2 -> False).
      { clear. induction l1 as [|u l IH]; cbn; intros l2 H H1 H2; [exact H1|]. inversion H as [|v w Hv Hw Q]. destruct H1 as [-> | H1]; [apply Hv, in_app_iff; right; exact H2|apply (IH l2 Hw H1 H2)]. }
      apply (G _ _ D Hy). left. reflexivity.
Qed.
Print Assumptions C90_one.

(** On a mesh without cells the call does not return an empty list: it throws. *)
Theorem C90_empty_refuted : exists adj, adjacent_right [] adj /\ decomposeLoop adj [] = None.
Proof. exists (fun _ => []). split; [intros c fs []|reflexivity]. Qed.
Print Assumptions C90_empty_refuted.

(** The mesh is closed exactly when it has no free face. *)
Theorem C90_closed : forall m adj, NoDup (map fst m) -> adjacent_right m adj -> (isClosedLoop adj (map fst m) = true <-> watertight m).
Proof.
  intros m adj N A. unfold isClosedLoop. rewrite forallb_forall. split.
  - intros H c f ((fs & Hc & Hf) & Hn). pose proof (H c (in_map fst m (c, fs) Hc)) as B. rewrite forallb_forall in B.
    destruct (face_adj m adj A c fs f Hc Hf) as (ns & Hns & E). specialize (B ns Hns). unfold border in B. destruct ns as [|n ns]; [discriminate|].
    apply (Hn n), E. left. reflexivity.
  - intros W c Hc. apply forallb_forall. intros ns Hns. destruct (known_faces m c Hc) as (fs & Hfs).
    destruct (adj_in m adj A c fs ns Hfs Hns) as (f & Hf & E). destruct ns as [|n ns]; [|reflexivity]. exfalso. apply (W c f). split; [exists fs; split; assumption|].
    intros n Hn. apply E in Hn. destruct Hn.
Qed.
Print Assumptions C90_closed.

(** Three lines from a point, and a line away from them; the point is shared by three cells. *)
Definition star : mesh := [(4, [[0]; [1]]); (7, [[0]; [2]]); (2, [[3]; [0]]); (9, [[8]; [5]])].
Definition star_adj (c : nat) : list (list nat) :=
  match c with 4 => [[7; 2]; []] | 7 => [[2; 4]; []] | 2 => [[]; [4; 7]] | _ => [[]; []] end.
Lemma star_right : NoDup (map fst star) /\ adjacent_right star star_adj.
Proof.
  split; [repeat constructor; cbn; intuition lia|]. intros c fs H.
  assert (Go : forall c f n, across star c f n <-> n <> c /\ ((same f [0] /\ (n = 4 \/ n = 7 \/ n = 2)) \/ (same f [1] /\ n = 4) \/ (same f [2] /\ n = 7) \/ (same f [3] /\ n = 2) \/ ((same f [8] \/ same f [5]) /\ n = 9))).
  { intros c' f n. unfold across, has_face. split.
    - intros (Ne & h & (fs' & Hm & Hh) & S0). split; [exact Ne|]. cbn in Hm.
      destruct Hm as [Q|[Q|[Q|[Q|[]]]]]; injection Q as <- <-; cbn in Hh; destruct Hh as [<- | [<- | []]]; tauto.
    - intros (Ne & [(S0 & [-> | [-> | ->]])|[(S0 & ->)|[(S0 & ->)|[(S0 & ->)|([S0|S0] & ->)]]]]); (split; [exact Ne|]).
      + exists [0]. split; [|exact S0]. exists [[0]; [1]]. cbn. tauto.
      + exists [0]. split; [|exact S0]. exists [[0]; [2]]. cbn. tauto.
      + exists [0]. split; [|exact S0]. exists [[3]; [0]]. cbn. tauto.
      + exists [1]. split; [|exact S0]. exists [[0]; [1]]. cbn. tauto.
      + exists [2]. split; [|exact S0]. exists [[0]; [2]]. cbn. tauto.
      + exists [3]. split; [|exact S0]. exists [[3]; [0]]. cbn. tauto.
      + exists [8]. split; [|exact S0]. exists [[8]; [5]]. cbn. tauto.
      + exists [5]. split; [|exact S0]. exists [[8]; [5]]. cbn. tauto. }
  assert (One : forall a b, same [a] [b] <-> a = b).
  { intros a b. split; [|intros ->; intros v; reflexivity]. intros Q. destruct (proj1 (Q a) (or_introl eq_refl)) as [->|[]]. reflexivity. }
  cbn in H. destruct H as [Q|[Q|[Q|[Q|[]]]]]; injection Q as <- <-; cbn [star_adj]; (constructor; [|constructor; [|constructor]]);
    intros n; rewrite Go, !One; cbn [In]; lia.
Qed.
Example C90_nonvacuous :
  NoDup (map fst star) /\ adjacent_right star star_adj /\ decomposeLoop star_adj (map fst star) = Some [[4; 7; 2]; [9]] /\
  linked star 7 2 /\ ~ linked star 7 9 /\ isClosedLoop star_adj (map fst star) = false.
Proof.
  destruct star_right as (N & A). split; [exact N|]. split; [exact A|]. split; [reflexivity|].
  destruct (C90_parts star star_adj N A ltac:(discriminate)) as (parts & E & _ & F).
  assert (V : decomposeLoop star_adj (map fst star) = Some [[4; 7; 2]; [9]]) by reflexivity. rewrite V in E. injection E as <-.
  pose proof (proj2 (F [4; 7; 2] (or_introl eq_refl)) 7) as L. split; [apply L; cbn; tauto|]. split; [|reflexivity].
  intros H. apply L in H; [|right; left; reflexivity]. cbn in H. lia.
Qed.
