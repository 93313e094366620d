(** Properties of the search of the closest cell. *)
From Coq Require Import Reals Lra.
From Coq Require Import List Arith Bool Lia.
From Verif Require Import Vec SkdFind SkdFindSpec SkdFindProofs.
Import ListNotations.
Local Open Scope nat_scope.

(** ** C169: the closest cell of a tree *)
Section C169.
  Variable mind maxd : box -> vec -> R.
  Variable dist : nat -> vec -> R.
  Variable interior : nat -> bool.
  Variable tie : vec -> nat -> nat -> bool.
  Variable big : R.
  Variable p : vec.
  Notation find := (findPointClosestCell mind maxd dist interior tie big p).

  (** when all the cells count, and one is not beyond the largest distance, the closest one is given with its distance *)
  Theorem C169_found : forall t M io,
    right_boxes mind maxd dist p t -> (io = true -> forall c, In c (cells_of t) -> interior c = true) ->
    (exists c, In c (cells_of t) /\ (dist c p <= M)%R) ->
    exists c, find t M io = (Some c, dist c p) /\ closest dist p (cells_of t) (fun _ => true) c.
  Proof.
    intros t M io Ht Hio (c1 & Hc1 & Hd1).
    assert (El : forall c, In c (cells_of t) -> eligible interior io c = true).
    { intros c Hc. unfold eligible. destruct io; cbn; [rewrite (Hio eq_refl c Hc) |]; reflexivity. }
    pose proof (find_ok mind maxd dist interior tie p io big t M Ht) as F.
    destruct (find t M io) as [[c |] d].
    - destruct F as (-> & _ & F3 & F4 & F5). exists c. split; [reflexivity |]. split; [exact F3 |]. split; [reflexivity |].
      intros c' Hc' _. apply F5; auto.
    - exfalso. destruct F as [_ F]. destruct (argmin _ (fun c => dist c p) (cells_of t) c1 Hc1) as (m & Hm & Min).
      specialize (Min c1 Hc1) as M1. destruct (F m Hm (El m Hm)) as [Far | (g & Hg & Near)]; [lra |]. specialize (Min g Hg). lra.
  Qed.

  (** when every cell is beyond the largest distance: no cell, and the largest number *)
  Theorem C169_none : forall t M io, right_boxes mind maxd dist p t ->
    (forall c, In c (cells_of t) -> (M < dist c p)%R) -> find t M io = (None, big).
  Proof.
    intros t M io Ht Far. pose proof (find_ok mind maxd dist interior tie p io big t M Ht) as F.
    destruct (find t M io) as [[c |] d].
    - destruct F as (-> & F2 & F3 & _). specialize (Far c F3). lra.
    - destruct F as [-> _]. reflexivity.
  Qed.

  (** with interiorOnly what is given is an interior cell, within the distance, and no interior cell is nearer *)
  Theorem C169_interior : forall t M c d, right_boxes mind maxd dist p t -> find t M true = (Some c, d) ->
    d = dist c p /\ (d <= M)%R /\ closest dist p (cells_of t) interior c.
  Proof.
    intros t M c d Ht E. pose proof (find_ok mind maxd dist interior tie p true big t M Ht) as F. rewrite E in F.
    destruct F as (F1 & F2 & F3 & F4 & F5).
    assert (El : forall x, eligible interior true x = interior x) by (intros x; unfold eligible; cbn; apply negb_involutive).
    rewrite El in F4. split; [exact F1 |]. split; [exact F2 |]. split; [exact F3 |]. split; [exact F4 |].
    intros c' Hc' Hi. apply F5; [exact Hc' | now rewrite El].
  Qed.

  (** with interiorOnly nothing is given only if each interior cell is too far or some ghost cell is nearer than it *)
  Theorem C169_missed : forall t M d, right_boxes mind maxd dist p t -> find t M true = (None, d) ->
    d = big /\ forall c, In c (cells_of t) -> interior c = true ->
      (M < dist c p)%R \/ exists g, In g (cells_of t) /\ interior g = false /\ (dist g p < dist c p)%R.
  Proof.
    intros t M d Ht E. pose proof (find_ok mind maxd dist interior tie p true big t M Ht) as F. rewrite E in F.
    destruct F as [-> F]. split; [reflexivity |].
    assert (El : forall x, eligible interior true x = interior x) by (intros x; unfold eligible; cbn; apply negb_involutive).
    intros c Hc Hi. destruct (Rlt_dec M (dist c p)) as [Far | Within]; [now left |]. right.
    destruct (argmin _ (fun c => dist c p) (cells_of t) c Hc) as (m & Hm & Min).
    destruct (interior m) eqn:Em.
    - exfalso. assert (Em' : eligible interior true m = true) by now rewrite El.
      specialize (Min c Hc) as Mc. destruct (F m Hm Em') as [Far | (g & Hg & Near)]; [lra |]. specialize (Min g Hg). lra.
    - exists m. split; [exact Hm |]. split; [exact Em |]. assert (Ec : eligible interior true c = true) by now rewrite El.
      destruct (F c Hc Ec) as [Far | (g & Hg & Near)]; [lra |]. specialize (Min g Hg). lra.
  Qed.

  (** the form without a largest distance *)
  Theorem C169_any : forall t io,
    right_boxes mind maxd dist p t -> (io = true -> forall c, In c (cells_of t) -> interior c = true) ->
    (forall c, In c (cells_of t) -> (dist c p <= big)%R) ->
    exists c, findPointClosestCell_any mind maxd dist interior tie big p t io = (Some c, dist c p) /\
              closest dist p (cells_of t) (fun _ => true) c.
  Proof.
    intros t io Ht Hio Hb. unfold findPointClosestCell_any. apply C169_found; auto.
    destruct (some_cell mind maxd dist p t Ht) as [c Hc]. exists c. auto.
  Qed.
End C169.

(** points on a line: a cell is at the distance of its number, a box between two *)
Definition lo_x (b : box) (p : vec) : R := vx (b_lo b).
Definition hi_x (b : box) (p : vec) : R := vx (b_hi b).
Definition at_x (a b : R) : box := Box (V3 a 0%R 0%R) (V3 b 0%R 0%R).
Definition far_of (c : nat) (p : vec) : R := INR c.
Definition two_cells : tree := Fork (at_x 1 5) (Leaf (at_x 1 1) [1]) (Leaf (at_x 5 5) [5]).
Lemma two_cells_right : right_boxes lo_x hi_x far_of vzero two_cells.
Proof.
  unfold two_cells, lo_x, hi_x, far_of, at_x. cbn. split.
  - intros c [[<- | []] | [<- | []]]; cbn; lra.
  - repeat split; try discriminate; destruct H as [<- | []]; cbn; lra.
Qed.

(** with interiorOnly an interior cell within the distance can be missed: a ghost cell nearer is enough *)
Theorem C169_interior_refuted : ~ (forall mind maxd dist interior tie big p t M,
  right_boxes mind maxd dist p t ->
  (exists c, In c (cells_of t) /\ interior c = true /\ (dist c p <= M)%R) ->
  exists c, findPointClosestCell mind maxd dist interior tie big p t M true = (Some c, dist c p) /\
            closest dist p (cells_of t) interior c).
Proof.
  intros H. destruct (H lo_x hi_x far_of (Nat.eqb 5) (fun _ _ _ => true) 100%R vzero two_cells 100%R two_cells_right) as (c & E & _).
  - exists 5. split; [cbn; tauto |]. split; [reflexivity |]. unfold far_of. cbn. lra.
  - unfold findPointClosestCell, two_cells in E. cbn [nodes scan box_of Nat.add] in E.
    unfold lo_x, hi_x, at_x in E. cbn [b_lo b_hi vx] in E.
    replace (Rmin 5 100) with 5%R in E by (unfold Rmin; destruct (Rle_dec 5 100); lra).
    destruct (Rlt_dec 5 1) as [L | _]; [lra |].
    replace (Rmin 5 5) with 5%R in E by (unfold Rmin; destruct (Rle_dec 5 5); lra).
    destruct (Rlt_dec 5 5) as [L | _]; [lra |]. cbn [scan box_of b_lo b_hi vx app] in E.
    replace (Rmin 5 5) with 5%R in E by (unfold Rmin; destruct (Rle_dec 5 5); lra).
    destruct (Rlt_dec 5 1) as [L | _]; [lra |].
    replace (Rmin 1 5) with 1%R in E by (unfold Rmin; destruct (Rle_dec 1 5); lra).
    cbn [fold_left] in E. unfold look in E. cbn [fst snd] in E.
    destruct (Rlt_dec 1 5) as [_ | L]; [| lra]. cbn [fst snd] in E.
    destruct (Rlt_dec 1 1) as [L | _]; [lra |]. cbn in E. discriminate E.
Qed.

Example C169_nonvacuous :
  right_boxes lo_x hi_x far_of vzero two_cells /\
  findPointClosestCell lo_x hi_x far_of (fun _ => true) (fun _ _ _ => true) 100%R vzero two_cells 3%R true = (Some 1, 1%R) /\
  (forall c, In c (cells_of two_cells) -> (/ 2 < far_of c vzero)%R) /\
  findPointClosestCell lo_x hi_x far_of (fun _ => true) (fun _ _ _ => true) 100%R vzero two_cells (/ 2)%R true = (None, 100%R).
Proof.
  split; [exact two_cells_right |]. split.
  - destruct (C169_found lo_x hi_x far_of (fun _ => true) (fun _ _ _ => true) 100%R vzero two_cells 3%R true two_cells_right) as (c & E & Hc & _ & Min).
    + reflexivity.
    + exists 1. split; [cbn; tauto |]. unfold far_of. cbn. lra.
    + rewrite E. specialize (Min 1). cbn in Hc. destruct Hc as [<- | [<- | []]].
      * unfold far_of. cbn. reflexivity.
      * exfalso. assert (far_of 5 vzero <= far_of 1 vzero)%R by (apply Min; [cbn; tauto | reflexivity]). unfold far_of in H. cbn in H. lra.
  - assert (F : forall c, In c (cells_of two_cells) -> (/ 2 < far_of c vzero)%R).
    { intros c Hc. cbn in Hc. unfold far_of. destruct Hc as [<- | [<- | []]]; cbn; lra. }
    split; [exact F |]. apply C169_none; [exact two_cells_right | exact F].
Qed.

Print Assumptions C169_found.
Print Assumptions C169_none.
Print Assumptions C169_interior.
Print Assumptions C169_missed.
Print Assumptions C169_any.
Print Assumptions C169_interior_refuted.

(** ** C170: the closest cell of all the processes *)
Section C170.
  Variable mind maxd : box -> vec -> R.
  Variable dist : nat -> nat -> vec -> R.
  Variable interior : nat -> nat -> bool.
  Variable trees : nat -> tree.
  Variable pbox : nat -> box.
  Variable tie : vec -> nat -> nat -> bool.
  Variable big : R.
  Variable nprocs : nat.
  Variable pick : found -> found -> found.
  Variable points : nat -> list vec.
  Notation shared := (findSharedPointClosestGlobalCell mind maxd dist interior trees pbox tie big nprocs).
  Notation scattered := (findPointClosestGlobalCell mind maxd dist interior trees pbox tie big nprocs).

  (** a point known to all: every process gets the same cell, its owner and its distance, and no cell of any process is nearer *)
  Theorem C170_shared : forall p radius, picks_least pick -> 0 < nprocs ->
    shared_out mind maxd dist interior trees pbox big nprocs p ->
    exists r c, closest_of_all nprocs dist interior (fun r => cells_of (trees r)) p r c /\
      forall me, shared true pick p radius me = Some (r, c, dist r c p).
  Proof.
    intros p radius Hp Hn Hg. destruct (reduced mind maxd dist interior trees pbox tie big nprocs pick Hp p Hg Hn) as (r & c & E & Hc).
    exists r, c. split; [exact Hc |]. intros me. unfold findSharedPointClosestGlobalCell.
    rewrite again_once; assumption.
  Qed.

  (** points of each process: each gets the closest cell of all the processes to each of its own points *)
  Theorem C170_scattered : forall me i, picks_least pick -> me < nprocs -> i < length (points me) ->
    shared_out mind maxd dist interior trees pbox big nprocs (nth i (points me) vzero) ->
    exists r c, closest_of_all nprocs dist interior (fun r => cells_of (trees r)) (nth i (points me) vzero) r c /\
      scattered true pick points me i = Some (r, c, dist r c (nth i (points me) vzero)).
  Proof.
    intros me i Hp Hme Hi Hg.
    assert (Hn : 0 < nprocs) by lia.
    destruct (reduced mind maxd dist interior trees pbox tie big nprocs pick Hp _ Hg Hn) as (r & c & E & Hc).
    exists r, c. split; [exact Hc |]. unfold findPointClosestGlobalCell, row_found.
    replace (nth (offset points me + i) (globalPoints nprocs points) vzero) with (nth i (points me) vzero); [exact E |].
    symmetry. unfold globalPoints, offset. rewrite app_nth1 by (rewrite total_len; now apply row_in). now apply row_of.
  Qed.

  (** on one process, with nothing shared out *)
  Theorem C170_serial : forall p radius me i, right_boxes mind maxd (dist me) p (trees me) ->
    (forall c, In c (cells_of (trees me)) -> interior me c = true) ->
    (forall c, In c (cells_of (trees me)) -> (dist me c p <= big)%R) ->
    p = nth i (points me) vzero ->
    exists c, closest (dist me) p (cells_of (trees me)) (fun _ => true) c /\
      shared false pick p radius me = Some (me, c, dist me c p) /\
      scattered false pick points me i = Some (me, c, dist me c p).
  Proof.
    intros p radius me i Ht Hi Hb Hp.
    destruct (C169_any mind maxd (dist me) (interior me) tie big p (trees me) true Ht (fun _ => Hi) Hb) as (c & E & Hc).
    exists c. split; [exact Hc |]. unfold findSharedPointClosestGlobalCell, findPointClosestGlobalCell, serial. rewrite <- Hp, E. now split.
  Qed.

  (** the rows allocated hold the points of all the processes, in the order of the processes *)
  Theorem C170_rows : 0 < nprocs ->
    exists k, globalPoints nprocs points = flat_map points (seq 0 nprocs) ++ repeat vzero k /\
              length (globalPoints nprocs points) = nGlobalPoints nprocs points /\
              length (flat_map points (seq 0 nprocs)) <= nGlobalPoints nprocs points.
  Proof.
    intros Hn. eexists. split; [unfold globalPoints; reflexivity |].
    assert (L : length (flat_map points (seq 0 nprocs)) <= nGlobalPoints nprocs points).
    { rewrite total_len. unfold nGlobalPoints. destruct nprocs as [| n]; [lia |]. rewrite total_le. replace (S n - 1) with n by lia. lia. }
    split; [| exact L]. unfold globalPoints. rewrite app_length, repeat_length. lia.
  Qed.
End C170.

(** two processes: the first owns cell 5 and has cell 1 as a ghost, the second owns it *)
Definition two_trees (r : nat) : tree := match r with 0 => two_cells | _ => Leaf (at_x 1 1) [1] end.
Definition two_interior (r c : nat) : bool := match r with 0 => Nat.eqb c 5 | _ => true end.
Definition two_boxes (r : nat) : box := match r with 0 => at_x 1 5 | _ => at_x 1 1 end.
Definition pick_least (a b : found) : found :=
  match a, b with
  | Some (r, c, x), Some (r', c', y) => if Rle_dec x y then a else b
  | Some _, None => a
  | None, _ => b
  end.
Lemma pick_least_ok : picks_least pick_least.
Proof.
  intros [[[r c] x] |] [[[r' c'] y] |]; unfold pick_least, not_farther; cbn; try (split; [tauto | split; try exact I; lra]).
  destruct (Rle_dec x y); cbn; (split; [tauto | split; lra]).
Qed.
Lemma two_shared_out : forall p, shared_out lo_x hi_x (fun _ => far_of) two_interior two_trees two_boxes 100%R 2 p.
Proof.
  intros p.
  assert (R2 : forall r, r < 2 -> right_boxes lo_x hi_x far_of p (two_trees r)).
  { intros [| r] Hr; cbn [two_trees].
    - unfold two_cells, lo_x, hi_x, far_of, at_x. cbn. split.
      + intros c [[<- | []] | [<- | []]]; cbn; lra.
      + repeat split; try discriminate; destruct H as [<- | []]; cbn; lra.
    - cbn. unfold lo_x, hi_x, far_of. split; [discriminate |]. intros c [<- | []]. cbn. lra. }
  split; [exact R2 |]. split; [| split].
  - intros r g Hr Hg Hi. exists 1, 1. split; [lia |]. split; [cbn; tauto |]. split; [reflexivity |].
    destruct r as [| r]; cbn in Hi; [| discriminate]. cbn in Hg. destruct Hg as [<- | [<- | []]]; [reflexivity | discriminate].
  - intros [| r] Hr; [exists 5 | exists 1]; (split; [cbn; tauto |]); unfold hi_x, far_of; cbn; lra.
  - intros [| r] c Hr Hc; cbn in Hc; unfold far_of.
    + destruct Hc as [<- | [<- | []]]; cbn; lra.
    + destruct Hc as [<- | []]; cbn; lra.
Qed.

(** the radius given is not looked at: a cell beyond it is given, where no cell was to be given *)
Theorem C170_radius_refuted : ~ (forall mind maxd dist interior trees pbox tie big nprocs pick p radius me,
  picks_least pick -> me < nprocs -> shared_out mind maxd dist interior trees pbox big nprocs p ->
  (forall r c, r < nprocs -> In c (cells_of (trees r)) -> (radius < dist r c p)%R) ->
  findSharedPointClosestGlobalCell mind maxd dist interior trees pbox tie big nprocs true pick p radius me = None).
Proof.
  intros H.
  destruct (C170_shared lo_x hi_x (fun _ => far_of) two_interior two_trees two_boxes (fun _ _ _ => true) 100%R 2 pick_least vzero (/ 2)%R
    pick_least_ok ltac:(lia) (two_shared_out vzero)) as (r & c & _ & E).
  specialize (E 0). rewrite H in E; [discriminate E | exact pick_least_ok | lia | apply two_shared_out |].
  intros [| r'] c' Hr Hc; cbn in Hc; unfold far_of.
  - destruct Hc as [<- | [<- | []]]; cbn; lra.
  - destruct Hc as [<- | []]; cbn; lra.
Qed.

(** the rows searched are more than the points: the count sums coordinates and points *)
Theorem C170_rows_refuted : ~ (forall nprocs points, 0 < nprocs ->
  nGlobalPoints nprocs points = length (flat_map points (seq 0 nprocs))).
Proof. intros H. specialize (H 2 (fun _ => [vzero]) ltac:(lia)). cbn in H. discriminate H. Qed.

Example C170_nonvacuous : forall p,
  shared_out lo_x hi_x (fun _ => far_of) two_interior two_trees two_boxes 100%R 2 p /\ picks_least pick_least /\
  exists me c, findPointClosestCell lo_x hi_x far_of (two_interior me) (fun _ _ _ => true) 100%R p (two_trees me) 100%R true = (Some c, far_of c p).
Proof.
  intros p. split; [apply two_shared_out |]. split; [exact pick_least_ok |].
  destruct (two_shared_out p) as (R & _).
  destruct (C169_found lo_x hi_x far_of (two_interior 1) (fun _ _ _ => true) 100%R p (two_trees 1) 100%R true (R 1 ltac:(lia))) as (c & E & _).
  - reflexivity.
  - exists 1. split; [cbn; tauto |]. unfold far_of. cbn. lra.
  - exists 1, c. exact E.
Qed.

Print Assumptions C170_shared.
Print Assumptions C170_scattered.
Print Assumptions C170_serial.
Print Assumptions C170_rows.
Print Assumptions C170_radius_refuted.
Print Assumptions C170_rows_refuted.
