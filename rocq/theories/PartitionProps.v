(** Properties C128 to C131. *)
From Coq Require Import Reals List Arith ZArith Bool Lia Lra.
From Verif Require Import Partition PartitionSpec PartitionProofs.
Import ListNotations.

(** ** C128: each cell goes to a process *)
(** a mesh on one process is divided: on the first, whatever the object did before *)
Theorem C128_geom : forall metis nprocs top m bm g boundary, metis_right metis -> (1 < nprocs)%Z -> NoDup (map c_id (m_cells g)) -> m_distributed g = false ->
  match fst (execute 0 nprocs metis top (Object PARTGEOM m bm) (Some g) boundary) with
  | Told p _ => shares (map c_id (m_cells g)) nprocs p
  | Undefined => boundary <> None
  | _ => False
  end.
Proof.
  intros metis nprocs top m bm g boundary MR L N D. pose proof (geom_shares metis nprocs g m MR ltac:(lia) N D) as S. unfold execute. cbn [o_mode o_map o_bmap]. change (Z.eqb PARTGEOM NONE) with false. change (Z.eqb PARTGEOM PARTGEOM) with true. change (Z.eqb PARTGEOM SERIALIZE) with false. change (Z.eqb PARTGEOM CUSTOM) with false.
  destruct (Z.eqb_spec nprocs 1); [lia|]. rewrite D. cbn [andb orb negb]. destruct boundary as [b|]; [|exact S]. destruct (computeBoundaryPartition _ _ _ _ _ _); [exact S|discriminate].
Qed.
Print Assumptions C128_geom.
(** a mesh on several processes is sent to the first: all cells of each process, ghosts too, and no others, whatever the object did before *)
Theorem C128_serialize : forall rank metis nprocs top m bm g boundary, (1 < nprocs)%Z -> m_distributed g = true ->
  exists p b, fst (execute rank nprocs metis top (Object SERIALIZE m bm) (Some g) boundary) = Told p b /\ forall x, (In x (map c_id (m_cells g)) -> goes p x 0) /\ (~ In x (map c_id (m_cells g)) -> find x p = None).
Proof.
  intros rank metis nprocs top m bm g boundary L D. set (p := fold_left (fun a x => put x 0%Z a) (map c_id (m_cells g)) []).
  assert (S : forall x, (In x (map c_id (m_cells g)) -> goes p x 0) /\ (~ In x (map c_id (m_cells g)) -> find x p = None)).
  { intro x. unfold goes, p. rewrite find_zero. pose proof (exists_in x (map c_id (m_cells g))) as E. destruct (existsb _ _); split; intro I; try reflexivity; [exfalso; apply I, E; reflexivity|apply E in I; discriminate]. }
  unfold execute. cbn [o_mode o_map o_bmap]. change (Z.eqb SERIALIZE NONE) with false. change (Z.eqb SERIALIZE PARTGEOM) with false. change (Z.eqb SERIALIZE SERIALIZE) with true. change (Z.eqb SERIALIZE CUSTOM) with false.
  destruct (Z.eqb_spec nprocs 1); [lia|]. rewrite D. cbn [andb orb negb]. unfold serialPartition. rewrite D. unfold computeBoundaryPartition. change (Z.eqb SERIALIZE SERIALIZE) with true. cbn iota. destruct boundary as [b|]; eexists p, _; (split; [reflexivity|exact S]).
Qed.
Print Assumptions C128_serialize.
(** a map given is used as it is, if it has as many entries as the process has cells *)
Theorem C128_custom_partial : forall rank metis nprocs top o m g, (1 < nprocs)%Z ->
  fst (execute rank nprocs metis top (setPartition m o) (Some g) None) = if Nat.eqb (length m) (length (m_cells g)) then Told m None else Throws.
Proof.
  intros rank metis nprocs top o m g L. unfold execute, setPartition. cbn [o_mode o_map o_bmap]. change (Z.eqb CUSTOM NONE) with false. change (Z.eqb CUSTOM PARTGEOM) with false. change (Z.eqb CUSTOM SERIALIZE) with false. change (Z.eqb CUSTOM CUSTOM) with true.
  destruct (Z.eqb_spec nprocs 1); [lia|]. cbn [andb orb]. destruct (Nat.eqb _ _); reflexivity.
Qed.
Print Assumptions C128_custom_partial.
(** nothing else is checked: cells the map does not know, or processes that are not there *)
Theorem C128_custom_refuted : exists m g, NoDup (map c_id (m_cells g)) /\ NoDup (map fst m) /\ (forall rank metis top o, fst (execute rank 2 metis top (setPartition m o) (Some g) None) = Told m None) /\ ~ (forall x, In x (map c_id (m_cells g)) -> exists r, goes m x r) /\ ~ (forall x r, goes m x r -> (0 <= r < 2)%Z).
Proof.
  exists [(7, 5)%Z], (Mesh [Cell 1 []] false). split; [repeat constructor; cbn; intuition|]. split; [repeat constructor; cbn; intuition|]. split; [reflexivity|]. split; intro H; [destruct (H 1%Z (or_introl eq_refl)) as (r & G); discriminate|specialize (H 7 5 eq_refl)%Z; lia].
Qed.
Print Assumptions C128_custom_refuted.
(** what is refused, and when nothing is done *)
Theorem C128_refused : forall rank metis nprocs top o g boundary,
  (o_mode o = PARTGEOM -> nprocs <> 1%Z -> m_distributed g = true -> execute rank nprocs metis top o (Some g) boundary = (Throws, o)) /\
  (o_mode o = NONE \/ nprocs = 1%Z \/ o_mode o = SERIALIZE /\ m_distributed g = false -> execute rank nprocs metis top o (Some g) boundary = (Nothing, o)).
Proof.
  intros rank metis nprocs top [mode m bm] g boundary. unfold execute. cbn [o_mode o_map o_bmap]. split.
  - intros -> N D. change (Z.eqb PARTGEOM NONE) with false. change (Z.eqb PARTGEOM PARTGEOM) with true. destruct (Z.eqb_spec nprocs 1); [contradiction|]. rewrite D. reflexivity.
  - destruct (Z.eqb_spec mode NONE); [reflexivity|]. destruct (Z.eqb_spec nprocs 1); [reflexivity|]. intros [C|[C|(C & D)]]; [contradiction|contradiction|]. subst mode. rewrite D. reflexivity.
Qed.
Print Assumptions C128_refused.
(** on the other processes the map is the one left by the last execution: cells that are no longer there *)
Theorem C128_other_processes_refuted : forall metis top, exists g g' o p, m_distributed g = true /\
  snd (execute 1 2 metis top (Object SERIALIZE [] []) (Some g) None) = o /\ m_distributed g' = false /\ m_cells g' = [] /\
  fst (execute 1 2 metis top (Object PARTGEOM (o_map o) (o_bmap o)) (Some g') None) = Told p None /\ exists x r, goes p x r.
Proof. intros metis top. exists (Mesh [Cell 5 []] true), (Mesh [] false). eexists _, _. split; [reflexivity|]. split; [reflexivity|]. split; [reflexivity|]. split; [reflexivity|]. split; [reflexivity|]. exists 5%Z, 0%Z. reflexivity. Qed.
Print Assumptions C128_other_processes_refuted.
Theorem C128_other_processes_partial : forall rank metis nprocs top g, (1 < nprocs)%Z -> rank <> 0%Z -> m_distributed g = false -> fst (execute rank nprocs metis top (Object PARTGEOM [] []) (Some g) None) = Told [] None.
Proof.
  intros rank metis nprocs top g L R D. unfold execute. cbn [o_mode o_map o_bmap]. change (Z.eqb PARTGEOM NONE) with false. change (Z.eqb PARTGEOM PARTGEOM) with true. change (Z.eqb PARTGEOM SERIALIZE) with false. change (Z.eqb PARTGEOM CUSTOM) with false.
  destruct (Z.eqb_spec nprocs 1); [lia|]. unfold parmetisPartGeom. rewrite D. cbn [andb orb negb]. destruct (Z.eqb_spec rank 0); [contradiction|]. reflexivity.
Qed.
Print Assumptions C128_other_processes_partial.
Example C128_nonvacuous : let metis := fun nv (_ : list nat * list nat) (_ : Z) => repeat 0%Z nv in metis_right metis /\
  fst (execute 0 2 metis 1 (Object PARTGEOM [(9, 9)%Z] []) (Some (Mesh [Cell 4 [3%Z]; Cell 3 [4%Z]] false)) None) = Told [(4, 0)%Z; (3, 0)%Z] None.
Proof. split; [|reflexivity]. intros nv g n P. split; [apply repeat_length|]. intros r I. apply repeat_spec in I. lia. Qed.

(** ** C129: the graph given to METIS *)
(** exactly: neighbours but cell zero *)
Theorem C129_graph : forall cells i j c d, well_made cells -> nth_error cells i = Some c -> nth_error cells j = Some d -> (next_to (graph cells) i j <-> In (c_id d) (c_neighs c) /\ (0 < c_id d)%Z).
Proof. exact graph_exact. Qed.
Print Assumptions C129_graph.
Theorem C129_graph_partial : forall cells, well_made cells -> (forall c, In c cells -> c_id c <> 0%Z) -> graph_of cells (graph cells) /\ both_ways (graph cells).
Proof.
  intros cells W Z0. assert (P : forall c, In c cells -> (0 < c_id c)%Z) by (intros c I; pose proof (Z0 c I); destruct W as (_ & W & _); specialize (W c I); lia). split.
  - intros i j c d C D. rewrite (graph_exact cells i j c d W C D). split; [tauto|]. intro I. split; [exact I|]. apply P. apply nth_error_In in D. exact D.
  - intros i j H. pose proof H as H'. apply next_row in H'. destruct H' as (c & C & I). unfold row in I. apply in_map_iff in I. destruct I as (x & X & I). apply filter_In in I. destruct I as (I & PX). apply Z.ltb_lt in PX.
    pose proof W as (N & _ & K). destruct (K c x (nth_error_In _ _ C) I) as (d & D & E & S). apply In_nth_error in D. destruct D as (q & Q). assert (QI : nth_error (map c_id cells) q = Some x) by (rewrite nth_error_map, Q; cbn; congruence). rewrite (index_at _ _ _ N QI) in X. subst q.
    apply (graph_exact cells j i d c W Q C). split; [exact S|]. apply P. apply nth_error_In in C. exact C.
Qed.
Print Assumptions C129_graph_partial.
(** whenever cell zero, the first one a mesh gets, has a neighbour, the graph goes one way only *)
Theorem C129_zero_refuted : forall cells c x, well_made cells -> In c cells -> c_id c = 0%Z -> In x (c_neighs c) -> x <> 0%Z -> ~ both_ways (graph cells) /\ ~ graph_of cells (graph cells).
Proof.
  intros cells c x W IC C0 I X0. pose proof W as (N & NN & K). destruct (K c x IC I) as (d & ID & E & S). pose proof (NN d ID) as PD. apply In_nth_error in IC, ID. destruct IC as (i & C). destruct ID as (j & D).
  split; intro B.
  - assert (H : next_to (graph cells) i j) by (apply (graph_exact cells i j c d W C D); split; [rewrite E; exact I|lia]). apply B in H. apply (graph_exact cells j i d c W D C) in H. lia.
  - apply (B j i d c D C) in S. apply (graph_exact cells j i d c W D C) in S. lia.
Qed.
Print Assumptions C129_zero_refuted.
Example C129_nonvacuous : let cells := [Cell 2 [5%Z]; Cell 5 [2%Z; 7%Z]; Cell 7 [5%Z]] in well_made cells /\ graph cells = ([0; 1; 3; 4], [1; 0; 2; 1])%nat /\ graph [Cell 0 [1%Z]; Cell 1 [0%Z]] = ([0; 1; 1], [1; 0])%nat.
Proof.
  split; [|split; reflexivity]. split; [repeat constructor; cbn; intuition discriminate|]. split; [intros c [<- |[<- |[<- |[]]]]; cbn; lia|].
  intros c x [<- |[<- |[<- |[]]]]; cbn; intros H.
  - destruct H as [<- |[]]. exists (Cell 5 [2%Z; 7%Z]). cbn. auto.
  - destruct H as [<- |[<- |[]]]; [exists (Cell 2 [5%Z])|exists (Cell 7 [5%Z])]; cbn; auto.
  - destruct H as [<- |[]]. exists (Cell 5 [2%Z; 7%Z]). cbn. auto.
Qed.

(** ** C130: the boundary goes with the volume *)
Theorem C130_follows : forall metis nprocs top mode m bm g b, (mode = PARTGEOM \/ mode = CUSTOM) -> (1 < nprocs)%Z -> b_distributed b = false ->
  places b -> (forall c x d p, In (c, Some (x, d, p)) (b_faces b) -> (d < top)%R) ->
  forall p, fst (execute 0 nprocs metis top (Object mode m bm) (Some g) None) = Told p None -> (forall c f, In (c, f) (b_faces b) -> exists r, goes p c r) ->
  exists bp, fst (execute 0 nprocs metis top (Object mode m bm) (Some g) (Some b)) = Told p (Some bp) /\ follows top p b bp.
Proof.
  intros metis nprocs top mode m bm g b M L ND P T p H V. assert (NS : mode <> SERIALIZE) by (destruct M as [-> | ->]; discriminate). destruct (boundary_follows top p b P T V mode bm NS ND) as (bp & E & F). exists bp. split; [|exact F]. revert H. unfold execute. cbn [o_mode o_map o_bmap].
  destruct (Z.eqb mode NONE); [discriminate|]. destruct (Z.eqb nprocs 1); [discriminate|]. destruct (Z.eqb mode PARTGEOM && m_distributed g); [discriminate|]. destruct (Z.eqb mode SERIALIZE && negb (m_distributed g)); [discriminate|]. destruct (Z.eqb mode CUSTOM && _); [discriminate|]. destruct (_ || _ || _); [|discriminate].
  cbn [fst]. intro H. injection H as H. rewrite H, E. reflexivity.
Qed.
Print Assumptions C130_follows.
(** so a boundary cell that one face only finds goes where the cell of that face goes *)
Theorem C130_same_process : forall top p b bp x c d q r, follows top p b bp -> In (c, Some (x, d, q)) (b_faces b) -> (forall c' d' q', In (c', Some (x, d', q')) (b_faces b) -> c' = c) -> goes p c r -> goes bp x r.
Proof.
  intros top p b bp x c d q r F I U G. destruct (F x) as (A & B). destruct (find x bp) as [r'|] eqn:E; [|exfalso; apply (B eq_refl c d q I)]. destruct (A r' E) as (c' & d' & q' & I' & G' & _). rewrite (U _ _ _ I') in G'. unfold goes in *. congruence.
Qed.
Print Assumptions C130_same_process.
(** a boundary cell that no face finds is left out *)
Theorem C130_unfound_refuted : forall top p b bp x, follows top p b bp -> (forall c d q, ~ In (c, Some (x, d, q)) (b_faces b)) -> find x bp = None.
Proof. intros top p b bp x F N. destruct (F x) as (A & _). destruct (find x bp) as [r|] eqn:E; [|reflexivity]. destruct (A r E) as (c & d & q & I & _). exfalso. exact (N c d q I). Qed.
Print Assumptions C130_unfound_refuted.
(** when only the volume is distributed, or only the boundary, the boundary is told what was left from before *)
Theorem C130_left_over_refuted : forall rank metis top bm b,
  (b_distributed b = false -> exists g p, fst (execute rank 2 metis top (Object SERIALIZE [] bm) (Some g) (Some b)) = Told p (Some bm)) /\
  (b_distributed b = true -> exists g p, fst (execute rank 2 metis top (Object PARTGEOM [] bm) (Some g) (Some b)) = Told p (Some bm)).
Proof.
  intros rank metis top bm b. split; intro D.
  - exists (Mesh [] true). eexists. unfold execute, computeBoundaryPartition. cbn -[parmetisPartGeom]. rewrite D. reflexivity.
  - exists (Mesh [] false). eexists. unfold execute, computeBoundaryPartition. cbn -[parmetisPartGeom]. rewrite D. reflexivity.
Qed.
Print Assumptions C130_left_over_refuted.
(** a boundary with holes in memory: the vector of distances is as long as the cells are many *)
Theorem C130_holes_refuted : forall metis top, (0 < top)%R -> exists m g b, NoDup (b_ids b) /\ fst (execute 0 2 metis top (Object CUSTOM m []) (Some g) (Some b)) = Undefined.
Proof. intros metis top P. exists [(1, 0)%Z], (Mesh [Cell 1 []] false), (Border [3%Z] false [(1%Z, Some (3%Z, 0%R, 1%nat))]). split; [repeat constructor; cbn; intuition|reflexivity]. Qed.
Print Assumptions C130_holes_refuted.
(** both distributed: all to the first *)
Theorem C130_serialize : forall rank metis nprocs top m bm g b, (1 < nprocs)%Z -> m_distributed g = true -> b_distributed b = true ->
  exists p bp, fst (execute rank nprocs metis top (Object SERIALIZE m bm) (Some g) (Some b)) = Told p (Some bp) /\ forall x, (In x (b_ids b) -> goes bp x 0) /\ (~ In x (b_ids b) -> find x bp = None).
Proof.
  intros rank metis nprocs top m bm g b L D DB. unfold execute. cbn [o_mode o_map o_bmap]. change (Z.eqb SERIALIZE NONE) with false. change (Z.eqb SERIALIZE PARTGEOM) with false. change (Z.eqb SERIALIZE SERIALIZE) with true. change (Z.eqb SERIALIZE CUSTOM) with false.
  destruct (Z.eqb_spec nprocs 1); [lia|]. rewrite D. cbn [andb orb negb]. unfold computeBoundaryPartition. change (Z.eqb SERIALIZE SERIALIZE) with true. cbn iota. rewrite DB. eexists _, _. split; [reflexivity|]. intro x. unfold goes. rewrite find_zero. pose proof (exists_in x (b_ids b)) as E. destruct (existsb _ _); split; intro I; try reflexivity; [exfalso; apply I, E; reflexivity|apply E in I; discriminate].
Qed.
Print Assumptions C130_serialize.
Example C130_nonvacuous : exists m g b, places b /\ m_distributed g = false /\ (forall c f, In (c, f) (b_faces b) -> exists r, goes m c r) /\ (forall c x d p, In (c, Some (x, d, p)) (b_faces b) -> (d < 100)%R) /\
  fst (execute 0 2 (fun _ _ _ => []) 100 (Object CUSTOM m []) (Some g) None) = Told m None.
Proof.
  exists [(1, 0)%Z; (2, 1)%Z], (Mesh [Cell 1 [2%Z]; Cell 2 [1%Z]] false), (Border [8%Z; 9%Z] false [(1%Z, Some (8%Z, 0%R, 0%nat)); (1%Z, Some (9%Z, 1%R, 1%nat)); (2%Z, Some (9%Z, 0%R, 1%nat)); (2%Z, None)]). repeat split; try reflexivity.
  - cbn in H. destruct H as [H|[H|[H|[H|[]]]]]; try discriminate; injection H as <- <- <- <-; cbn; auto.
  - cbn in H. destruct H as [H|[H|[H|[H|[]]]]]; try discriminate; injection H as <- <- <- <-; cbn; auto.
  - cbn in H, H0. destruct H as [H|[H|[H|[H|[]]]]]; try discriminate; injection H as <- <- <- <-; destruct H0 as [H|[H|[H|[H|[]]]]]; try discriminate; injection H as <- <- <- <-; intro; try reflexivity; try discriminate; lia.
  - cbn in H, H0. destruct H as [H|[H|[H|[H|[]]]]]; try discriminate; injection H as <- <- <- <-; destruct H0 as [H|[H|[H|[H|[]]]]]; try discriminate; injection H as <- <- <- <-; intro; try reflexivity; try discriminate; lia.
  - cbn. intros c f [H|[H|[H|[H|[]]]]]; injection H as <- <-; [exists 0%Z|exists 0%Z|exists 1%Z|exists 1%Z]; reflexivity.
  - cbn. intros c x d p [H|[H|[H|[H|[]]]]]; try discriminate; injection H as <- <- <- <-; lra.
Qed.

(** ** C131: the method and its number *)
Theorem C131_xml_partial : forall o o', (o_mode o = NONE \/ o_mode o = SERIALIZE \/ o_mode o = PARTGEOM) -> exists r, absorb_mode (flush_mode o) o' = Some r /\ o_mode r = o_mode o.
Proof. intros [mode m bm] o' H. cbn in *. unfold absorb_mode, flush_mode, setPartitionMethod. cbn. destruct H as [-> |[-> | ->]]; eexists; split; reflexivity. Qed.
Print Assumptions C131_xml_partial.
(** what an object with its own map writes is refused *)
Theorem C131_custom_refuted : forall m o o', absorb_mode (flush_mode (setPartition m o)) o' = None.
Proof. reflexivity. Qed.
Print Assumptions C131_custom_refuted.
(** number 2 is accepted, and is no method: nothing is done, nothing said *)
Theorem C131_two_refuted : forall o, exists r, setPartitionMethod 2 o = Some r /\ forall rank nprocs metis top g b, execute rank nprocs metis top r g b = (Nothing, r).
Proof. intros [mode m bm]. eexists. split; [reflexivity|]. intros. unfold execute. cbn. destruct g as [g|]; [|reflexivity]. destruct (Z.eqb nprocs 1); reflexivity. Qed.
Print Assumptions C131_two_refuted.
(** other numbers are refused *)
Theorem C131_numbers : forall z o, (z <> -1)%Z -> z <> 0%Z -> z <> 1%Z -> z <> 2%Z -> setPartitionMethod z o = None.
Proof. intros z o A B C D. unfold setPartitionMethod. destruct (Z.eqb_spec z (-1)), (Z.eqb_spec z 0), (Z.eqb_spec z 1), (Z.eqb_spec z 2); try contradiction. reflexivity. Qed.
Print Assumptions C131_numbers.
