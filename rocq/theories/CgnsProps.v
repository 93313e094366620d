(** C155-C157: CGNS files. *)
From Coq Require Import Reals List ZArith Bool Lia.
From Verif Require Import Cgns CgnsSpec CgnsProofs.
Import ListNotations.
Open Scope Z_scope.

(** C155: the volume of a file written is the mesh, with vertices numbered from zero and cells by types. *)
Theorem C155_back : forall border same name verts cells bnd infos,
  NoDup (map fst verts) -> apart same verts -> (forall c, In c cells -> solid (c_type c) /\ on (map fst verts) c) -> (forall c, In c bnd -> flat (c_type c) /\ on (map fst verts) c) -> NoDup (map c_id bnd) ->
  exists file g, write name verts cells bnd infos = Ok file /\ read border same file = Ok g /\
  (forall k, nth_error (g_verts g) k = option_map (fun v => (Z.of_nat k, snd v)) (nth_error verts k)) /\
  copies (map fst verts) (g_cells g) (by_types [Tetra; Pyramid; Wedge; Hexa] cells) /\ g_zones g = [(0, name)].
Proof.
  intros border same name verts cells bnd infos HV HA HC HB HD. destruct (round border same name verts cells bnd infos HV HA HC HB HD) as (vol & surf & file & g & W & R & MV & WV & _ & _ & GV & GC & GZ & _).
  exists file, g. split; [exact W|]. split; [exact R|]. split; [|split; [|exact GZ]].
  - intro k. rewrite GV. destruct (nth_error verts k) as [v|] eqn:E.
    + assert (E2 : nth_error (map snd verts) k = Some (snd v)) by (rewrite nth_error_map, E; reflexivity). etransitivity; [exact (number_nth _ _ 0 _ _ E2)|reflexivity].
    + apply nth_error_None. assert (L : length (number 0 (map snd verts)) = length verts) by (rewrite number_length, map_length; reflexivity). eapply Nat.le_trans; [apply Nat.eq_le_incl; exact L|]. apply nth_error_None, E.
  - assert (BT : by_types [Tetra; Pyramid; Wedge; Hexa] cells = map fst (sorted volume_types vol)) by (rewrite sorted_map, MV; reflexivity). rewrite BT, GC. unfold new_cells. split; [rewrite !map_length, number_length; reflexivity|].
    intros k a b NA NB. rewrite nth_error_map in NB. destruct (nth_error (sorted volume_types vol) k) as [e|] eqn:E; [|discriminate]. injection NB as <-. rewrite nth_error_map, (number_nth _ _ 0 _ _ E) in NA. cbn [option_map fst snd] in NA. injection NA as <-.
    assert (IE : In e vol) by (apply nth_error_In in E; apply sorted_in in E; tauto). exact (back (map fst verts) (Z.of_nat k) e (WV e IE)).
Qed.
Print Assumptions C155_back.
(** the parts of the volume are lost: one zone is written, with part 0 when it is read *)
Theorem C155_parts_refuted : forall border same name verts cells bnd infos c,
  NoDup (map fst verts) -> apart same verts -> (forall c, In c cells -> solid (c_type c) /\ on (map fst verts) c) -> (forall c, In c bnd -> flat (c_type c) /\ on (map fst verts) c) -> NoDup (map c_id bnd) ->
  In c cells -> c_pid c <> 0 -> exists file g, write name verts cells bnd infos = Ok file /\ read border same file = Ok g /\ forall d, In d (g_cells g) -> c_pid d <> c_pid c.
Proof.
  intros border same name verts cells bnd infos c HV HA HC HB HD I P. destruct (C155_back border same name verts cells bnd infos HV HA HC HB HD) as (file & g & W & R & _ & (L & C) & _). exists file, g. split; [exact W|]. split; [exact R|].
  intros d D. apply In_nth_error in D. destruct D as (k & K). destruct (nth_error (by_types [Tetra; Pyramid; Wedge; Hexa] cells) k) as [b|] eqn:B; [|apply nth_error_None in B; assert (k < length (g_cells g))%nat by (apply nth_error_Some; congruence); lia].
  destruct (C k d b K B) as (_ & _ & Z0 & _). congruence.
Qed.
Print Assumptions C155_parts_refuted.
(** after one polyhedron no cell is written at all, whatever its type, though the zone says there are that many *)
Theorem C155_polyhedron_refuted : forall name verts before poly after bnd infos z, c_type poly = Another -> (forall c, In c before -> solid (c_type c)) -> write name verts before bnd infos = Ok [z] ->
  write name verts (before ++ poly :: after) bnd infos = Ok [Zone (z_name z) (z_points z) (length before + S (length after)) (z_sections z) (z_bcs z)].
Proof.
  intros name verts before poly after bnd infos z P B W.
  assert (NO : forall cells, conns is_volume (map fst verts) cells true = Ok []) by (induction cells as [|c cells IH]; [reflexivity|exact IH]).
  assert (E : conns is_volume (map fst verts) (before ++ poly :: after) false = conns is_volume (map fst verts) before false).
  { clear W. induction before as [|c before IH]; [cbn [app conns]; rewrite P; cbn [is_volume negb orb]; apply NO|]. cbn [app conns]. destruct (false || negb (is_volume (c_type c)))%bool eqn:Q.
    - exfalso. destruct (B c (or_introl eq_refl)) as [X|[X|[X|[X|[]]]]]; rewrite <- X in Q; discriminate.
    - destruct (places (map fst verts) (c_conn c)); cbn [bind]; [|reflexivity|reflexivity]. rewrite IH by (intros; apply B; right; assumption). reflexivity. }
  unfold write in *. rewrite E. destruct (conns is_volume (map fst verts) before false); cbn [bind] in *; try discriminate. destruct (conns is_surface _ _ false); cbn [bind] in *; try discriminate. injection W as <-. cbn [z_name z_points z_sections z_bcs]. rewrite app_length. reflexivity.
Qed.
Print Assumptions C155_polyhedron_refuted.

(** ** Boundaries *)
Lemma pool_over : forall (verts : list vertex) bnd i v start surf, (forall c, In c bnd -> flat (c_type c) /\ on (map fst verts) c) -> NoDup (map fst verts) -> i_elements i = false ->
  In v (map (fun v => v + 0) (lst (bc_of (map fst verts) start surf bnd i))) <-> exists c w k, In c bnd /\ c_pid c = i_pid i /\ In w (c_conn c) /\ v = Z.of_nat k /\ nth_error (map fst verts) k = Some w.
Proof.
  intros verts bnd i v start surf HB D E. unfold lst, bc_of. cbn [b_list]. rewrite E. unfold bc_points. rewrite !map_map. rewrite in_map_iff. split.
  - intros (w & <- & I). apply nodup_In, in_flat_map in I. destruct I as (c & IC & IW). unfold of_pid in IC. apply filter_In in IC. destruct IC as (IC & Q). apply Z.eqb_eq in Q. destruct (HB c IC) as (_ & _ & V). destruct (place_in (map fst verts) w 1 (V w IW)) as (k & PK & N).
    unfold place. rewrite PK. exists c, w, k. repeat split; try assumption. lia.
  - intros (c & w & k & IC & Q & IW & -> & N). exists w. split.
    + unfold place. destruct (place_in (map fst verts) w 1 (nth_error_In _ _ N)) as (j & PK & N'). rewrite PK. assert (j = k) by (apply (proj1 (NoDup_nth_error (map fst verts)) D); [apply nth_error_Some; congruence|congruence]). subst. lia.
    + apply nodup_In, in_flat_map. exists c. split; [|exact IW]. unfold of_pid. apply filter_In. split; [exact IC|]. apply Z.eqb_eq, Q.
Qed.
Lemma faces_keep : forall vo B (l : list (Z * bc)) got (e : face * Z), In e got -> In e (fold_left (faces_of vo B) l got).
Proof. intros vo B. induction l as [|x l IH]; intros got e H; [exact H|]. cbn [fold_left]. apply IH. unfold faces_of. destruct (b_elements (snd x)); [exact H|apply points_keep, H]. Qed.
Lemma faces_from : forall vo B (l : list (Z * bc)) got (e : face * Z), In e (fold_left (faces_of vo B) l got) -> In e got \/ exists kb, In kb l /\ b_elements (snd kb) = false /\ snd e = fst kb /\ In (fst e) B /\ belongToPool (snd (fst e)) (map (fun v => v + vo) (lst (snd kb))) = true.
Proof.
  intros vo B. induction l as [|x l IH]; intros got e H; [left; exact H|]. cbn [fold_left] in H. apply IH in H. destruct H as [H|(kb & I & R)]; [|right; exists kb; split; [right; exact I|exact R]].
  unfold faces_of in H. destruct (b_elements (snd x)) eqn:E; [left; exact H|]. apply points_in in H. destruct H as [H|(I & P & Q)]; [left; exact H|right]. exists x. repeat split; try assumption. left. reflexivity.
Qed.
Lemma faces_take : forall vo B (l : list (Z * bc)) got (kb : Z * bc) (f : face), In kb l -> b_elements (snd kb) = false -> In f B -> belongToPool (snd f) (map (fun v => v + vo) (lst (snd kb))) = true -> exists g p, In (g, p) (fold_left (faces_of vo B) l got) /\ face_eqb f g = true.
Proof.
  intros vo B. induction l as [|x l IH]; intros got kb f I E IF Q; [destruct I|]. cbn [fold_left]. destruct I as [-> |I]; [|eapply IH; eassumption].
  destruct (points_take (fst kb) (map (fun v => v + vo) (lst (snd kb))) B got f IF Q) as (g & p & J & F). exists g, p. split; [|exact F]. apply faces_keep. unfold faces_of. rewrite E. exact J.
Qed.

(** C156: the boundary of a file written: patches are numbered from one, keep names and types; the cells of patches of elements are the cells; those of patches of points are the faces at the
    border over the vertices of the patch, each in one patch. *)
Theorem C156_back : forall border same name verts cells bnd infos,
  NoDup (map fst verts) -> apart same verts -> (forall c, In c cells -> solid (c_type c) /\ on (map fst verts) c) -> (forall c, In c bnd -> flat (c_type c) /\ on (map fst verts) c) -> NoDup (map c_id bnd) ->
  exists file g faces elems, write name verts cells bnd infos = Ok file /\ read border same file = Ok g /\ g_surf g = faces ++ elems /\
  same_patches (map fst verts) elems (patches 1 infos bnd) /\
  (forall p f, In (p, f) faces -> exists j i, nth_error infos j = Some i /\ i_elements i = false /\ p = 1 + Z.of_nat j /\ In f (map snd (border (g_cells g))) /\ over (map fst verts) i bnd f) /\
  ((forall a b, In a (border (g_cells g)) -> In b (border (g_cells g)) -> fst a = fst b -> a = b) ->
   forall i f, In i infos -> i_elements i = false -> In f (map snd (border (g_cells g))) -> f <> [] -> over (map fst verts) i bnd f -> exists p, In (p, f) faces) /\
  length (g_info g) = length infos /\
  (forall j i, nth_error infos j = Some i -> exists n, nth_error (g_info g) j = Some (Info (1 + Z.of_nat j) (i_kind i) (Some n) (i_elements i)) /\ forall m, i_name i = Some m -> n = m).
Proof.
  intros border same name verts cells bnd infos HV HA HC HB HD. destruct (round border same name verts cells bnd infos HV HA HC HB HD) as (vol & surf & file & g & W & R & MV & WV & MS & WS & GV & GC & GZ & GS & GI).
  exists file, g. eexists. eexists. split; [exact W|]. split; [exact R|]. split; [exact GS|]. rewrite GC. unfold bcs. split; [apply (elems_same border verts cells bnd infos HB HD surf _ MS WS infos 1); intros; assumption|]. split; [|split; [|split]].
  - intros p f I. apply in_map_iff in I. destruct I as (e & E & I). injection E as <- <-. apply faces_from in I. destruct I as [[]|((k, b) & IK & EB & PK & IB & Q)]. cbn [fst snd] in *. apply number_in in IK. destruct IK as (j & -> & N). rewrite nth_error_map in N.
    destruct (nth_error infos j) as [i|] eqn:NI; [|discriminate]. injection N as <-. exists j, i. split; [exact NI|]. split; [exact EB|]. split; [exact PK|]. split; [apply in_map, IB|]. apply pool_in in Q. destruct Q as (_ & Q). intros v V. apply Q in V. apply pool_over in V; [exact V|exact HB|exact HV|exact EB].
  - intros U i f II EI IB NE O. apply in_map_iff in IB. destruct IB as (f0 & <- & IB). apply In_nth_error in II. destruct II as (j & NJ).
    destruct (faces_take 0 (border (new_cells vol)) (number 1 (map (bc_of (map fst verts) (1 + Z.of_nat (length vol)) surf bnd) infos)) [] (1 + Z.of_nat j, bc_of (map fst verts) (1 + Z.of_nat (length vol)) surf bnd i) f0) as (f1 & p & J & F).
    + eapply nth_error_In. apply number_nth. rewrite nth_error_map, NJ. reflexivity.
    + exact EI.
    + exact IB.
    + cbn [snd]. apply pool_in. split; [exact NE|]. intros v V. apply pool_over; [exact HB|exact HV|exact EI|]. exact (O v V).
    + exists p. apply in_map_iff. exists (f1, p). split; [|exact J]. cbn [fst snd]. f_equal. assert (f1 = f0); [|subst; reflexivity]. apply U; [|exact IB|].
      * apply faces_from in J. destruct J as [[]|(kb & _ & _ & _ & J & _)]. exact J.
      * unfold face_eqb in F. apply andb_true_iff in F. destruct F as (F1 & F2). apply Z.eqb_eq in F1. apply Nat.eqb_eq in F2. destruct f0 as [[? ?] ?], f1 as [[? ?] ?]. cbn in *. congruence.
  - rewrite GI, map_length, number_length. unfold bcs. rewrite map_length. reflexivity.
  - intros j i N. rewrite GI. assert (NB : nth_error (bcs verts bnd infos vol surf) j = Some (bc_of (map fst verts) (1 + Z.of_nat (length vol)) surf bnd i)) by (unfold bcs; rewrite nth_error_map, N; reflexivity).
    eexists. split; [rewrite nth_error_map, (number_nth _ _ 1 _ _ NB); reflexivity|]. intros m M. cbn [b_name bc_of]. unfold bc_of. cbn [b_name]. rewrite M. reflexivity.
Qed.
Print Assumptions C156_back.
(** ** Elements *)
Definition els_cells (k : Z) (F : list (etype * list Z)) : list cell := flat_map (fun e => if is_volume (fst (snd e)) then [cell_of 0 0 0 (fst e) (fst (snd e)) (snd (snd e))] else []) (number k F).
Definition els_surf (k : Z) (F : list (etype * list Z)) : list (Z * list Z) := flat_map (fun e => if is_surface (fst (snd e)) then [(fst e, map (fun v => 0 + (v - 1)) (snd (snd e)))] else []) (number k F).
Lemma els_cells_app : forall F G k, els_cells k (F ++ G) = els_cells k F ++ els_cells (k + Z.of_nat (length F)) G.
Proof. intros. unfold els_cells. rewrite number_app, flat_map_app. reflexivity. Qed.
Lemma els_surf_app : forall F G k, els_surf k (F ++ G) = els_surf k F ++ els_surf (k + Z.of_nat (length F)) G.
Proof. intros. unfold els_surf. rewrite number_app, flat_map_app. reflexivity. Qed.
Lemma els_solid : forall t ls k, solid t -> els_cells k (map (fun l => (t, l)) ls) = map (fun e => cell_of 0 0 0 (fst e) t (snd e)) (number k ls) /\ els_surf k (map (fun l => (t, l)) ls) = [].
Proof.
  intros t ls k T. assert (Q : is_volume t = true /\ is_surface t = false) by (destruct T as [<- |[<- |[<- |[<- |[]]]]]; split; reflexivity). destruct Q as (V & S0). unfold els_cells, els_surf. revert k. induction ls as [|l ls IH]; intro k; [split; reflexivity|].
  cbn [map]. rewrite !number_cons. cbn [map flat_map fst snd]. rewrite V, S0. cbn [app]. destruct (IH (k + 1)) as (A & B). split; [f_equal; exact A|exact B].
Qed.
Lemma els_flat : forall t ls k, flat t -> els_cells k (map (fun l => (t, l)) ls) = [] /\ els_surf k (map (fun l => (t, l)) ls) = map (fun e => (fst e, map (fun v => 0 + (v - 1)) (snd e))) (number k ls).
Proof.
  intros t ls k T. assert (Q : is_volume t = false /\ is_surface t = true) by (destruct T as [<- |[<- |[]]]; split; reflexivity). destruct Q as (V & S0). unfold els_cells, els_surf. revert k. induction ls as [|l ls IH]; intro k; [split; reflexivity|].
  cbn [map]. rewrite !number_cons. cbn [map flat_map fst snd]. rewrite V, S0. cbn [app]. destruct (IH (k + 1)) as (A & B). split; [exact A|f_equal; exact B].
Qed.
Lemma run_sections : forall np secs s, sound np secs ->
  read_sections 0 0 0 (sections_of secs) s = Ok (St (s_cells s ++ els_cells (s_next s) (all_elements secs)) (s_surf s ++ els_surf (s_next s) (all_elements secs)) (s_next s + Z.of_nat (length (all_elements secs)))).
Proof.
  intros np. induction secs as [|(t, ls) secs IH]; intros s H; [destruct s; cbn; rewrite !app_nil_r, Z.add_0_r; reflexivity|]. cbn [sections_of map read_sections fst snd]. fold (sections_of secs).
  assert (TG : cgns_number t = tag_of t) by (destruct t; reflexivity). rewrite TG. destruct (H t ls (or_introl eq_refl)) as (T & L). assert (L' : forall l, In l ls -> length l = corners t) by (intros l I; apply L, I).
  assert (H' : sound np secs) by (intros t0 l0 I; apply H; right; exact I).
  unfold all_elements. cbn [flat_map fst snd]. fold (all_elements secs). rewrite els_cells_app, els_surf_app, app_length, !map_length. destruct T as [T|T].
  - rewrite (read_volume 0 0 0 t ls s T L'). cbn [bind]. rewrite (IH _ H'). cbn [s_cells s_surf s_next]. destruct (els_solid t ls (s_next s) T) as (-> & ->). cbn [app]. rewrite <- app_assoc. do 2 f_equal. lia.
  - rewrite (read_surface 0 0 0 t ls s T L'). cbn [bind]. rewrite (IH _ H'). cbn [s_cells s_surf s_next]. destruct (els_flat t ls (s_next s) T) as (-> & ->). cbn [app]. rewrite <- app_assoc. do 2 f_equal. lia.
Qed.
Lemma look_surf : forall F k j t l, nth_error F j = Some (t, l) -> is_surface t = true -> look (k + Z.of_nat j) (els_surf k F) = Some (map (fun v => 0 + (v - 1)) l).
Proof.
  induction F as [|(t0, l0) F IH]; intros k j t l N S0; [destruct j; discriminate|]. unfold els_surf. rewrite number_cons. cbn [flat_map fst snd]. fold (els_surf (k + 1) F). destruct j as [|j].
  - injection N as -> ->. rewrite S0. cbn [app look]. rewrite Z.add_0_r, Z.eqb_refl. reflexivity.
  - specialize (IH (k + 1) j t l N S0). replace (k + Z.of_nat (S j)) with (k + 1 + Z.of_nat j) by lia. destruct (is_surface t0); [|exact IH]. cbn [app look]. destruct (Z.eqb_spec (k + 1 + Z.of_nat j) k); [lia|exact IH].
Qed.
Lemma els_cells_nodup : forall F k, NoDup (map c_id (els_cells k F)) /\ forall z, In z (map c_id (els_cells k F)) -> k <= z.
Proof.
  induction F as [|(t, l) F IH]; intro k; [split; [constructor|intros z []]|]. unfold els_cells. rewrite number_cons. cbn [flat_map fst snd]. fold (els_cells (k + 1) F). destruct (IH (k + 1)) as (D & L). destruct (is_volume t); cbn [app map].
  - split; [constructor; [intro I; apply L in I; unfold cell_of in I; cbn [c_id] in I; lia|exact D]|]. intros z [<- |I]; [unfold cell_of; cbn [c_id]; lia|apply L in I; lia].
  - split; [exact D|]. intros z I. apply L in I. lia.
Qed.
Lemma els_cells_in : forall F k c, In c (els_cells k F) <-> exists j t l, nth_error F j = Some (t, l) /\ is_volume t = true /\ c = cell_of 0 0 0 (k + Z.of_nat j) t l.
Proof.
  intros F k c. unfold els_cells. rewrite in_flat_map. split.
  - intros ((i, (t, l)) & I & C). apply number_in in I. destruct I as (j & -> & N). cbn [fst snd] in C. destruct (is_volume t) eqn:V; [|destruct C]. destruct C as [<- |[]]. exists j, t, l. repeat split; assumption.
  - intros (j & t & l & N & V & ->). exists (k + Z.of_nat j, (t, l)). split; [eapply nth_error_In, number_nth, N|]. cbn [fst snd]. rewrite V. left. reflexivity.
Qed.
Lemma fst_number : forall A (l : list A) k, NoDup (map fst (number k l)) /\ forall z, In z (map fst (number k l)) -> k <= z.
Proof. intro A. induction l as [|x l IH]; intro k; [split; [constructor|intros z []]|]. rewrite number_cons. cbn [map fst]. destruct (IH (k + 1)) as (D & L). split; [constructor; [intro I; apply L in I; lia|exact D]|]. intros z [<- |I]; [lia|apply L in I; lia]. Qed.
Lemma solid_is : forall t, solid t <-> is_volume t = true.
Proof. intro t. split; [intros [<- |[<- |[<- |[<- |[]]]]]; reflexivity|destruct t; intro H; try discriminate H; unfold solid; cbn; tauto]. Qed.
Lemma flat_is : forall t, flat t -> is_surface t = true.
Proof. intros t [<- |[<- |[]]]; reflexivity. Qed.
Lemma faces_none : forall vo B (l : list (Z * bc)) got, (forall kb, In kb l -> b_elements (snd kb) = true) -> fold_left (faces_of vo B) l got = got.
Proof. intros vo B. induction l as [|x l IH]; intros got H; [reflexivity|]. cbn [fold_left]. rewrite IH by (intros; apply H; right; assumption). unfold faces_of. rewrite H by (left; reflexivity). reflexivity. Qed.

(** C157: elements are numbered over sections, whatever the order of these: those of volumes become cells with their numbers, vertices in the order of bitpit; the element patches are made of the
    elements they say. *)
Theorem C157_elements : forall border same name points n secs conds, sound (length points) secs -> distinct same points ->
  (forall b, In b conds -> b_elements b = true /\ NoDup (b_list b) /\ forall v, In v (b_list b) -> exists j t l, v = 1 + Z.of_nat j /\ nth_error (all_elements secs) j = Some (t, l) /\ flat t) ->
  exists g, read border same [Zone name points n (sections_of secs) conds] = Ok g /\ map snd (g_verts g) = points /\
  NoDup (map c_id (g_cells g)) /\
  (forall c, In c (g_cells g) <-> exists j t l, nth_error (all_elements secs) j = Some (t, l) /\ solid t /\ c = Cell (Z.of_nat j) t (bitpit_order t (map (fun v => v - 1) l)) 0) /\
  (forall p f, In (p, f) (g_surf g) <-> exists k b v j t l, nth_error conds k = Some b /\ p = 1 + Z.of_nat k /\ In v (b_list b) /\ v = 1 + Z.of_nat j /\ nth_error (all_elements secs) j = Some (t, l) /\ f = map (fun v => v - 1) l) /\
  length (g_surf g) = list_sum (map (fun b => length (b_list b)) conds).
Proof.
  intros border same name points n secs conds SO DI HB. set (F := all_elements secs) in *. set (verts := number 0 points).
  assert (MS : map snd verts = points) by apply number_snd. assert (ND : NoDup (map fst verts)) by apply fst_number.
  assert (AP : apart same verts). { intros (i, p) (j, q) I J Q. apply number_in in I, J. destruct I as (a & -> & I). destruct J as (b & -> & J). cbn [snd] in Q. assert (AB : a = b) by (eapply DI; eassumption). rewrite AB in *. congruence. }
  assert (LK : forall b, In b conds -> forall i, In i (lst b) -> exists j t l, i = Z.of_nat j /\ In (1 + Z.of_nat j) (b_list b) /\ nth_error F j = Some (t, l) /\ look i (els_surf 0 F) = Some (map (fun v => 0 + (v - 1)) l)).
  { intros b IB i I. unfold lst in I. apply in_map_iff in I. destruct I as (v & <- & I). destruct (HB b IB) as (_ & _ & H). destruct (H v I) as (j & t & l & E & N & FL). exists j, t, l. split; [lia|]. split; [rewrite <- E; exact I|]. split; [exact N|]. rewrite E. replace (1 + Z.of_nat j - 1) with (0 + Z.of_nat j) by lia. eapply look_surf; [exact N|]. apply flat_is, FL. }
  eexists. split; [|cbn [g_verts g_cells g_surf]].
  - unfold read. cbn [read_zones]. unfold read_zone. cbn [a_verts a_cells a_elems a_faces a_info a_pid a_zone a_zones length z_sections z_points z_bcs z_name]. change (Z.of_nat 0) with 0.
    rewrite (run_sections _ secs _ SO). cbn [bind s_cells s_surf s_next app]. fold F. rewrite read_bcs_run.
    2: { intros b IB _. split; [unfold lst; apply nodup_on; [apply HB, IB|intros; lia]|]. intros i I. destruct (LK b IB i I) as (j & t & l & _ & _ & _ & Q). rewrite Q. discriminate. }
    cbn [bind a_verts a_cells a_elems a_faces a_info a_pid a_zone a_zones app]. rewrite add_cells_run by (cbn [app]; apply els_cells_nodup). cbn [app]. unfold finish. cbn [a_verts a_cells a_elems a_faces a_info a_pid a_zone a_zones].
    rewrite faces_none by (intros (k, b) I; apply number_in in I; destruct I as (j & _ & N); apply HB; eapply nth_error_In, N). cbn [map app]. fold verts.
    assert (RI : forall i, rep same verts i = i) by (intro i; unfold verts; rewrite <- MS at 1; apply rep_id; assumption).
    assert (KV : forall l : list vertex, filter (fun v => Z.eqb (rep same verts (fst v)) (fst v)) l = l). { intro l. induction l as [|v l IH]; [reflexivity|]. cbn [filter]. rewrite RI, Z.eqb_refl. f_equal. exact IH. }
    assert (CV : map (fun c => Cell (c_id c) (c_type c) (map (rep same verts) (c_conn c)) (c_pid c)) (els_cells 0 F) = els_cells 0 F).
    { rewrite <- (map_id (els_cells 0 F)) at 2. apply map_ext. intros [i t l p]. cbn [c_id c_type c_conn c_pid]. f_equal. rewrite <- (map_id l) at 2. apply map_ext. exact RI. }
    rewrite KV, CV.
    assert (FB : forallb (fun e : Z * (Z * list Z) => forallb (fun v => mem v (map fst verts)) (snd (snd e))) (flat_map (elems_of (els_surf 0 F)) (number 1 conds)) = true).
    { apply forallb_forall. intros e I. apply forallb_forall. intros v IV. apply in_flat_map in I. destruct I as ((k, b) & IB & I). apply number_in in IB. destruct IB as (j0 & _ & NB). apply nth_error_In in NB. unfold elems_of in I. cbn [fst snd] in I. rewrite (proj1 (HB b NB)) in I. apply in_map_iff in I. destruct I as (i & <- & I). cbn [snd] in IV.
      destruct (LK b NB i I) as (j & t & l & -> & _ & N & Q). unfold conn_of in IV. rewrite Q in IV. apply in_map_iff in IV. destruct IV as (w & <- & IW). apply nth_error_In in N. unfold F, all_elements in N. apply in_flat_map in N. destruct N as ((t0, ls) & IS & N). cbn [fst snd] in N. apply in_map_iff in N. destruct N as (l0 & E & IL). injection E as -> ->.
      destruct (SO t ls IS) as (_ & SL). destruct (SL l IL) as (_ & RG). specialize (RG w IW). unfold mem. apply existsb_exists. exists (Z.of_nat (Z.to_nat (w - 1))). split; [apply keys_in; lia|apply Z.eqb_eq; lia]. }
    rewrite FB. reflexivity.
  - cbn [g_verts g_cells g_surf]. split; [exact MS|]. split; [apply els_cells_nodup|]. split; [|split].
    + intro c. rewrite els_cells_in. split; intros (j & t & l & N & V & ->); exists j, t, l; split; try exact N; split; try (apply solid_is; exact V); unfold cell_of; rewrite Z.add_0_l, Z.add_0_r; assert (ME : map (fun v => 0 + (v - 1)) l = map (fun v => v - 1) l) by (apply map_ext; intro; lia); rewrite ME; reflexivity.
    + intros p f. rewrite in_map_iff. assert (ME : forall l, map (fun v => 0 + (v - 1)) l = map (fun v => v - 1) l) by (intro l0; apply map_ext; intro; lia). split.
      * intros (e & E & I). injection E as <- <-. apply in_flat_map in I. destruct I as ((k, b) & IB & I). apply number_in in IB. destruct IB as (j0 & -> & NB). assert (IB := nth_error_In _ _ NB). unfold elems_of in I. cbn [fst snd] in I. rewrite (proj1 (HB b IB)) in I. apply in_map_iff in I. destruct I as (i & <- & I). cbn [fst snd].
        destruct (LK b IB i I) as (j & t & l & -> & IV & N & Q). unfold conn_of. rewrite Q. exists j0, b, (1 + Z.of_nat j), j, t, l. repeat split; assumption.
      * intros (k & b & v & j & t & l & NB & -> & IV & -> & N & ->). assert (IB := nth_error_In _ _ NB). assert (IL : In (Z.of_nat j) (lst b)) by (unfold lst; apply in_map_iff; exists (1 + Z.of_nat j); split; [lia|exact IV]). destruct (LK b IB _ IL) as (j' & t' & l' & E & _ & N' & Q). apply Nat2Z.inj in E. subst j'. rewrite N in N'. injection N' as <- <-.
        exists (1 + Z.of_nat k, (Z.of_nat j, map (fun v => 0 + (v - 1)) l)). split; [cbn [fst snd]; rewrite ME; reflexivity|]. apply in_flat_map. exists (1 + Z.of_nat k, b). split; [eapply nth_error_In, number_nth, NB|]. unfold elems_of. cbn [fst snd]. rewrite (proj1 (HB b IB)). apply in_map_iff. exists (Z.of_nat j). split; [|exact IL]. unfold conn_of. rewrite Q. reflexivity.
    + rewrite map_length. assert (HB' : forall b, In b conds -> b_elements b = true) by (intros; apply HB; assumption). clear LK HB. revert HB'. generalize 1. induction conds as [|b conds IH]; intros k HB; [reflexivity|]. rewrite number_cons. cbn [flat_map map list_sum fold_right]. rewrite app_length. unfold elems_of at 1. cbn [fst snd]. rewrite (HB b (or_introl eq_refl)), map_length. unfold lst. rewrite map_length. f_equal. apply IH. intros; apply HB; right; assumption.
Qed.
Print Assumptions C157_elements.

(** an element of ten vertices is read as if it had four: what is past the end is read *)
Theorem C157_ten_refuted : forall border same name points n a b c d e f g h i j, read border same [Zone name points n [(11, [a; b; c; d; e; f; g; h; i; j])] []] = UB.
Proof. intros. reflexivity. Qed.
Print Assumptions C157_ten_refuted.
(** in a section of mixed elements the numbers of the types are less by one too: a tetrahedron is taken for a quadrilateral, and there is no cell *)
Theorem C157_mixed_refuted : forall border same name points n a b c d, exists g, read border same [Zone name points n [(20, [cgns_number Tetra; a; b; c; d])] []] = Ok g /\ g_cells g = [].
Proof. intros. eexists. split; reflexivity. Qed.
Print Assumptions C157_mixed_refuted.
(** elements of lines are not numbered: the patch of the triangle that comes after one, of number two, throws *)
Theorem C157_line_refuted : forall border same name points n a b kind, read border same [Zone name points n [(3, a :: b :: nil); (cgns_number Triangle, [1; 2; 3])] [Bc name kind true [2]]] = Throws.
Proof. intros. reflexivity. Qed.
Print Assumptions C157_line_refuted.
(** two zones of a cell each: the second is lost when the first has a triangle before its cell *)
Theorem C157_zones_refuted : forall border same na nb pa pb n, exists g,
  read border same [Zone na pa n (sections_of [(Triangle, [[1; 2; 3]]); (Tetra, [[1; 2; 3; 4]])]) []; Zone nb pb n (sections_of [(Tetra, [[1; 2; 3; 4]])]) []] = Ok g /\ length (g_cells g) = 1%nat /\ length (g_zones g) = 2%nat.
Proof. intros. eexists. split; [reflexivity|]. split; reflexivity. Qed.
Print Assumptions C157_zones_refuted.
(** two zones with a vertex in common: the patch of elements of the second that has it throws *)
Theorem C157_interface_refuted : forall border (same : point -> point -> bool) na nb pa pb p n ta tb kind, length pa = 3%nat -> same p p = true ->
  read border same [Zone na (p :: pa) n (sections_of [(Tetra, [[1; 2; 3; 4]])]) []; Zone nb (p :: pb) n (sections_of [(Tetra, [[1; 2; 3; 4]]); (Triangle, [[1; ta; tb]])]) [Bc nb kind true [2]]] = Throws.
Proof.
  intros border same na nb pa pb p n ta tb kind L Q. destruct pa as [|p1 [|p2 [|p3 [|]]]]; try discriminate L. unfold read.
  match goal with |- bind ?x _ = _ => let y := eval cbn in x in assert (E : x = y) by reflexivity; rewrite E end. cbn [bind]. unfold finish. cbn [a_verts a_cells a_elems a_faces a_info a_zones]. match goal with |- (if ?b then _ else _) = _ => assert (F : b = false) end; [|rewrite F; reflexivity].
  apply not_true_is_false. intro F. rewrite forallb_forall in F. match type of F with forall x, In x ?l -> _ => assert (I : exists x r, l = x :: r /\ exists u v, snd (snd x) = 4 :: u :: v) by (eexists; eexists; split; [reflexivity|]; eexists; eexists; reflexivity) end.
  destruct I as (x & r & I & u & v & XV). specialize (F x). rewrite I in F. specialize (F (or_introl eq_refl)). rewrite XV in F. cbn [forallb] in F. apply andb_true_iff in F. destruct F as (F & _). unfold mem in F. apply existsb_exists in F. destruct F as (z & F & Z4). apply Z.eqb_eq in Z4. subst z.
  apply in_map_iff in F. destruct F as (w & W & F). apply filter_In in F. destruct F as (_ & F). apply Z.eqb_eq in F. rewrite W in F. unfold rep in F. cbn [look app Z.eqb Pos.eqb find fst snd] in F. cbn in F. rewrite Q in F. discriminate F.
Qed.
Print Assumptions C157_interface_refuted.

(** ** Cases *)
(** a patch of points takes all faces over its vertices: two triangles of a tetrahedron make a patch of four *)
Definition tetra_faces (c : cell) : list face := match c_conn c with [a; b; c0; d] => [((c_id c, 0%nat), [a; b; c0]); ((c_id c, 1%nat), [a; d; b]); ((c_id c, 2%nat), [b; d; c0]); ((c_id c, 3%nat), [c0; d; a])] | _ => [] end.
Theorem C156_points_refuted : forall name p q r s, exists file g,
  write name [(0, p); (1, q); (2, r); (3, s)] [Cell 0 Tetra [0; 1; 2; 3] 0] [Cell 0 Triangle [0; 1; 2] 1; Cell 1 Triangle [0; 3; 1] 1] [Info 1 0 (Some name) false] = Ok file /\
  read (flat_map tetra_faces) (fun _ _ => false) file = Ok g /\ g_surf g = [(1, [0; 1; 2]); (1, [0; 3; 1]); (1, [1; 3; 2]); (1, [2; 3; 0])].
Proof. intros. eexists. eexists. split; [vm_compute; reflexivity|]. split; [vm_compute; reflexivity|reflexivity]. Qed.
Print Assumptions C156_points_refuted.
(** a polygon of a patch of elements is not written, and the patch has the first surface element of the file in its place: here that of another patch *)
Theorem C156_polygon_refuted : forall border na nb p q r s t, exists file g,
  write na [(0, p); (1, q); (2, r); (3, s); (4, t)] [] [Cell 0 Triangle [0; 1; 2] 1; Cell 1 Another [0; 1; 2; 3; 4] 2] [Info 1 0 (Some na) true; Info 2 0 (Some nb) true] = Ok file /\
  read border (fun _ _ => false) file = Ok g /\ g_surf g = [(1, [0; 1; 2]); (2, [0; 1; 2])].
Proof. intros. eexists. eexists. split; [vm_compute; reflexivity|]. split; [vm_compute; reflexivity|reflexivity]. Qed.
Print Assumptions C156_polygon_refuted.
(** a cell of each kind, a patch of elements and one of points *)
Definition zero : point := (R0, R0, R0).
Definition some_verts : list vertex := map (fun i => (i, zero)) [7; 3; 9; 4; 5; 6; 8; 2].
Definition some_cells : list cell := [Cell 5 Hexa [2; 3; 4; 5; 6; 7; 8; 9] 1; Cell 9 Wedge [2; 3; 4; 5; 6; 7] 0; Cell 4 Tetra [9; 8; 7; 6] 2].
Definition some_bnd : list cell := [Cell 1 Triangle [9; 8; 7] 4; Cell 2 Quad [2; 3; 4; 5] 3; Cell 3 Triangle [2; 3; 4] 4].
Definition some_infos : list info := [Info 4 20 (Some [73%N]) true; Info 3 21 None false].
Lemma some_hyps : NoDup (map fst some_verts) /\ apart (fun _ _ => false) some_verts /\ (forall c, In c some_cells -> solid (c_type c) /\ on (map fst some_verts) c) /\ (forall c, In c some_bnd -> flat (c_type c) /\ on (map fst some_verts) c) /\ NoDup (map c_id some_bnd).
Proof.
  split; [repeat constructor; cbn; intuition lia|]. split; [intros v w _ _ H; discriminate H|]. split; [|split; [|repeat constructor; cbn; intuition lia]].
  - intros c [<- |[<- |[<- |[]]]]; (split; [unfold solid; cbn; tauto|split; [reflexivity|cbn; intuition]]).
  - intros c [<- |[<- |[<- |[]]]]; (split; [unfold flat; cbn; tauto|split; [reflexivity|cbn; intuition]]).
Qed.
Example C155_nonvacuous : exists file g, write [65%N] some_verts some_cells some_bnd some_infos = Ok file /\ read (fun _ => []) (fun _ _ => false) file = Ok g /\
  map c_conn (g_cells g) = [[2; 6; 0; 5]; [7; 1; 3; 4; 5; 0]; [7; 1; 3; 4; 5; 0; 6; 2]].
Proof. eexists. eexists. split; [vm_compute; reflexivity|]. split; [vm_compute; reflexivity|reflexivity]. Qed.
Example C156_nonvacuous : exists file g, write [65%N] some_verts some_cells some_bnd some_infos = Ok file /\ read (fun _ => [((0, 0%nat), [7; 1; 3]); ((0, 1%nat), [0; 1; 3])]) (fun _ _ => false) file = Ok g /\
  g_surf g = [(2, [7; 1; 3]); (1, [2; 6; 0]); (1, [7; 1; 3])] /\ map i_pid (g_info g) = [1; 2].
Proof. eexists. eexists. split; [vm_compute; reflexivity|]. split; [vm_compute; reflexivity|]. split; reflexivity. Qed.
Example C157_nonvacuous : let secs := [(Quad, [[1; 2; 3; 4]]); (Tetra, [[1; 2; 3; 5]; [2; 3; 4; 5]]); (Triangle, [[1; 2; 5]])] in
  sound 5 secs /\ exists g, read (fun _ => []) (fun _ _ => false) [Zone [65%N] [zero; zero; zero; zero; zero] 2 (sections_of secs) [Bc [66%N] 7 true [4; 1]]] = Ok g /\ map c_id (g_cells g) = [1; 2] /\ g_surf g = [(1, [0; 1; 4]); (1, [0; 1; 2; 3])].
Proof.
  split.
  - intros t ls [E|[E|[E|[]]]]; injection E as <- <-; (split; [unfold solid, flat; cbn; tauto|]); intros l H; cbn in H; repeat (destruct H as [<- |H]; [split; [reflexivity|cbn; intros; lia]|]); destruct H.
  - eexists. split; [vm_compute; reflexivity|]. split; reflexivity.
Qed.
