(** Proofs about the averages of fields. *)
From Coq Require Import Reals List Arith Bool Lra Lia.
From Verif Require Import SharedPtr SharedPtrProofs Field FieldSpec FieldProofs Vec FieldAvg FieldAvgSpec.
Import ListNotations.
Open Scope R_scope.

(** * Averages *)
Lemma rsum_app : forall l l', rsum (l ++ l') = rsum l + rsum l'.
Proof. induction l as [|x r IH]; intros l'; simpl; [lra|]. rewrite IH. lra. Qed.
Lemma rsum_pos : forall l, Forall (fun c => 0 < c) l -> l <> [] -> 0 < rsum l.
Proof.
  induction l as [|x r IH]; intros F N; [destruct (N eq_refl)|]. inversion F; subst. simpl.
  destruct r as [|y r]; [simpl; lra|]. specialize (IH H2 ltac:(discriminate)). lra.
Qed.
Lemma rsum_scale : forall k l, rsum (map (fun x => x / k) l) = rsum l / k.
Proof. induction l as [|x r IH]; simpl; [lra|]. rewrite IH. lra. Qed.

Lemma average_convex : forall l, Forall (fun e => 0 < fst e) l -> l <> [] -> convex (map snd l) (average l).
Proof.
  intros l F N.
  assert (P : 0 < rsum (map fst l)).
  { apply rsum_pos; [apply Forall_map; exact F|]. intros E. apply N. destruct l; [reflexivity|discriminate]. }
  exists (map (fun w => w / rsum (map fst l)) (map fst l)). split; [rewrite !map_length; reflexivity|]. split; [|split].
  - apply Forall_map. apply Forall_map. eapply Forall_impl; [|exact F]. intros a H. cbv beta in *.
    apply Rdiv_lt_0_compat; assumption.
  - rewrite rsum_scale. field. lra.
  - unfold average. set (s := rsum (map fst l)) in *. clearbody s. clear F N.
    assert (H : rsum (map (fun '(c, x) => c * x) (combine (map (fun w => w / s) (map fst l)) (map snd l))) =
                rsum (map (fun '(w, x) => w * x) l) / s).
    { induction l as [|[w x] r IH]; simpl; [lra|]. rewrite IH. field. lra. }
    symmetry. exact H.
Qed.

Lemma convex_bounds : forall xs y a b, convex xs y -> (forall x, In x xs -> a <= x <= b) -> a <= y <= b.
Proof.
  intros xs y a b [cs [L [F [S ->]]]] H.
  assert (K : a * rsum cs <= rsum (map (fun '(c, x) => c * x) (combine cs xs)) <= b * rsum cs).
  { clear S. revert xs L H. induction F as [|c r Hc F IH]; intros [|x xs] L H; simpl in *; try discriminate; [lra|].
    assert (Hx := H x (or_introl eq_refl)). specialize (IH xs (eq_add_S _ _ L) (fun z Hz => H z (or_intror Hz))).
    split.
    - assert (a * c <= c * x) by (rewrite (Rmult_comm a c); apply Rmult_le_compat_l; lra). lra.
    - assert (c * x <= b * c) by (rewrite (Rmult_comm b c); apply Rmult_le_compat_l; lra). lra. }
  rewrite S in K. lra.
Qed.

Lemma inv_dist_pos : forall c x p, 0 < inv_dist c x p.
Proof. intros. unfold inv_dist, Rpower. apply Rinv_0_lt_compat. apply exp_pos. Qed.
Lemma weight_apart : forall c x p, norm (vsub c x) <> 0 -> weight c x p = Val (inv_dist c x p).
Proof. intros c x p H. unfold weight, inv_pow. destruct (Req_EM_T _ 0); [contradiction|reflexivity]. Qed.

(** * Point to cell *)
Definition contrib (m : metric) (p : R) (c : vec) (d : list (nat * R)) (v : nat) : R * R :=
  (inv_dist c (m_point m v) p, match find v d with Some x => x | None => 0 end).

Lemma gather_ok : forall m p c d vs acc, (forall v, In v vs -> norm (vsub c (m_point m v)) <> 0) ->
  (forall v, In v vs -> find v d <> None) ->
  gather m p c vs d acc =
    match vs, acc with
    | [], _ => Val acc
    | _, None => Val (Some (rsum (map (fun '(w, x) => w * x) (map (contrib m p c d) vs)), rsum (map fst (map (contrib m p c d) vs))))
    | _, Some (s, sw) => Val (Some (s + rsum (map (fun '(w, x) => w * x) (map (contrib m p c d) vs)),
                                    sw + rsum (map fst (map (contrib m p c d) vs))))
    end.
Proof.
  intros m p c d. induction vs as [|v r IH]; intros acc A F; [reflexivity|].
  cbn [gather]. rewrite weight_apart by (apply A; left; reflexivity). cbn [obind].
  unfold at_. destruct (find v d) as [x|] eqn:Fv; [|destruct (F v (or_introl eq_refl) Fv)]. cbn [obind].
  rewrite IH by (intros; first [apply A|apply F]; right; assumption).
  assert (C : contrib m p c d v = (inv_dist c (m_point m v) p, x)) by (unfold contrib; rewrite Fv; reflexivity).
  destruct acc as [[s sw]|]; cbn [map rsum]; rewrite C; cbn [fst]; destruct r as [|v' r]; cbn [map rsum];
    f_equal; f_equal; f_equal; lra.
Qed.

Lemma gather_missing : forall m p c d vs acc v, (forall v, In v vs -> norm (vsub c (m_point m v)) <> 0) ->
  In v vs -> find v d = None -> gather m p c vs d acc = Throw.
Proof.
  intros m p c d. induction vs as [|u r IH]; intros acc v A I F; [destruct I|].
  cbn [gather]. rewrite weight_apart by (apply A; left; reflexivity). cbn [obind]. unfold at_.
  destruct (find u d) as [x|] eqn:Fu; [|reflexivity]. cbn [obind].
  destruct I as [->|I]; [congruence|]. apply (IH _ v); [intros; apply A; right; assumption|exact I|exact F].
Qed.

Lemma p2c_ok : forall m p d cells out, NoDup (map fst out ++ map fst cells) ->
  (forall c vs v, In (c, vs) cells -> In v vs -> norm (vsub (m_center m c) (m_point m v)) <> 0) ->
  (forall c vs v, In (c, vs) cells -> In v vs -> find v d <> None) ->
  (forall c vs, In (c, vs) cells -> vs <> []) ->
  p2c_loop m p cells d out =
    Val (out ++ map (fun '(c, vs) => (c, average (map (contrib m p (m_center m c) d) vs))) cells).
Proof.
  intros m p d. induction cells as [|[c vs] r IH]; intros out N A F E; cbn [p2c_loop map].
  - rewrite app_nil_r. reflexivity.
  - rewrite gather_ok; [|intros v Hv; apply (A c vs v); [left; reflexivity|exact Hv]|
                         intros v Hv; apply (F c vs v); [left; reflexivity|exact Hv]].
    assert (Ne : vs <> []) by (apply (E c vs); left; reflexivity).
    destruct vs as [|v0 vs0] eqn:Ev; [destruct (Ne eq_refl)|]. rewrite <- Ev in *. cbn [obind].
    unfold ins_, insert. replace (exists_id c out) with false.
    + cbn [obind]. fold (average (map (contrib m p (m_center m c) d) vs)). rewrite IH.
      * rewrite <- app_assoc. reflexivity.
      * rewrite map_app, <- app_assoc. exact N.
      * intros; eapply A; [right; eassumption|assumption].
      * intros; eapply F; [right; eassumption|assumption].
      * intros; eapply E; right; eassumption.
    + symmetry. apply exists_not. intros H. apply NoDup_remove_2 in N. apply N. apply in_or_app. left. exact H.
Qed.

Lemma contrib_value : forall m p c (f : mpv R) vs, (forall v, In v vs -> value f v <> None) ->
  map Some (map snd (map (contrib m p c (f_data f)) vs)) = map (value f) vs.
Proof.
  induction vs as [|v r IH]; intros H; simpl; [reflexivity|]. rewrite IH by (intros; apply H; right; assumption).
  f_equal. assert (K := H v (or_introl eq_refl)). unfold value in *. destruct (find v (f_data f)); [reflexivity|destruct (K eq_refl)].
Qed.

Lemma find_map_pairs : forall (F : nat -> list nat -> R) cells c vs, NoDup (map fst cells) -> In (c, vs) cells ->
  find c (map (fun '(c, vs) => (c, F c vs)) cells) = Some (F c vs).
Proof.
  intros F. induction cells as [|[k ks] r IH]; intros c vs N I; [destruct I|]. simpl in N. apply NoDup_cons_iff in N.
  simpl. destruct I as [I|I].
  - injection I as -> ->. rewrite Nat.eqb_refl. reflexivity.
  - destruct (Nat.eqb k c) eqn:E; [|apply IH; tauto]. apply Nat.eqb_eq in E. subst k.
    destruct N as [N _]. destruct N. apply in_map_iff. exists (c, vs). split; [reflexivity|exact I].
Qed.

Lemma point_to_cell_ok : forall m p g (f : mpv R), geom_ok g -> apart m g ->
  (forall c vs, In (c, vs) (g_cells g) -> vs <> [] /\ forall v, In v vs -> value f v <> None) ->
  exists f', point_to_cell m p g f = Val f' /\ f_geo f' = Some g /\ f_loc f' = LCell /\
    map fst (f_data f') = map fst (g_cells g) /\
    forall c vs, In (c, vs) (g_cells g) -> exists xs, map Some xs = map (value f) vs /\
      value f' c = Some (average (combine (map (fun v => inv_dist (m_center m c) (m_point m v) p) vs) xs)).
Proof.
  intros m p g f [_ [N _]] [A _] H. unfold point_to_cell.
  rewrite (p2c_ok m p (f_data f) (g_cells g) []); [|exact N|exact A| |intros c vs I; apply (H c vs I)].
  2:{ intros c vs v I Iv. apply (proj2 (H c vs I) v Iv). }
  cbn [obind app]. eexists. split; [reflexivity|]. split; [reflexivity|]. split; [reflexivity|].
  cbn [f_data]. split.
  - rewrite map_map. apply map_ext. intros [c vs]. reflexivity.
  - intros c vs I. exists (map snd (map (contrib m p (m_center m c) (f_data f)) vs)). split.
    + apply contrib_value. apply (H c vs I).
    + unfold value. cbn [f_data].
      rewrite (find_map_pairs (fun c vs => average (map (contrib m p (m_center m c) (f_data f)) vs)) _ c vs N I).
      f_equal. f_equal. clear. induction vs as [|v r IH]; simpl; [reflexivity|]. rewrite <- IH. reflexivity.
Qed.

Lemma p2c_missing : forall m p d cells out c vs v,
  (forall c vs v, In (c, vs) cells -> In v vs -> norm (vsub (m_center m c) (m_point m v)) <> 0) ->
  In (c, vs) cells -> In v vs -> find v d = None -> forall d', p2c_loop m p cells d out <> Val d'.
Proof.
  intros m p d. induction cells as [|[k ks] r IH]; intros out c vs v A I Iv F d' E; [destruct I|].
  cbn [p2c_loop] in E. destruct I as [I|I].
  - injection I as -> ->. rewrite (gather_missing _ _ _ _ _ _ v) in E; [discriminate| |exact Iv|exact F].
    intros u Hu. apply (A c vs u); [left; reflexivity|exact Hu].
  - destruct (gather m p (m_center m k) ks d None) as [[[s sw]|]| | |]; cbn [obind] in E; try discriminate.
    unfold ins_ in E. destruct (insert k (s / sw) out) as [out'|]; cbn [obind] in E; [|discriminate].
    apply (IH out' c vs v (fun a b e Ha Hb => A a b e (or_intror Ha) Hb) I Iv F d' E).
Qed.

(** * Cell to point *)
Definition holds (pd sw : list (nat * R)) (L : nat -> list (R * R)) : Prop :=
  NoDup (map fst pd) /\
  forall v, match L v with
            | [] => find v pd = None /\ find v sw = None
            | l => find v pd = Some (rsum (map (fun '(w, x) => w * x) l)) /\ find v sw = Some (rsum (map fst l))
            end.
Definition add_at (v : nat) (e : R * R) (L : nat -> list (R * R)) : nat -> list (R * R) :=
  fun u => if Nat.eqb v u then L u ++ [e] else L u.

Lemma holds_step : forall pd sw L v w x, holds pd sw L ->
  exists pd' sw',
    match find v pd with
    | None => obind (ins_ v (x * w) pd) (fun pd => obind (ins_ v w sw) (fun sw => Val (pd, sw)))
    | Some y => obind (ref_ v sw) (fun s => Val (set v (y + x * w) pd, set v (s + w) sw))
    end = Val (pd', sw') /\ holds pd' sw' (add_at v (w, x) L).
Proof.
  intros pd sw L v w x [N H]. pose proof (H v) as Hv. destruct (L v) as [|e l] eqn:E.
  - destruct Hv as [Hp Hs]. rewrite Hp. unfold ins_, insert, exists_id. rewrite Hp, Hs. cbn [obind].
    exists (pd ++ [(v, x * w)]), (sw ++ [(v, w)]). split; [reflexivity|]. split.
    + rewrite map_app. apply nodup_snoc; [exact N|]. apply find_none_keys. exact Hp.
    + intros u. unfold add_at. rewrite !find_app. simpl. destruct (Nat.eqb v u) eqn:Eu.
      * apply Nat.eqb_eq in Eu. subst u. rewrite E, Hp, Hs. simpl. split; f_equal; lra.
      * specialize (H u). destruct (L u); destruct H as [-> ->]; split; reflexivity.
  - destruct Hv as [Hp Hs]. rewrite Hp. unfold ref_. rewrite Hs. cbn [obind].
    eexists. eexists. split; [reflexivity|]. split; [apply nodup_set; exact N|].
    intros u. unfold add_at. rewrite !find_set. destruct (Nat.eqb v u) eqn:Eu; [|apply H].
    apply Nat.eqb_eq in Eu. subst u. rewrite E. cbn [app]. cbn [map rsum].
    rewrite !map_app, !rsum_app. destruct e as [w0 x0]. cbn [map rsum fst]. split; f_equal; lra.
Qed.

Lemma holds_ext : forall pd sw L L', (forall v, L v = L' v) -> holds pd sw L -> holds pd sw L'.
Proof. intros pd sw L L' E [N H]. split; [exact N|]. intros v. rewrite <- E. apply H. Qed.

Lemma scatter_ok : forall m p c x vs pd sw L, (forall v, In v vs -> norm (vsub c (m_point m v)) <> 0) ->
  holds pd sw L ->
  exists pd' sw', scatter m p c x vs pd sw = Val (pd', sw') /\
    holds pd' sw' (fun v => L v ++ map (fun _ => (inv_dist c (m_point m v) p, x)) (filter (Nat.eqb v) vs)).
Proof.
  intros m p c x. induction vs as [|v r IH]; intros pd sw L A H.
  - exists pd, sw. split; [reflexivity|]. eapply holds_ext; [|exact H]. intros v. simpl. rewrite app_nil_r. reflexivity.
  - cbn [scatter]. rewrite weight_apart by (apply A; left; reflexivity). cbn [obind].
    set (w := inv_dist c (m_point m v) p).
    destruct (holds_step pd sw L v w x H) as [pd1 [sw1 [S H1]]].
    assert (A' : forall u, In u r -> norm (vsub c (m_point m u)) <> 0) by (intros; apply A; right; assumption).
    destruct (IH pd1 sw1 _ A' H1) as [pd' [sw' [F H']]].
    exists pd', sw'. split.
    + destruct (find v pd) as [y|].
      * destruct (ref_ v sw); cbn [obind] in *; try discriminate. injection S as <- <-. exact F.
      * destruct (ins_ v (x * w) pd); cbn [obind] in *; try discriminate.
        destruct (ins_ v w sw); cbn [obind] in *; try discriminate. injection S as <- <-. exact F.
    + eapply holds_ext; [|exact H']. intros u. unfold add_at. simpl. rewrite (Nat.eqb_sym u v).
      destruct (Nat.eqb v u) eqn:E; [|reflexivity]. apply Nat.eqb_eq in E. subst u.
      rewrite <- app_assoc. reflexivity.
Qed.

Lemma c2p_ok : forall m p d cells pd sw L,
  (forall c vs v, In (c, vs) cells -> In v vs -> norm (vsub (m_center m c) (m_point m v)) <> 0) ->
  holds pd sw L ->
  exists pd' sw', c2p_loop m p cells d pd sw = Val (pd', sw') /\
    holds pd' sw' (fun v => L v ++ flat_map (fun '(c, vs) => match find c d with
        | None => []
        | Some x => map (fun _ => (inv_dist (m_center m c) (m_point m v) p, x)) (filter (Nat.eqb v) vs) end) cells).
Proof.
  intros m p d. induction cells as [|[c vs] r IH]; intros pd sw L A H.
  - exists pd, sw. split; [reflexivity|]. eapply holds_ext; [|exact H]. intros v. simpl. rewrite app_nil_r. reflexivity.
  - assert (A' : forall c vs v, In (c, vs) r -> In v vs -> norm (vsub (m_center m c) (m_point m v)) <> 0)
      by (intros; eapply A; [right; eassumption|assumption]).
    cbn [c2p_loop]. destruct (find c d) as [x|] eqn:F.
    + destruct (scatter_ok m p (m_center m c) x vs pd sw L) as [pd1 [sw1 [S H1]]];
        [intros v Hv; apply (A c vs v); [left; reflexivity|exact Hv]|exact H|].
      rewrite S. cbn [obind]. destruct (IH pd1 sw1 _ A' H1) as [pd' [sw' [E H']]].
      exists pd', sw'. split; [exact E|]. eapply holds_ext; [|exact H']. intros v. cbn [flat_map]. rewrite F.
      rewrite <- app_assoc. reflexivity.
    + destruct (IH pd sw L A' H) as [pd' [sw' [E H']]]. exists pd', sw'. split; [exact E|].
      eapply holds_ext; [|exact H']. intros v. cbn [flat_map]. rewrite F. reflexivity.
Qed.

Lemma divide_ok : forall sw verts pd, NoDup verts -> (forall v, In v verts -> find v pd <> None -> find v sw <> None) ->
  exists pd', divide verts pd sw = Val pd' /\
    forall v, find v pd' = match find v pd with
                           | None => None
                           | Some y => if existsb (Nat.eqb v) verts
                                       then Some (y / match find v sw with Some s => s | None => 0 end) else Some y
                           end.
Proof.
  intros sw. induction verts as [|u r IH]; intros pd N H; cbn [divide existsb].
  - exists pd. split; [reflexivity|]. intros v. destruct (find v pd); reflexivity.
  - apply NoDup_cons_iff in N. destruct N as [Nu N]. destruct (find u pd) as [y|] eqn:F.
    + pose proof (H u (or_introl eq_refl)) as Hs. rewrite F in Hs. unfold ref_.
      destruct (find u sw) as [s|] eqn:Fs; [|destruct (Hs ltac:(discriminate) eq_refl)]. cbn [obind].
      destruct (IH (set u (y / s) pd) N) as [pd' [E K]].
      { intros v Iv Hv. rewrite find_set in Hv. destruct (Nat.eqb u v) eqn:Ev.
        - apply Nat.eqb_eq in Ev. subst v. contradiction.
        - apply H; [right; exact Iv|exact Hv]. }
      exists pd'. split; [exact E|]. intros v. rewrite K, find_set, (Nat.eqb_sym v u). destruct (Nat.eqb u v) eqn:Ev.
      * apply Nat.eqb_eq in Ev. subst v. rewrite F. cbn [orb].
        replace (existsb (Nat.eqb u) r) with false; [rewrite Fs; reflexivity|].
        symmetry. apply not_true_is_false. intros B. apply in_existsb in B. contradiction.
      * reflexivity.
    + destruct (IH pd N) as [pd' [E K]]; [intros v Iv; apply H; right; exact Iv|].
      exists pd'. split; [exact E|]. intros v. rewrite K. destruct (find v pd) eqn:Fv; [|reflexivity].
      destruct (Nat.eqb v u) eqn:Ev; [|reflexivity]. apply Nat.eqb_eq in Ev. congruence.
Qed.

Lemma received_vertex : forall m p g d v, closed_geom g -> received m p g d v <> [] -> In v (g_verts g).
Proof.
  intros m p g d v C H. unfold received in H.
  destruct (flat_map _ (g_cells g)) as [|e l] eqn:E; [destruct (H eq_refl)|].
  assert (I : In e (e :: l)) by (left; reflexivity). rewrite <- E in I. apply in_flat_map in I.
  destruct I as [[c vs] [Ic Ie]]. destruct (find c d) as [x|]; [|destruct Ie].
  apply in_map_iff in Ie. destruct Ie as [u [_ Iu]]. apply filter_In in Iu. destruct Iu as [Iu Eu].
  apply Nat.eqb_eq in Eu. subst u. exact (C c vs v Ic Iu).
Qed.

Lemma cell_to_point_ok : forall m p g (f : mpv R), geom_ok g -> closed_geom g -> apart m g ->
  exists f', cell_to_point m p g f = Val f' /\ f_geo f' = Some g /\ f_loc f' = LPoint /\
    forall v, value f' v = match received m p g (f_data f) v with [] => None | l => Some (average l) end.
Proof.
  intros m p g f [N _] C [A _]. unfold cell_to_point.
  assert (H0 : holds [] [] (fun _ => [])) by (split; [constructor|intros v; split; reflexivity]).
  destruct (c2p_ok m p (f_data f) (g_cells g) [] [] _ A H0) as [pd [sw [E [Np H]]]]. rewrite E. cbn [obind].
  assert (H' : forall v, match received m p g (f_data f) v with
            | [] => find v pd = None /\ find v sw = None
            | l => find v pd = Some (rsum (map (fun '(w, x) => w * x) l)) /\ find v sw = Some (rsum (map fst l))
            end) by exact H. clear H.
  destruct (divide_ok sw (g_verts g) pd N) as [pd' [D K]].
  { intros v _ F. specialize (H' v). destruct (received m p g (f_data f) v); destruct H' as [Hp Hs]; congruence. }
  rewrite D. cbn [obind]. eexists. split; [reflexivity|]. split; [reflexivity|]. split; [reflexivity|].
  intros v. unfold value. cbn [f_data]. rewrite K. specialize (H' v).
  destruct (received m p g (f_data f) v) as [|e l] eqn:R; destruct H' as [Hp Hs]; rewrite Hp; [reflexivity|]. rewrite Hs.
  assert (I : In v (g_verts g)) by (apply (received_vertex m p g (f_data f) v C); rewrite R; discriminate).
  apply in_existsb in I. rewrite I. reflexivity.
Qed.

Lemma received_pos : forall m p g d v, Forall (fun e => 0 < fst e) (received m p g d v).
Proof.
  intros. apply Forall_forall. intros e H. unfold received in H. apply in_flat_map in H.
  destruct H as [[c vs] [_ H]]. destruct (find c d); [|destruct H]. apply in_map_iff in H.
  destruct H as [u [<- _]]. apply inv_dist_pos.
Qed.
Lemma received_data : forall m p g d v x, In x (map snd (received m p g d v)) <->
  exists c vs, In (c, vs) (g_cells g) /\ In v vs /\ find c d = Some x.
Proof.
  intros m p g d v x. split.
  - intros H. apply in_map_iff in H. destruct H as [e [<- H]]. unfold received in H. apply in_flat_map in H.
    destruct H as [[c vs] [I H]]. destruct (find c d) as [y|] eqn:F; [|destruct H]. apply in_map_iff in H.
    destruct H as [u [<- Iu]]. apply filter_In in Iu. destruct Iu as [Iu Eu]. apply Nat.eqb_eq in Eu. subst u.
    exists c, vs. auto.
  - intros [c [vs [I [Iv F]]]]. apply in_map_iff.
    exists (inv_dist (m_center m c) (m_point m v) p, x). split; [reflexivity|]. unfold received. apply in_flat_map.
    exists (c, vs). split; [exact I|]. rewrite F. apply in_map_iff. exists v. split; [reflexivity|].
    apply filter_In. split; [exact Iv|apply Nat.eqb_refl].
Qed.

(** * Point to boundary interface *)
Lemma all_found : forall (d : list (nat * R)) vs,
  Nat.eqb (length (filter (fun v => exists_id v d) vs)) (length vs) = true <-> forall v, In v vs -> find v d <> None.
Proof.
  intros d vs. rewrite Nat.eqb_eq. induction vs as [|v r IH]; simpl.
  - split; [intros _ v []|reflexivity].
  - assert (L : (length (filter (fun v => exists_id v d) r) <= length r)%nat).
    { clear. induction r as [|x r IH]; simpl; [lia|]. destruct (exists_id x d); simpl; lia. }
    unfold exists_id at 1. destruct (find v d) as [x|] eqn:F; simpl.
    + split; [intros H u [<-|I]; [congruence|apply IH; [lia|exact I]]|]. intros H. f_equal. apply IH. intros u I. apply H. right. exact I.
    + split; [lia|]. intros H. destruct (H v (or_introl eq_refl) F).
Qed.
Definition covered (d : list (nat * R)) (e : nat * (bool * list nat)) : bool :=
  fst (snd e) && Nat.eqb (length (filter (fun v => exists_id v d) (snd (snd e)))) (length (snd (snd e))).
Lemma p2i_ok : forall m p d ifaces out, NoDup (map fst out ++ map fst ifaces) ->
  (forall i b vs v, In (i, (b, vs)) ifaces -> In v vs -> norm (vsub (m_icenter m i) (m_point m v)) <> 0) ->
  (forall i b vs, In (i, (b, vs)) ifaces -> vs <> []) ->
  p2i_loop m p ifaces d out =
    Val (out ++ map (fun e => (fst e, average (map (contrib m p (m_icenter m (fst e)) d) (snd (snd e))))) (filter (covered d) ifaces)).
Proof.
  intros m p d. induction ifaces as [|[i [b vs]] r IH]; intros out N A E; cbn [p2i_loop map filter].
  - rewrite app_nil_r. reflexivity.
  - assert (A' : forall i b vs v, In (i, (b, vs)) r -> In v vs -> norm (vsub (m_icenter m i) (m_point m v)) <> 0)
      by (intros; eapply A; [right; eassumption|assumption]).
    assert (E' : forall i b vs, In (i, (b, vs)) r -> vs <> []) by (intros; eapply E; right; eassumption).
    change (covered d (i, (b, vs))) with (b && Nat.eqb (length (filter (fun v => exists_id v d) vs)) (length vs)).
    destruct (b && _) eqn:Cv.
    + apply andb_true_iff in Cv. destruct Cv as [_ Cv]. pose proof (proj1 (all_found _ _) Cv) as Cf.
      rewrite gather_ok; [|intros v Hv; apply (A i b vs v); [left; reflexivity|exact Hv]|exact Cf].
      assert (Ne : vs <> []) by (apply (E i b vs); left; reflexivity).
      destruct vs as [|v0 vs0] eqn:Ev; [destruct (Ne eq_refl)|]. rewrite <- Ev in *. cbn [obind].
      unfold ins_, insert. replace (exists_id i out) with false.
      * cbn [obind]. fold (average (map (contrib m p (m_icenter m i) d) vs)). rewrite IH; [|rewrite map_app, <- app_assoc; exact N|exact A'|exact E'].
        rewrite <- app_assoc. reflexivity.
      * symmetry. apply exists_not. intros H. apply NoDup_remove_2 in N. apply N. apply in_or_app. left. exact H.
    + apply IH; [apply NoDup_remove_1 in N; exact N|exact A'|exact E'].
Qed.

Lemma find_map_filter : forall (F : nat * (bool * list nat) -> R) (q : nat * (bool * list nat) -> bool) l i e,
  NoDup (map fst l) -> In (i, e) l ->
  find i (map (fun x => (fst x, F x)) (filter q l)) = if q (i, e) then Some (F (i, e)) else None.
Proof.
  intros F q. induction l as [|[k e'] r IH]; intros i e N I; [destruct I|]. simpl in N. apply NoDup_cons_iff in N.
  destruct N as [Nk N]. destruct I as [I|I].
  - injection I as -> ->. simpl. destruct (q (i, e)); simpl; [rewrite Nat.eqb_refl; reflexivity|].
    apply find_none_keys. unfold keys. rewrite map_map. simpl. intros H. apply Nk.
    apply in_map_iff in H. destruct H as [x [<- H]]. apply filter_In in H. apply in_map. tauto.
  - specialize (IH i e N I). simpl. destruct (q (k, e')); simpl; [|exact IH].
    destruct (Nat.eqb k i) eqn:E; [|exact IH]. apply Nat.eqb_eq in E. subst k. destruct Nk.
    apply in_map_iff. exists (i, e). split; [reflexivity|exact I].
Qed.

Lemma point_to_boundary_ok : forall m p g (f : mpv R), geom_ok g -> apart m g ->
  (forall i b vs, In (i, (b, vs)) (g_ifaces g) -> vs <> []) ->
  exists f', point_to_boundary m p g f = Val f' /\ f_geo f' = Some g /\ f_loc f' = LIface /\
    (forall i, value f' i <> None -> In i (map fst (g_ifaces g))) /\
    forall i b vs, In (i, (b, vs)) (g_ifaces g) ->
      ((b = true /\ forall v, In v vs -> value f v <> None) /\
       exists xs, map Some xs = map (value f) vs /\
         value f' i = Some (average (combine (map (fun v => inv_dist (m_icenter m i) (m_point m v) p) vs) xs)))
      \/ (~ (b = true /\ forall v, In v vs -> value f v <> None) /\ value f' i = None).
Proof.
  intros m p g f [_ [_ N]] [_ A] E. unfold point_to_boundary.
  rewrite (p2i_ok m p (f_data f) (g_ifaces g) []); [|exact N|exact A|exact E]. cbn [obind app].
  eexists. split; [reflexivity|]. split; [reflexivity|]. split; [reflexivity|]. cbn [f_data]. split.
  - intros i H. apply value_in in H. cbn [f_data] in H. rewrite map_map in H. simpl in H. apply in_map_iff in H.
    destruct H as [x [<- H]]. apply filter_In in H. apply in_map. tauto.
  - intros i b vs I. unfold value at 3 5. cbn [f_data].
    rewrite (find_map_filter (fun e => average (map (contrib m p (m_icenter m (fst e)) (f_data f)) (snd (snd e)))) _ _ i (b, vs) N I).
    cbn [fst snd]. destruct (covered (f_data f) (i, (b, vs))) eqn:Cv.
    + left. unfold covered in Cv. cbn [fst snd] in Cv. apply andb_true_iff in Cv. destruct Cv as [Cb Cv].
      pose proof (proj1 (all_found _ _) Cv) as Cf. split; [split; [exact Cb|exact Cf]|].
      exists (map snd (map (contrib m p (m_icenter m i) (f_data f)) vs)). split; [apply contrib_value; exact Cf|].
      f_equal. f_equal. clear. induction vs as [|v r IH]; simpl; [reflexivity|]. rewrite <- IH. reflexivity.
    + right. split; [|reflexivity]. intros [Cb Cf]. unfold covered in Cv. cbn [fst snd] in Cv.
      rewrite Cb in Cv. rewrite (proj2 (all_found _ _) Cf) in Cv. discriminate.
Qed.

(** * Cell to point with gradients *)
Lemma gscatter_ok : forall m c w x grad vs pd sw L, holds pd sw L ->
  exists pd' sw', gscatter m false c w x grad vs pd sw = Val (pd', sw') /\
    holds pd' sw' (fun v => L v ++ map (fun _ => (w, extrapolate x grad (vsub (m_point m v) c))) (filter (Nat.eqb v) vs)).
Proof.
  intros m c w x grad. induction vs as [|v r IH]; intros pd sw L H.
  - exists pd, sw. split; [reflexivity|]. eapply holds_ext; [|exact H]. intros v. simpl. rewrite app_nil_r. reflexivity.
  - cbn [gscatter].
    set (y := extrapolate x grad (vsub (m_point m v) c)).
    destruct (holds_step pd sw L v w y H) as [pd1 [sw1 [S H1]]].
    destruct (IH pd1 sw1 _ H1) as [pd' [sw' [F H']]].
    exists pd', sw'. split.
    + destruct (find v pd) as [z|].
      * destruct (ref_ v sw); cbn [obind] in *; try discriminate. injection S as <- <-. exact F.
      * destruct (ins_ v (y * w) pd); cbn [obind] in *; try discriminate.
        destruct (ins_ v w sw); cbn [obind] in *; try discriminate. injection S as <- <-. exact F.
    + eapply holds_ext; [|exact H']. intros u. unfold add_at. simpl. rewrite (Nat.eqb_sym u v).
      destruct (Nat.eqb v u) eqn:E; [|reflexivity]. apply Nat.eqb_eq in E. subst u.
      rewrite <- app_assoc. reflexivity.
Qed.

Lemma g2p_ok : forall m f fx fy fz cells pd sw L,
  (forall c vs, In (c, vs) cells -> m_volume m c <> 0) ->
  (forall c vs, In (c, vs) cells -> find c (f_data f) <> None ->
     find c (f_data fx) <> None /\ find c (f_data fy) <> None /\ find c (f_data fz) <> None) ->
  holds pd sw L ->
  exists pd' sw', g2p_loop m false cells (f_data f) (f_data fx) (f_data fy) (f_data fz) pd sw = Val (pd', sw') /\
    holds pd' sw' (fun v => L v ++ flat_map (fun '(c, vs) => match find c (f_data f) with
        | None => []
        | Some x => map (fun _ => (/ Rpower (m_volume m c) 3,
                                   extrapolate x (cell_grad fx fy fz c) (vsub (m_point m v) (m_center m c))))
                        (filter (Nat.eqb v) vs) end) cells).
Proof.
  intros m f fx fy fz. induction cells as [|[c vs] r IH]; intros pd sw L A G H.
  - exists pd, sw. split; [reflexivity|]. eapply holds_ext; [|exact H]. intros v. simpl. rewrite app_nil_r. reflexivity.
  - assert (A' : forall c vs, In (c, vs) r -> m_volume m c <> 0) by (intros; eapply A; right; eassumption).
    assert (G' : forall c vs, In (c, vs) r -> find c (f_data f) <> None ->
     find c (f_data fx) <> None /\ find c (f_data fy) <> None /\ find c (f_data fz) <> None)
      by (intros; eapply G; [right; eassumption|assumption]).
    cbn [g2p_loop]. destruct (find c (f_data f)) as [x|] eqn:F.
    + assert (W : inv_pow (m_volume m c) 3 = Val (/ Rpower (m_volume m c) 3)).
      { unfold inv_pow. destruct (Req_EM_T (m_volume m c) 0) as [e|]; [|reflexivity]. destruct (A c vs (or_introl eq_refl) e). }
      rewrite W. cbn [obind]. destruct vs as [|v0 vs0] eqn:Ev.
      * destruct (IH pd sw L A' G' H) as [pd' [sw' [E H']]]. exists pd', sw'. split; [exact E|].
        eapply holds_ext; [|exact H']. intros v. cbn [flat_map filter map app]. rewrite F. reflexivity.
      * rewrite <- Ev. rewrite <- Ev in A, G. clear Ev.
        destruct (G c vs (or_introl eq_refl)) as [Gx [Gy Gz]]; [rewrite F; discriminate|].
        unfold at_. destruct (find c (f_data fx)) as [x1|] eqn:F1; [|destruct (Gx eq_refl)].
        destruct (find c (f_data fy)) as [x2|] eqn:F2; [|destruct (Gy eq_refl)].
        destruct (find c (f_data fz)) as [x3|] eqn:F3; [|destruct (Gz eq_refl)]. cbn [obind].
        assert (Cg : cell_grad fx fy fz c = V3 x1 x2 x3) by (unfold cell_grad; rewrite F1, F2, F3; reflexivity).
        destruct (gscatter_ok m (m_center m c) (/ Rpower (m_volume m c) 3) x (V3 x1 x2 x3) vs pd sw L H) as [pd1 [sw1 [S H1]]].
        rewrite S. cbn [obind]. destruct (IH pd1 sw1 _ A' G' H1) as [pd' [sw' [E H']]].
        exists pd', sw'. split; [exact E|]. eapply holds_ext; [|exact H']. intros v. cbn [flat_map]. rewrite F, Cg.
        rewrite <- app_assoc. reflexivity.
    + destruct (IH pd sw L A' G' H) as [pd' [sw' [E H']]]. exists pd', sw'. split; [exact E|].
      eapply holds_ext; [|exact H']. intros v. cbn [flat_map]. rewrite F. reflexivity.
Qed.

Lemma rebuilt_vertex : forall rec m g f fx fy fz v, closed_geom g -> rebuilt rec m g f fx fy fz v <> [] -> In v (g_verts g).
Proof.
  intros rec m g f fx fy fz v C H. unfold rebuilt in H.
  destruct (flat_map _ (g_cells g)) as [|e l] eqn:E; [destruct (H eq_refl)|].
  assert (I : In e (e :: l)) by (left; reflexivity). rewrite <- E in I. apply in_flat_map in I.
  destruct I as [[c vs] [Ic Ie]]. destruct (find c (f_data f)) as [x|]; [|destruct Ie].
  apply in_map_iff in Ie. destruct Ie as [u [_ Iu]]. apply filter_In in Iu. destruct Iu as [Iu Eu].
  apply Nat.eqb_eq in Eu. subst u. exact (C c vs v Ic Iu).
Qed.

Lemma cell_to_point_grad_ok : forall m g (f fx fy fz : mpv R), geom_ok g -> closed_geom g ->
  (forall c vs, In (c, vs) (g_cells g) -> m_volume m c <> 0) ->
  (forall c vs, In (c, vs) (g_cells g) -> value f c <> None -> value fx c <> None /\ value fy c <> None /\ value fz c <> None) ->
  exists f', cell_to_point_grad m false g f fx fy fz = Val f' /\ f_geo f' = Some g /\ f_loc f' = LPoint /\
    forall v, value f' v = match rebuilt extrapolate m g f fx fy fz v with [] => None | l => Some (average l) end.
Proof.
  intros m g f fx fy fz [N _] C A G. unfold cell_to_point_grad.
  assert (H0 : holds [] [] (fun _ => [])) by (split; [constructor|intros v; split; reflexivity]).
  destruct (g2p_ok m f fx fy fz (g_cells g) [] [] _ A G H0) as [pd [sw [E [Np H]]]]. rewrite E. cbn [obind].
  assert (H' : forall v, match rebuilt extrapolate m g f fx fy fz v with
            | [] => find v pd = None /\ find v sw = None
            | l => find v pd = Some (rsum (map (fun '(w, x) => w * x) l)) /\ find v sw = Some (rsum (map fst l))
            end) by exact H. clear H.
  destruct (divide_ok sw (g_verts g) pd N) as [pd' [D K]].
  { intros v _ F. specialize (H' v). destruct (rebuilt extrapolate m g f fx fy fz v); destruct H' as [Hp Hs]; congruence. }
  rewrite D. cbn [obind]. eexists. split; [reflexivity|]. split; [reflexivity|]. split; [reflexivity|].
  intros v. unfold value. cbn [f_data]. rewrite K. specialize (H' v).
  destruct (rebuilt extrapolate m g f fx fy fz v) as [|e l] eqn:R; destruct H' as [Hp Hs]; rewrite Hp; [reflexivity|]. rewrite Hs.
  assert (I : In v (g_verts g)) by (apply (rebuilt_vertex extrapolate m g f fx fy fz v C); rewrite R; discriminate).
  apply in_existsb in I. rewrite I. reflexivity.
Qed.

(** The average of equal values. *)
Lemma average_const : forall k l, Forall (fun e => 0 < fst e) l -> l <> [] -> (forall e, In e l -> snd e = k) -> average l = k.
Proof.
  intros k l F N H. pose proof (convex_bounds _ _ k k (average_convex l F N)) as B.
  assert (k <= average l <= k); [|lra]. apply B. intros x I. apply in_map_iff in I. destruct I as [e [<- I]].
  rewrite (H e I). lra.
Qed.

(** With zero gradients the reconstructed values are the data of the cells. *)
Lemma extrapolate_zero : forall x dx, extrapolate x vzero dx = x.
Proof. intros. unfold extrapolate, vzero. simpl. lra. Qed.
Lemma rebuilt_pos : forall rec m g f fx fy fz v, Forall (fun e => 0 < fst e) (rebuilt rec m g f fx fy fz v).
Proof.
  intros. apply Forall_forall. intros e H. unfold rebuilt in H. apply in_flat_map in H.
  destruct H as [[c vs] [_ H]]. destruct (find c (f_data f)); [|destruct H]. apply in_map_iff in H.
  destruct H as [u [<- _]]. simpl. apply Rinv_0_lt_compat. unfold Rpower. apply exp_pos.
Qed.
Lemma rebuilt_data : forall rec m g f fx fy fz v y, In y (map snd (rebuilt rec m g f fx fy fz v)) ->
  exists c vs x, In (c, vs) (g_cells g) /\ In v vs /\ value f c = Some x /\
    y = rec x (cell_grad fx fy fz c) (vsub (m_point m v) (m_center m c)).
Proof.
  intros rec m g f fx fy fz v y H. apply in_map_iff in H. destruct H as [e [<- H]]. unfold rebuilt in H. apply in_flat_map in H.
  destruct H as [[c vs] [I H]]. destruct (find c (f_data f)) as [x|] eqn:F; [|destruct H]. apply in_map_iff in H.
  destruct H as [u [<- Iu]]. apply filter_In in Iu. destruct Iu as [Iu Eu]. apply Nat.eqb_eq in Eu. subst u.
  exists c, vs, x. split; [exact I|]. split; [exact Iu|]. split; [exact F|reflexivity].
Qed.
