(** Proofs about the propagation of fields. *)
From Coq Require Import Reals List Arith Bool Lia Lra.
From Verif Require Import Vec Propagate PropagateSpec.
Import ListNotations.
Open Scope R_scope.

(** ** Sums *)
Lemma fold_plus : forall l a, fold_left Rplus l a = a + fold_left Rplus l 0.
Proof. induction l as [| x r IH]; intros a; simpl; [lra |]. rewrite IH, (IH (0 + x)). lra. Qed.
Lemma sum_nil : sum_list [] = 0. Proof. reflexivity. Qed.
Lemma sum_cons : forall x l, sum_list (x :: l) = x + sum_list l.
Proof. intros x l. unfold sum_list. simpl. rewrite fold_plus. lra. Qed.
Lemma sum_app : forall a b, sum_list (a ++ b) = sum_list a + sum_list b.
Proof. induction a as [| x r IH]; intros b; simpl; rewrite ?sum_nil, ?sum_cons, ?IH; lra. Qed.
Lemma sum_total : forall f l, sum_list (map f l) = total f l.
Proof. induction l as [| j r IH]; simpl; rewrite ?sum_nil, ?sum_cons, ?IH; reflexivity. Qed.
Lemma total_ext : forall f h l, (forall j, In j l -> f j = h j) -> total f l = total h l.
Proof. induction l as [| j r IH]; intros H; simpl; [reflexivity |]. rewrite (H j) by (left; reflexivity). rewrite IH; [reflexivity |]. intros k Hk. apply H. right. exact Hk. Qed.
Lemma total_le : forall f h l, (forall j, In j l -> f j <= h j) -> total f l <= total h l.
Proof.
  induction l as [| j r IH]; intros H; simpl; [lra |]. pose proof (H j (or_introl eq_refl)).
  assert (total f r <= total h r) by (apply IH; intros k Hk; apply H; right; exact Hk). lra.
Qed.
Lemma total_zero : forall l, total (fun _ => 0) l = 0.
Proof. induction l as [| j r IH]; simpl; rewrite ?IH; lra. Qed.
Lemma total_plus : forall f h l, total (fun j => f j + h j) l = total f l + total h l.
Proof. induction l as [| j r IH]; simpl; rewrite ?IH; lra. Qed.
Lemma total_scale : forall k f l, total (fun j => k * f j) l = k * total f l.
Proof. induction l as [| j r IH]; simpl; rewrite ?IH; lra. Qed.
Lemma total_pos : forall f l, (forall j, In j l -> 0 < f j) -> l <> [] -> 0 < total f l.
Proof.
  intros f l H Hn. destruct l as [| j r]; [contradiction |]. simpl. pose proof (H j (or_introl eq_refl)).
  assert (total (fun _ => 0) r <= total f r) by (apply total_le; intros k Hk; apply Rlt_le, H; right; exact Hk). rewrite total_zero in *. lra.
Qed.
Lemma total_tight : forall f l, (forall j, In j l -> f j <= 0) -> 0 <= total f l -> forall j, In j l -> f j = 0.
Proof.
  induction l as [| k r IH]; intros H Ht j Hj; [contradiction |]. simpl in Ht.
  pose proof (H k (or_introl eq_refl)) as Hk.
  assert (Hr : forall j, In j r -> f j <= 0) by (intros q Hq; apply H; right; exact Hq).
  assert (total f r <= 0). { rewrite <- (total_zero r). apply total_le. exact Hr. }
  destruct Hj as [<- | Hj]; [lra |]. apply IH; [exact Hr | lra | exact Hj].
Qed.
Lemma total_diff : forall (c x : nat -> R) (a : R) l, total (fun j => c j * (x j - a)) l = total (fun j => c j * x j) l - a * total c l.
Proof. induction l as [| j r IH]; simpl; rewrite ?IH; lra. Qed.

(** ** The discrete equation *)
Lemma argmax : forall (u : nat -> R) l i, In i l -> exists m, In m l /\ forall k, In k l -> u k <= u m.
Proof.
  induction l as [| j r IH]; intros i Hi; [contradiction |]. destruct r as [| k q].
  - exists j. split; [left; reflexivity |]. intros k [<- | []]. lra.
  - destruct (IH k (or_introl eq_refl)) as [m [Hm Hx]]. destruct (Rle_dec (u m) (u j)) as [L | L].
    + exists j. split; [left; reflexivity |]. intros p [<- | Hp]; [lra |]. pose proof (Hx p Hp). lra.
    + exists m. split; [right; exact Hm |]. intros p [<- | Hp]; [lra | apply Hx; exact Hp].
Qed.

Section Equation.
  Variable verts : list nat.
  Variable link : nat -> list nat.
  Variable c : nat -> nat -> R.
  Hypothesis inside : forall i j, In i verts -> In j (link i) -> In j verts.
  Hypothesis positive : forall i j, In i verts -> In j (link i) -> 0 < c i j.

  Lemma max_principle : forall (bc : nat -> option R) u M,
    (forall i, In i verts -> tied link bc i) ->
    (forall i, In i verts -> match bc i with Some _ => u i <= M | None => 0 <= total (fun j => c i j * (u j - u i)) (link i) end) ->
    forall i, In i verts -> u i <= M.
  Proof.
    intros bc u M Ht Hu i Hi. destruct (argmax u verts i Hi) as [m [Hm Hx]].
    destruct (Rle_dec (u m) M) as [L | L]; [pose proof (Hx i Hi); lra |]. exfalso.
    assert (K : forall w, tied link bc w -> In w verts -> u w = u m -> False).
    { intros w Hw. induction Hw as [w Hb | w j Hj Hw IH]; intros Hin He.
      - pose proof (Hu w Hin) as Q. destruct (bc w); [lra | apply Hb; reflexivity].
      - pose proof (Hu w Hin) as Q. destruct (bc w); [lra |].
        assert (Z : c w j * (u j - u w) = 0).
        { apply (total_tight (fun j => c w j * (u j - u w)) (link w)); [| exact Q | exact Hj].
          intros k Hk. pose proof (positive w k Hin Hk). pose proof (Hx k (inside w k Hin Hk)).
          assert (0 <= c w k * (u w - u k)) by (apply Rmult_le_pos; lra). lra. }
        pose proof (positive w j Hin Hj). apply IH; [exact (inside w j Hin Hj) |].
        apply Rmult_integral in Z. lra. }
    exact (K m (Ht m Hm) Hm eq_refl).
  Qed.

  (** comparison *)
  Lemma comparison : forall bc bd u v,
    (forall i, In i verts -> tied link bc i) ->
    (forall i, In i verts -> match bc i, bd i with Some a, Some b => a <= b | None, None => True | _, _ => False end) ->
    equilibrium verts link c bc u -> equilibrium verts link c bd v -> forall i, In i verts -> u i <= v i.
  Proof.
    intros bc bd u v Ht Hb Hu Hv i Hi.
    assert (Q : u i - v i <= 0).
    { apply (max_principle bc (fun k => u k - v k) 0 Ht); [| exact Hi]. intros k Hk. pose proof (Hb k Hk) as B. pose proof (Hu k Hk) as U. pose proof (Hv k Hk) as V.
      destruct (bc k), (bd k); try contradiction; [lra |].
      rewrite (total_ext _ (fun j => c k j * (u j - u k) + (-1) * (c k j * (v j - v k)))) by (intros; lra).
      rewrite total_plus, total_scale. lra. }
    lra.
  Qed.
  Lemma unique : forall bc u v, (forall i, In i verts -> tied link bc i) ->
    equilibrium verts link c bc u -> equilibrium verts link c bc v -> forall i, In i verts -> u i = v i.
  Proof.
    intros bc u v Ht Hu Hv i Hi.
    assert (forall k, In k verts -> match bc k, bc k with Some a, Some b => a <= b | None, None => True | _, _ => False end) by (intros k _; destruct (bc k); [lra | exact I]).
    apply Rle_antisym; [apply (comparison bc bc u v) | apply (comparison bc bc v u)]; assumption.
  Qed.
  Lemma bounds : forall bc u lo hi, (forall i, In i verts -> tied link bc i) ->
    (forall i b, In i verts -> bc i = Some b -> lo <= b <= hi) ->
    equilibrium verts link c bc u -> forall i, In i verts -> lo <= u i <= hi.
  Proof.
    intros bc u lo hi Ht Hb Hu i Hi. split.
    - assert (- u i <= - lo); [| lra]. apply (max_principle bc (fun k => - u k) (- lo) Ht); [| exact Hi].
      intros k Hk. pose proof (Hu k Hk) as U. pose proof (Hb k) as B. destruct (bc k); [pose proof (B r Hk eq_refl); lra |].
      rewrite (total_ext _ (fun j => (-1) * (c k j * (u j - u k)))) by (intros; lra). rewrite total_scale. lra.
    - apply (max_principle bc u hi Ht); [| exact Hi].
      intros k Hk. pose proof (Hu k Hk) as U. pose proof (Hb k) as B. destruct (bc k); [pose proof (B r Hk eq_refl); lra | lra].
  Qed.

  (** existence: the greatest of the fields below *)
  Section Existence.
    Variable bc : nat -> option R.
    Variable B : R.
    Hypothesis bounded : forall i b, In i verts -> bc i = Some b -> - B <= b <= B.
    Hypothesis B_pos : 0 <= B.
    Definition below (u : nat -> R) : Prop :=
      (forall i, u i <= B) /\ forall i, In i verts -> match bc i with Some b => u i <= b | None => 0 <= total (fun j => c i j * (u j - u i)) (link i) end.
    Lemma below_low : below (fun _ => - B).
    Proof.
      split; [intros; lra |]. intros i Hi. pose proof (bounded i) as K. destruct (bc i); [apply (K r Hi eq_refl) |].
      rewrite (total_ext _ (fun _ => 0)) by (intros; lra). rewrite total_zero. lra.
    Qed.
    Lemma sup_bound : forall i, bound (fun x => exists u, below u /\ x = u i).
    Proof. intros i. exists B. intros x [u [[H _] ->]]. apply H. Qed.
    Lemma sup_some : forall i, exists x, exists u, below u /\ x = u i.
    Proof. intros i. exists (- B), (fun _ => - B). split; [exact below_low | reflexivity]. Qed.
    Definition top (i : nat) : R := proj1_sig (completeness _ (sup_bound i) (sup_some i)).
    Lemma top_lub : forall i, is_lub (fun x => exists u, below u /\ x = u i) (top i).
    Proof. intros i. unfold top. destruct (completeness _ _ _) as [m Hm]. exact Hm. Qed.
    Lemma top_ge : forall u i, below u -> u i <= top i.
    Proof. intros u i H. apply (proj1 (top_lub i)). exists u. split; [exact H | reflexivity]. Qed.
    Lemma top_le : forall i x, (forall u, below u -> u i <= x) -> top i <= x.
    Proof. intros i x H. apply (proj2 (top_lub i)). intros y [u [Hu ->]]. apply H. exact Hu. Qed.
    Lemma top_below : below top.
    Proof.
      split; [intros i; apply top_le; intros u [H _]; apply H |].
      intros i Hi. destruct (bc i) as [b |] eqn:E.
      - apply top_le. intros u [_ H]. pose proof (H i Hi) as K. rewrite E in K. exact K.
      - destruct (link i) as [| j0 r0] eqn:El; [simpl; lra |]. rewrite <- El.
        assert (C : 0 < total (c i) (link i)) by (apply total_pos; [intros j Hj; apply positive; assumption | rewrite El; discriminate]).
        rewrite total_diff.
        assert (T : top i <= total (fun j => c i j * top j) (link i) / total (c i) (link i)).
        { apply top_le. intros u Hu. destruct Hu as [Hu1 Hu2]. pose proof (Hu2 i Hi) as K. rewrite E, total_diff in K.
          assert (total (fun j => c i j * u j) (link i) <= total (fun j => c i j * top j) (link i)).
          { apply total_le. intros j Hj. apply Rmult_le_compat_l; [apply Rlt_le, positive; assumption | apply top_ge; split; assumption]. }
          apply Rmult_le_reg_r with (total (c i) (link i)); [exact C |]. unfold Rdiv. rewrite Rmult_assoc, Rinv_l by lra. lra. }
        apply Rmult_le_compat_r with (r := total (c i) (link i)) in T; [| lra]. unfold Rdiv in T. rewrite Rmult_assoc, Rinv_l in T by lra. lra.
    Qed.
    Lemma top_equilibrium : equilibrium verts link c bc top.
    Proof.
      intros i Hi. pose proof (proj2 top_below i Hi) as K. destruct (bc i) as [b |] eqn:E.
      - apply Rle_antisym; [exact K |]. pose proof (bounded i b Hi E) as Hb.
        set (v := fun k => if Nat.eq_dec k i then b else - B).
        assert (W : below v).
        { split; [intros k; unfold v; destruct (Nat.eq_dec k i); lra |].
          intros k Hk. destruct (bc k) as [d |] eqn:Ek.
          - unfold v. destruct (Nat.eq_dec k i) as [-> | N]; [rewrite E in Ek; inversion Ek; lra |]. apply (bounded k d Hk Ek).
          - rewrite <- (total_zero (link k)). apply total_le. intros j Hj. apply Rmult_le_pos; [apply Rlt_le, positive; assumption |].
            unfold v. destruct (Nat.eq_dec k i) as [-> | N]; [congruence |]. destruct (Nat.eq_dec j i); lra. }
        pose proof (top_ge v i W) as G. unfold v in G. destruct (Nat.eq_dec i i); [exact G | contradiction].
      - apply Rle_antisym; [| exact K].
        destruct (link i) as [| j0 r0] eqn:El; [simpl; lra |]. rewrite <- El in *.
        assert (C : 0 < total (c i) (link i)) by (apply total_pos; [intros j Hj; apply positive; assumption | rewrite El; discriminate]).
        set (A := total (fun j => c i j * top j) (link i) / total (c i) (link i)).
        assert (HA : A * total (c i) (link i) = total (fun j => c i j * top j) (link i)) by (unfold A, Rdiv; rewrite Rmult_assoc, Rinv_l by lra; lra).
        rewrite total_diff in *.
        assert (A1 : top i <= A) by (apply Rmult_le_reg_r with (total (c i) (link i)); [exact C | lra]).
        assert (A2 : A <= B).
        { apply Rmult_le_reg_r with (total (c i) (link i)); [exact C |]. rewrite HA, <- total_scale. apply total_le. intros j Hj.
          rewrite (Rmult_comm B). apply Rmult_le_compat_l; [apply Rlt_le, positive; assumption | apply (proj1 top_below)]. }
        set (v := fun k => if Nat.eq_dec k i then A else top k).
        assert (V : forall k, top k <= v k) by (intros k; unfold v; destruct (Nat.eq_dec k i) as [-> |]; lra).
        assert (W : below v).
        { split; [intros k; unfold v; destruct (Nat.eq_dec k i); [exact A2 | apply (proj1 top_below)] |].
          intros k Hk. destruct (Nat.eq_dec k i) as [-> | N].
          - rewrite E. rewrite total_diff. unfold v at 2. destruct (Nat.eq_dec i i); [| contradiction]. rewrite HA.
            assert (total (fun j => c i j * top j) (link i) <= total (fun j => c i j * v j) (link i)); [| lra].
            apply total_le. intros j Hj. apply Rmult_le_compat_l; [apply Rlt_le, positive; assumption | apply V].
          - pose proof (proj2 top_below k Hk) as Q. assert (Ev : v k = top k) by (unfold v; destruct (Nat.eq_dec k i); [contradiction | reflexivity]). rewrite Ev.
            destruct (bc k); [exact Q |]. apply Rle_trans with (1 := Q). apply total_le. intros j Hj. apply Rmult_le_compat_l; [apply Rlt_le, positive; assumption |]. pose proof (V j). lra. }
        pose proof (top_ge v i W) as G. unfold v in G. destruct (Nat.eq_dec i i); [| contradiction].
        assert (A = top i) by lra. rewrite <- H. lra.
    Qed.
  End Existence.
  Lemma bound_bc : forall (bc : nat -> option R) l, exists B, 0 <= B /\ forall i b, In i l -> bc i = Some b -> - B <= b <= B.
  Proof.
    induction l as [| j r IH]; [exists 0; split; [lra | intros i b []] |]. destruct IH as [B [HB H]].
    destruct (bc j) as [x |] eqn:E.
    - exists (B + Rabs x). pose proof (Rabs_pos x). split; [lra |]. intros i b [<- | Hi] Hb.
      + rewrite E in Hb. inversion Hb; subst. pose proof (Rle_abs b). pose proof (Rle_abs (- b)). rewrite Rabs_Ropp in *. lra.
      + pose proof (H i b Hi Hb). lra.
    - exists B. split; [exact HB |]. intros i b [<- | Hi] Hb; [congruence | apply (H i b Hi Hb)].
  Qed.
  Lemma existence : forall bc, exists u, equilibrium verts link c bc u.
  Proof. intros bc. destruct (bound_bc bc verts) as [B [H0 H]]. exists (top bc B H H0). apply top_equilibrium. Qed.
End Equation.

(** ** Rows *)
Definition good (g : mesh) (rows : nat -> stencil) (c : nat -> nat -> R) : Prop :=
  forall i, In i (g_verts g) -> (forall j, In j (g_link g i) -> 0 < c i j)
    /\ forall x, row_value (rows i) x = total (fun j => c i j * (x j - x i)) (g_link g i).
Lemma row_app : forall a b x, row_value (a ++ b) x = row_value a x + row_value b x.
Proof. induction a as [| [j w] r IH]; intros b x; simpl; rewrite ?IH; lra. Qed.
Lemma row_map : forall f l x, row_value (map (fun j : nat => (j, f j)) l) x = total (fun j => f j * x j) l.
Proof. induction l as [| j r IH]; intros x; simpl; rewrite ?IH; reflexivity. Qed.
Lemma square : forall p q, norm (vsub p q) ^ 2 = square_distance p q.
Proof.
  intros p q. unfold norm. simpl. rewrite Rmult_1_r, sqrt_sqrt; [unfold dot, vsub, square_distance; simpl; ring |].
  unfold dot, vsub; simpl. pose proof (Rle_0_sqr (vx p - vx q)). pose proof (Rle_0_sqr (vy p - vy q)). pose proof (Rle_0_sqr (vz p - vz q)). unfold Rsqr in *. lra.
Qed.
Lemma distance_pos : forall p q, p <> q -> 0 < square_distance p q.
Proof.
  intros p q H. unfold square_distance.
  pose proof (Rle_0_sqr (vx p - vx q)) as A. pose proof (Rle_0_sqr (vy p - vy q)) as B. pose proof (Rle_0_sqr (vz p - vz q)) as C. unfold Rsqr in *.
  destruct (Req_dec (vx p - vx q) 0) as [X | X]; [| pose proof (Rlt_0_sqr _ X) as D; unfold Rsqr in D; lra].
  destruct (Req_dec (vy p - vy q) 0) as [Y | Y]; [| pose proof (Rlt_0_sqr _ Y) as D; unfold Rsqr in D; lra].
  destruct (Req_dec (vz p - vz q) 0) as [Z | Z]; [| pose proof (Rlt_0_sqr _ Z) as D; unfold Rsqr in D; lra].
  exfalso. apply H. destruct p as [p1 p2 p3], q as [q1 q2 q3]; simpl in *. f_equal; lra.
Qed.
Definition factor (band : nat -> option R) (relax : R) (i j : nat) : R :=
  match band i, band j with Some d, Some e => if Rlt_dec d e then relax else 1 | _, _ => 1 end.
Lemma pull_weight : forall pos diff band relax i j, pos i <> pos j -> pull pos diff band relax i j = weight pos diff i j * factor band relax i j.
Proof. intros pos diff band relax i j H. unfold pull, weight, factor. rewrite square. pose proof (distance_pos _ _ H). f_equal. field. lra. Qed.
Definition total_weight (g : mesh) (pos : nat -> vec) (diff : nat -> R) (i : nat) : R := total (weight pos diff i) (g_link g i).
Lemma weight_pos : forall pos diff i j, pos i <> pos j -> 0 < diff i -> 0 < diff j -> 0 < weight pos diff i j.
Proof.
  intros pos diff i j H A B. unfold weight. rewrite square. pose proof (distance_pos _ _ H). apply Rmult_lt_0_compat; [apply Rdiv_lt_0_compat; lra | lra].
Qed.
Lemma narrow_row : forall (far : nat -> bool) relax f i l x,
  row_value (map (fun e : nat * R => if far (fst e) then (fst e, snd e * relax) else e) (map (fun j => (j, f j)) l)
    ++ [(i, - total f l + (sum_list (map snd (filter (fun e : nat * R => far (fst e)) (map (fun j => (j, f j)) l)))
           - sum_list (map (fun e : nat * R => snd e * relax) (filter (fun e => far (fst e)) (map (fun j => (j, f j)) l)))))]) x
  = total (fun j => f j * (if far j then relax else 1) * (x j - x i)) l.
Proof.
  intros far relax f i l x. rewrite row_app. simpl row_value at 2.
  induction l as [| j r IH]; [simpl; rewrite !sum_nil; lra |]. simpl. destruct (far j) eqn:E; simpl; rewrite ?sum_cons; lra.
Qed.
Lemma laplacian_items : forall g pos diff i,
  laplacian g pos diff i = complement i (map (fun j => (j, weight pos diff i j / total_weight g pos diff i)) (g_link g i)).
Proof.
  intros g pos diff i. unfold laplacian. rewrite !map_map. simpl. unfold total_weight. rewrite <- sum_total. reflexivity.
Qed.
Lemma complement_some : forall i f l, l <> [] -> complement i (map (fun j : nat => (j, f j)) l) = map (fun j => (j, f j)) l ++ [(i, - total f l)].
Proof. intros i f l H. destruct l as [| j r]; [contradiction |]. unfold complement. rewrite <- sum_total, map_map. reflexivity. Qed.
Lemma rows_value : forall g pos diff band relax i x,
  row_value (rows_of g pos diff band relax i) x
  = total (fun j => weight pos diff i j / total_weight g pos diff i * factor band relax i j * (x j - x i)) (g_link g i).
Proof.
  intros g pos diff band relax i x. unfold rows_of. rewrite laplacian_items.
  set (f := fun j => weight pos diff i j / total_weight g pos diff i).
  change (fun j => (j, weight pos diff i j / total_weight g pos diff i)) with (fun j => (j, f j)).
  change (fun j => weight pos diff i j / total_weight g pos diff i * factor band relax i j * (x j - x i)) with (fun j => f j * factor band relax i j * (x j - x i)).
  destruct (g_link g i) as [| j0 r0] eqn:El; [simpl; unfold narrow; destruct (band i); reflexivity |]. rewrite <- El.
  assert (Hn : g_link g i <> []) by (rewrite El; discriminate). rewrite complement_some by exact Hn. unfold narrow.
  destruct (band i) as [d |] eqn:Eb.
  - rewrite rev_app_distr. simpl rev at 1. simpl app at 1. cbv beta iota. rewrite rev_involutive.
    rewrite (narrow_row (farther band d) relax f i (g_link g i) x). apply total_ext. intros j Hj. unfold factor, farther. rewrite Eb.
    destruct (band j) as [e |]; [destruct (Rlt_dec d e); reflexivity | reflexivity].
  - rewrite row_app, row_map. simpl. unfold factor. rewrite Eb.
    rewrite (total_ext (fun j => f j * 1 * (x j - x i)) (fun j => f j * (x j - x i))) by (intros; ring). rewrite total_diff. lra.
Qed.
Lemma factor_pos : forall band relax i j, 0 < relax -> 0 < factor band relax i j.
Proof. intros band relax i j H. unfold factor. destruct (band i), (band j); try lra. destruct (Rlt_dec r r0); lra. Qed.
Definition coefficient (g : mesh) (pos : nat -> vec) (diff : nat -> R) (band : nat -> option R) (relax : R) (i j : nat) : R :=
  weight pos diff i j / total_weight g pos diff i * factor band relax i j.
Lemma total_weight_pos : forall g pos diff i, sound_mesh (g_verts g) (g_link g) pos diff -> In i (g_verts g) -> g_link g i <> [] -> 0 < total_weight g pos diff i.
Proof.
  intros g pos diff i [W A D] Hi Hn. apply total_pos; [| exact Hn]. intros j Hj. apply weight_pos; [apply A; assumption | apply D; exact Hi | apply D, (W i j Hi Hj)].
Qed.
Lemma rows_good : forall g pos diff band relax, sound_mesh (g_verts g) (g_link g) pos diff -> 0 < relax ->
  good g (rows_of g pos diff band relax) (coefficient g pos diff band relax).
Proof.
  intros g pos diff band relax M Hr i Hi. split; [| intros x; apply rows_value].
  intros j Hj. unfold coefficient. apply Rmult_lt_0_compat; [| apply factor_pos; exact Hr]. apply Rdiv_lt_0_compat.
  - destruct M as [W A D]. apply weight_pos; [apply A; assumption | apply D; exact Hi | apply D, (W i j Hi Hj)].
  - apply total_weight_pos; [exact M | exact Hi |]. intros E. rewrite E in Hj. exact Hj.
Qed.
Lemma coefficient_pull : forall g pos diff band relax bc u, sound_mesh (g_verts g) (g_link g) pos diff ->
  (equilibrium (g_verts g) (g_link g) (coefficient g pos diff band relax) bc u <-> equilibrium (g_verts g) (g_link g) (pull pos diff band relax) bc u).
Proof.
  intros g pos diff band relax bc u M.
  assert (K : forall i, In i (g_verts g) -> g_link g i <> [] ->
    total (fun j => pull pos diff band relax i j * (u j - u i)) (g_link g i) = total_weight g pos diff i * total (fun j => coefficient g pos diff band relax i j * (u j - u i)) (g_link g i)).
  { intros i Hi Hn. pose proof (total_weight_pos g pos diff i M Hi Hn). rewrite <- total_scale. apply total_ext. intros j Hj.
    rewrite pull_weight by (destruct M as [W A D]; apply A; assumption). unfold coefficient. field. lra. }
  split; intros H i Hi; pose proof (H i Hi) as Q; destruct (bc i); try exact Q;
    (destruct (g_link g i) as [| j0 r0] eqn:El; [reflexivity |]; rewrite <- El in *; assert (Hn : g_link g i <> []) by (rewrite El; discriminate);
     specialize (K i Hi Hn); pose proof (total_weight_pos g pos diff i M Hi Hn) as P).
  - rewrite K, Q. ring.
  - rewrite Q in K. symmetry in K. apply Rmult_integral in K. destruct K; [lra | assumption].
Qed.

(** ** Conditions *)
Lemma row_zero : forall l x, row_value (map (fun e : nat * R => (fst e, snd e * 0)) l) x = 0.
Proof. induction l as [| [j w] r IH]; intros x; simpl; rewrite ?IH; lra. Qed.
Lemma row_sum_item : forall i a l x, row_value (sum_item i a l) x = row_value l x + a * x i.
Proof.
  induction l as [| [j w] r IH]; intros x; simpl; [lra |]. destruct (Nat.eqb j i) eqn:E; simpl; [apply Nat.eqb_eq in E; subst; lra | rewrite IH; lra].
Qed.
Lemma assembled_value : forall g rows c bc x, (forall i, In i (g_verts g) -> forall y, row_value (rows i) y = total (fun j => c i j * (y j - y i)) (g_link g i)) ->
  equilibrium (g_verts g) (g_link g) c bc x -> solves (g_verts g) (matrix bc rows) (rhs bc rows) x.
Proof.
  intros g rows c bc x G H i Hi. specialize (H i Hi). unfold matrix, rhs, assign in *. pose proof (G i Hi) as V. destruct (bc i); cbn [fst snd] in *.
  - rewrite row_sum_item, row_zero. lra.
  - rewrite V. lra.
Qed.
Lemma assembled : forall g rows c bc x, good g rows c ->
  (solves (g_verts g) (matrix bc rows) (rhs bc rows) x <-> equilibrium (g_verts g) (g_link g) c bc x).
Proof.
  intros g rows c bc x G. split; intros H i Hi; specialize (H i Hi); unfold matrix, rhs, assign in *; destruct (G i Hi) as [_ V]; destruct (bc i); cbn [fst snd] in *.
  - rewrite row_sum_item, row_zero in H. lra.
  - rewrite V in H. lra.
  - rewrite row_sum_item, row_zero. lra.
  - rewrite V. lra.
Qed.
Lemma good_pos : forall g rows c, good g rows c -> forall i j, In i (g_verts g) -> In j (g_link g i) -> 0 < c i j.
Proof. intros g rows c G i j Hi Hj. apply (proj1 (G i Hi)). exact Hj. Qed.
Lemma solved : forall solve g rows c bc, correct_solver solve -> (forall i j, In i (g_verts g) -> In j (g_link g i) -> In j (g_verts g)) -> good g rows c ->
  equilibrium (g_verts g) (g_link g) c bc (solve_bc solve g rows bc).
Proof.
  intros solve g rows c bc Hs W G. apply (assembled g rows c bc _ G). apply Hs.
  destruct (existence (g_verts g) (g_link g) c (good_pos g rows c G) bc) as [u Hu]. exists u. apply (assembled g rows c bc u G). exact Hu.
Qed.

(** ** Scalars *)
Lemma last_fold : forall (A : Type) (f : nat -> A) n a, fold_left (fun _ k => f k) (seq 0 (S n)) a = f n.
Proof. intros A f n a. rewrite seq_S, fold_left_app. reflexivity. Qed.
Lemma scaled_last : forall bc n i, scaled bc n (S n) i = bc i.
Proof. intros bc n i. unfold scaled. destruct (bc i); [| reflexivity]. f_equal. replace (n + 1)%nat with (S n) by lia. field. apply not_0_INR. lia. Qed.
Lemma scalar_equilibrium : forall solve g pos diff band relax bc n,
  correct_solver solve -> sound_mesh (g_verts g) (g_link g) pos diff -> 0 < relax -> (1 <= n)%nat ->
  equilibrium (g_verts g) (g_link g) (pull pos diff band relax) bc (scalar_execute solve g pos diff band relax bc n).
Proof.
  intros solve g pos diff band relax bc n Hs M Hr Hn. destruct n as [| n]; [lia |]. unfold scalar_execute. rewrite last_fold.
  apply coefficient_pull; [exact M |].
  pose proof (solved solve g _ _ (scaled bc n (S n)) Hs (links_within _ _ _ _ M) (rows_good g pos diff band relax M Hr)) as H.
  intros i Hi. specialize (H i Hi). rewrite scaled_last in H. exact H.
Qed.
Lemma pull_pos : forall verts link pos diff band relax, sound_mesh verts link pos diff -> 0 < relax ->
  forall i j, In i verts -> In j (link i) -> 0 < pull pos diff band relax i j.
Proof.
  intros verts link pos diff band relax [W A D] Hr i j Hi Hj. rewrite pull_weight by (apply A; assumption).
  apply Rmult_lt_0_compat; [| apply factor_pos; exact Hr]. apply weight_pos; [apply A; assumption | apply D; exact Hi | apply D, (W i j Hi Hj)].
Qed.

(** ** Vectors *)
Lemma mem_in : forall i l, mem i l = true <-> In i l.
Proof.
  intros i l. unfold mem. rewrite existsb_exists. split; [intros [j [H E]]; apply Nat.eqb_eq in E; subst; exact H | intros H; exists i; split; [exact H | apply Nat.eqb_refl]].
Qed.
Lemma component_zero : forall c, component c -> c (V3 0 0 0) = 0.
Proof. intros c [-> | [-> | ->]]; reflexivity. Qed.
Lemma component_add : forall c a b, component c -> c (vadd a b) = c a + c b.
Proof. intros c a b [-> | [-> | ->]]; reflexivity. Qed.
Lemma component_sub : forall c a b, component c -> c (vsub a b) = c a - c b.
Proof. intros c a b [-> | [-> | ->]]; reflexivity. Qed.
Lemma component_scale : forall c k a, component c -> c (vscale k a) = k * c a.
Proof. intros c k a [-> | [-> | ->]]; reflexivity. Qed.
Lemma component_ext : forall a b, (forall c, component c -> c a = c b) -> a = b.
Proof.
  intros [a1 a2 a3] [b1 b2 b3] H. pose proof (H vx (or_introl eq_refl)) as A. pose proof (H vy (or_intror (or_introl eq_refl))) as B. pose proof (H vz (or_intror (or_intror eq_refl))) as C.
  simpl in *. congruence.
Qed.
Lemma conditions_predictor : forall bc s comp i, component comp -> conditions bc s None comp i = part comp (prescribed bc (s_periodic s)) i.
Proof.
  intros bc s comp i Hc. unfold conditions, part, prescribed. destruct (bc i); [reflexivity |].
  destruct (in_dec Nat.eq_dec i (s_periodic s)) as [I | I]; [apply mem_in in I; rewrite I, component_zero by exact Hc; reflexivity |].
  destruct (mem i (s_periodic s)) eqn:E; [apply mem_in in E; contradiction | reflexivity].
Qed.
Lemma conditions_corrector : forall bc s f comp i, component comp ->
  conditions bc s (Some f) comp i = match prescribed bc (s_periodic s) i with Some b => Some (comp b) | None => if in_dec Nat.eq_dec i (s_verts s) then Some (comp (f i)) else None end.
Proof.
  intros bc s f comp i Hc. unfold conditions, prescribed. destruct (bc i); [reflexivity |].
  destruct (in_dec Nat.eq_dec i (s_periodic s)) as [I | I]; [apply mem_in in I; rewrite I, component_zero by exact Hc; reflexivity |].
  destruct (mem i (s_periodic s)) eqn:E; [apply mem_in in E; contradiction |].
  destruct (in_dec Nat.eq_dec i (s_verts s)) as [J | J]; [apply mem_in in J; rewrite J; reflexivity |].
  destruct (mem i (s_verts s)) eqn:E2; [apply mem_in in E2; contradiction | reflexivity].
Qed.
Lemma equilibrium_ext : forall verts link c bc bd u, (forall i, In i verts -> bc i = bd i) -> equilibrium verts link c bc u -> equilibrium verts link c bd u.
Proof. intros verts link c bc bd u H E i Hi. rewrite <- (H i Hi). apply E. exact Hi. Qed.
Lemma solve3_equilibrium : forall solve g rows c bc s f comp, correct_solver solve -> (forall i j, In i (g_verts g) -> In j (g_link g i) -> In j (g_verts g)) -> good g rows c -> component comp ->
  equilibrium (g_verts g) (g_link g) c (conditions bc s f comp) (fun i => comp (solve3 solve g rows bc s f i)).
Proof. intros solve g rows c bc s f comp Hs W G [-> | [-> | ->]]; apply (solved solve g rows c _ Hs W G). Qed.
Lemma guess_equilibrium : forall solve g rows c bc s comp, correct_solver solve -> (forall i j, In i (g_verts g) -> In j (g_link g i) -> In j (g_verts g)) -> good g rows c -> component comp ->
  equilibrium (g_verts g) (g_link g) c (part comp (prescribed bc (s_periodic s))) (fun i => comp (solve3 solve g rows bc s None i)).
Proof.
  intros solve g rows c bc s comp Hs W G Hc. apply equilibrium_ext with (bc := conditions bc s None comp); [intros i _; apply conditions_predictor; exact Hc |].
  apply solve3_equilibrium; assumption.
Qed.
Lemma tied_part : forall link bc comp i, tied link bc i -> tied link (part comp bc) i.
Proof.
  intros link bc comp i H. induction H as [i H | i j Hj H IH]; [apply tied_here; unfold part; destruct (bc i); [discriminate | contradiction] | apply tied_link with j; assumption].
Qed.
Lemma divided_prescribed : forall bc n p i, prescribed (divided bc n) p i = match prescribed bc p i with Some b => Some (vscale (/ INR n) b) | None => None end.
Proof.
  intros bc n p i. unfold prescribed, divided. destruct (bc i); [reflexivity |]. destruct (in_dec Nat.eq_dec i p); [| reflexivity]. f_equal. unfold vscale. simpl. f_equal; ring.
Qed.
Lemma tied_more : forall (A B : Type) link (bc : nat -> option A) (bd : nat -> option B) i, (forall k, bc k <> None -> bd k <> None) -> tied link bc i -> tied link bd i.
Proof. intros A B link bc bd i K H. induction H as [i H | i j Hj H IH]; [apply tied_here, K, H | apply tied_link with j; assumption]. Qed.

Section Steps.
  Variable solve : list nat -> (nat -> stencil) -> (nat -> R) -> nat -> R.
  Variable g : mesh.
  Variable diff : (nat -> vec) -> nat -> R.
  Variable band : (nat -> vec) -> nat -> option R.
  Variable relax thres : R.
  Hypothesis solver : correct_solver solve.
  Hypothesis inside : forall i j, In i (g_verts g) -> In j (g_link g i) -> In j (g_verts g).
  Hypothesis diffuse : forall pos i, In i (g_verts g) -> 0 < diff pos i.
  Hypothesis relaxed : 0 < relax.

  Lemma update_good : forall rows c field pos, good g rows c -> (forall i j, In i (g_verts g) -> In j (g_link g i) -> pos i <> pos j) ->
    exists c', good g (update_rows g diff band relax thres rows field pos) c'.
  Proof.
    intros rows c field pos G A. exists (fun i => if mem i (moving g thres field) then coefficient g pos (diff pos) (band pos) relax i else c i).
    intros i Hi. unfold update_rows. destruct (mem i (moving g thres field)); [| apply G; exact Hi].
    apply rows_good; [| exact relaxed | exact Hi]. split; [exact inside | exact A | apply diffuse].
  Qed.

  Lemma loop_steps : forall k rows c bc s pos lo hi, s_verts s = [] -> good g rows c ->
    (forall i, In i (g_verts g) -> tied (g_link g) (prescribed bc (s_periodic s)) i) ->
    (forall i b, In i (g_verts g) -> prescribed bc (s_periodic s) i = Some b -> within lo hi b) ->
    (forall i j, In i (g_verts g) -> In j (g_link g i) -> exists comp, component comp /\ INR k * (comp hi - comp lo) < Rabs (comp (pos i) - comp (pos j))) ->
    exists pos', vector_loop solve g diff band relax thres k rows bc s pos = Some pos'
      /\ forall i, In i (g_verts g) ->
           (forall comp, component comp -> INR k * comp lo <= comp (pos' i) - comp (pos i) <= INR k * comp hi)
           /\ (forall b, prescribed bc (s_periodic s) i = Some b -> forall comp, component comp -> comp (pos' i) - comp (pos i) = INR k * comp b).
  Proof.
    induction k as [| k IH]; intros rows c bc s pos lo hi Hs G T Bd A.
    - exists pos. split; [reflexivity |]. intros i Hi. split; intros; simpl; lra.
    - assert (F : forall i, In i (g_verts g) -> forall comp, component comp -> comp lo <= comp (solve3 solve g rows bc s None i) <= comp hi).
      { intros i Hi comp Hc. pose proof (guess_equilibrium solve g rows c bc s comp solver inside G Hc) as E.
        apply (bounds (g_verts g) (g_link g) c inside (good_pos g rows c G) (part comp (prescribed bc (s_periodic s))) (fun i => comp (solve3 solve g rows bc s None i))); [| | exact E | exact Hi].
        - intros q Hq. apply tied_part, T, Hq.
        - intros q b Hq Hb. unfold part in Hb. destruct (prescribed bc (s_periodic s) q) as [v |] eqn:Ev; [| discriminate]. inversion Hb; subst. apply (Bd q v Hq Ev comp Hc). }
      set (field := solve3 solve g rows bc s None) in *. set (p1 := fun i => vadd (pos i) (field i)).
      assert (A1 : forall i j, In i (g_verts g) -> In j (g_link g i) -> exists comp, component comp /\ INR k * (comp hi - comp lo) < Rabs (comp (p1 i) - comp (p1 j)) /\ 0 <= comp hi - comp lo).
      { intros i j Hi Hj. destruct (A i j Hi Hj) as [comp [Hc Q]]. exists comp. split; [exact Hc |].
        pose proof (F i Hi comp Hc). pose proof (F j (inside i j Hi Hj) comp Hc). unfold p1. rewrite !component_add by exact Hc. rewrite S_INR in Q.
        split; [| lra]. set (x := comp (pos i) - comp (pos j)) in *. set (y := comp (field i) - comp (field j)).
        replace (comp (pos i) + comp (field i) - (comp (pos j) + comp (field j))) with (x + y) by (unfold x, y; ring).
        assert (Y : Rabs y <= comp hi - comp lo) by (apply Rabs_le; unfold y; lra).
        pose proof (Rabs_triang (x + y) (- y)) as Tr. rewrite Rabs_Ropp in Tr. replace (x + y + - y) with x in Tr by ring. lra. }
      destruct (update_good rows c field p1 G) as [c1 G1].
      { intros i j Hi Hj E. destruct (A1 i j Hi Hj) as [comp [Hc [Q P]]]. rewrite E in Q. replace (comp (p1 j) - comp (p1 j)) with 0 in Q by ring. rewrite Rabs_R0 in Q.
        pose proof (Rmult_le_pos _ _ (pos_INR k) P). lra. }
      destruct (IH (update_rows g diff band relax thres rows field p1) c1 bc s p1 lo hi Hs G1 T Bd) as [pos' [E R]].
      { intros i j Hi Hj. destruct (A1 i j Hi Hj) as [comp [Hc [Q _]]]. exists comp. split; assumption. }
      exists pos'. split.
      + cbn [vector_loop]. unfold vector_step. rewrite Hs. exact E.
      + intros i Hi. destruct (R i Hi) as [R1 R2]. split.
        * intros comp Hc. specialize (R1 comp Hc). pose proof (F i Hi comp Hc). unfold p1 in R1. rewrite component_add in R1 by exact Hc. rewrite S_INR. lra.
        * intros b Hb comp Hc. specialize (R2 b Hb comp Hc). unfold p1 in R2. rewrite component_add in R2 by exact Hc.
          pose proof (guess_equilibrium solve g rows c bc s comp solver inside G Hc i Hi) as E1. unfold part in E1. rewrite Hb in E1. fold field in E1. rewrite S_INR. lra.
  Qed.

  Lemma vector_steps : forall n bc s pos lo hi, (1 <= n)%nat -> s_verts s = [] ->
    (forall i, In i (g_verts g) -> tied (g_link g) (prescribed bc (s_periodic s)) i) ->
    (forall i b, In i (g_verts g) -> prescribed bc (s_periodic s) i = Some b -> within lo hi b) ->
    roomy (g_verts g) (g_link g) pos lo hi ->
    exists field, vector_execute solve g diff band relax thres n bc s pos = Some (field, pos)
      /\ forall i, In i (g_verts g) -> within lo hi (field i) /\ forall b, prescribed bc (s_periodic s) i = Some b -> field i = b.
  Proof.
    intros n bc s pos lo hi Hn Hs T Bd A.
    assert (L : forall i, tied (g_link g) (prescribed bc (s_periodic s)) i -> In i (g_verts g) -> forall comp, component comp -> comp lo <= comp hi).
    { intros i Ti. induction Ti as [i Hb | i j Hj Ti IH]; intros Hi comp Hc; [| apply IH; [exact (inside i j Hi Hj) | exact Hc]].
      destruct (prescribed bc (s_periodic s) i) as [b |] eqn:E; [| contradiction]. pose proof (Bd i b Hi E comp Hc). lra. }
    assert (Ap : forall i j, In i (g_verts g) -> In j (g_link g i) -> pos i <> pos j).
    { intros i j Hi Hj E. destruct (A i j Hi Hj) as [comp [Hc Q]]. rewrite E in Q. replace (comp (pos j) - comp (pos j)) with 0 in Q by ring. rewrite Rabs_R0 in Q. pose proof (L i (T i Hi) Hi comp Hc). lra. }
    assert (G : good g (rows_of g pos (diff pos) (band pos) relax) (coefficient g pos (diff pos) (band pos) relax)).
    { apply rows_good; [split; [exact inside | exact Ap | apply diffuse] | exact relaxed]. }
    unfold vector_execute. destruct (Nat.ltb 1 n) eqn:En.
    - assert (N : 0 < INR n) by (apply lt_0_INR; lia).
      destruct (loop_steps n (rows_of g pos (diff pos) (band pos) relax) _ (divided bc n) s pos (vscale (/ INR n) lo) (vscale (/ INR n) hi) Hs G) as [pos' [E R]].
      + intros i Hi. apply tied_more with (bc := prescribed bc (s_periodic s)); [| apply T; exact Hi].
        intros k Hk. rewrite divided_prescribed. destruct (prescribed bc (s_periodic s) k); [discriminate | contradiction].
      + intros i b Hi Hb. rewrite divided_prescribed in Hb. destruct (prescribed bc (s_periodic s) i) as [v |] eqn:Ev; [| discriminate]. inversion Hb; subst.
        intros comp Hc. rewrite !component_scale by exact Hc. pose proof (Bd i v Hi Ev comp Hc). pose proof (Rinv_0_lt_compat _ N).
        split; apply Rmult_le_compat_l; lra.
      + intros i j Hi Hj. destruct (A i j Hi Hj) as [comp [Hc Q]]. exists comp. split; [exact Hc |]. rewrite !component_scale by exact Hc.
        replace (INR n * (/ INR n * comp hi - / INR n * comp lo)) with (comp hi - comp lo) by (field; lra). exact Q.
      + rewrite E. eexists. split; [reflexivity |]. intros i Hi. destruct (R i Hi) as [R1 R2]. split.
        * intros comp Hc. specialize (R1 comp Hc). rewrite !component_scale in R1 by exact Hc. rewrite component_sub by exact Hc.
          rewrite <- !Rmult_assoc, Rinv_r, !Rmult_1_l in R1 by lra. exact R1.
        * intros b Hb. apply component_ext. intros comp Hc. rewrite component_sub by exact Hc.
          specialize (R2 (vscale (/ INR n) b)). rewrite divided_prescribed, Hb in R2. specialize (R2 eq_refl comp Hc). rewrite component_scale in R2 by exact Hc.
          rewrite <- Rmult_assoc, Rinv_r, Rmult_1_l in R2 by lra. exact R2.
    - unfold vector_step. rewrite Hs. eexists. split; [reflexivity |]. intros i Hi. split.
      + intros comp Hc. pose proof (guess_equilibrium solve g _ _ bc s comp solver inside G Hc) as E.
        apply (bounds (g_verts g) (g_link g) _ inside (good_pos g _ _ G) (part comp (prescribed bc (s_periodic s))) (fun i => comp (solve3 solve g (rows_of g pos (diff pos) (band pos) relax) bc s None i))); [| | exact E | exact Hi].
        * intros q Hq. apply tied_part, T, Hq.
        * intros q b Hq Hb. unfold part in Hb. destruct (prescribed bc (s_periodic s) q) as [v |] eqn:Ev; [| discriminate]. inversion Hb; subst. apply (Bd q v Hq Ev comp Hc).
      + intros b Hb. apply component_ext. intros comp Hc. pose proof (guess_equilibrium solve g _ _ bc s comp solver inside G Hc i Hi) as E. unfold part in E. rewrite Hb in E. exact E.
  Qed.

  Lemma one_step : forall bc s pos, s_verts s = [] -> (forall i j, In i (g_verts g) -> In j (g_link g i) -> pos i <> pos j) ->
    exists field, vector_execute solve g diff band relax thres 1 bc s pos = Some (field, pos)
      /\ forall comp, component comp -> equilibrium (g_verts g) (g_link g) (pull pos (diff pos) (band pos) relax) (part comp (prescribed bc (s_periodic s))) (fun i => comp (field i)).
  Proof.
    intros bc s pos Hs Ap. assert (M : sound_mesh (g_verts g) (g_link g) pos (diff pos)) by (split; [exact inside | exact Ap | apply diffuse]).
    pose proof (rows_good g pos (diff pos) (band pos) relax M relaxed) as G.
    unfold vector_execute. simpl Nat.ltb. cbv iota. unfold vector_step. rewrite Hs. eexists. split; [reflexivity |].
    intros comp Hk. apply coefficient_pull; [exact M |]. apply guess_equilibrium; assumption.
  Qed.
  (** one step, with walls to slip on *)
  Lemma slip_step : forall bc s pos (target : vec -> vec), s_verts s <> [] ->
    (forall i j, In i (g_verts g) -> In j (g_link g i) -> pos i <> pos j) ->
    (forall guess, exists f, corrector s pos guess = Some f /\ forall i, f i = vsub (target (vadd (pos i) (guess i))) (pos i)) ->
    exists guess field, vector_execute solve g diff band relax thres 1 bc s pos = Some (field, pos)
      /\ (forall comp, component comp -> equilibrium (g_verts g) (g_link g) (pull pos (diff pos) (band pos) relax) (part comp (prescribed bc (s_periodic s))) (fun i => comp (guess i)))
      /\ (forall comp, component comp -> equilibrium (g_verts g) (g_link g) (pull pos (diff pos) (band pos) relax)
            (fun i => match prescribed bc (s_periodic s) i with Some b => Some (comp b) | None => if in_dec Nat.eq_dec i (s_verts s) then Some (comp (field i)) else None end) (fun i => comp (field i)))
      /\ forall i, In i (g_verts g) -> In i (s_verts s) -> prescribed bc (s_periodic s) i = None -> vadd (pos i) (field i) = target (vadd (pos i) (guess i)).
  Proof.
    intros bc s pos target Hn Ap Hc.
    assert (M : sound_mesh (g_verts g) (g_link g) pos (diff pos)) by (split; [exact inside | exact Ap | apply diffuse]).
    pose proof (rows_good g pos (diff pos) (band pos) relax M relaxed) as G.
    set (rows := rows_of g pos (diff pos) (band pos) relax) in *.
    set (guess := solve3 solve g rows bc s None). destruct (Hc guess) as [f [Ef Hf]].
    set (field := solve3 solve g rows bc s (Some f)).
    assert (E2 : forall comp, component comp -> equilibrium (g_verts g) (g_link g) (coefficient g pos (diff pos) (band pos) relax)
       (fun i => match prescribed bc (s_periodic s) i with Some b => Some (comp b) | None => if in_dec Nat.eq_dec i (s_verts s) then Some (comp (f i)) else None end) (fun i => comp (field i))).
    { intros comp Hk. apply equilibrium_ext with (bc := conditions bc s (Some f) comp); [intros i _; apply conditions_corrector; exact Hk |]. apply solve3_equilibrium; assumption. }
    assert (E3 : forall i, In i (g_verts g) -> In i (s_verts s) -> prescribed bc (s_periodic s) i = None -> field i = f i).
    { intros i Hi Hs Hp. apply component_ext. intros comp Hk. pose proof (E2 comp Hk i Hi) as Q. cbv beta in Q. rewrite Hp in Q. destruct (in_dec Nat.eq_dec i (s_verts s)); [exact Q | contradiction]. }
    exists guess, field. split; [| split; [| split]].
    - unfold vector_execute. simpl Nat.ltb. cbv iota. fold rows. unfold vector_step. fold guess. rewrite Ef. destruct (s_verts s); [contradiction | reflexivity].
    - intros comp Hk. apply coefficient_pull; [exact M |]. apply guess_equilibrium; assumption.
    - intros comp Hk. apply coefficient_pull; [exact M |]. apply equilibrium_ext with (2 := E2 comp Hk). intros i Hi.
      destruct (prescribed bc (s_periodic s) i) eqn:Ep; [reflexivity |]. destruct (in_dec Nat.eq_dec i (s_verts s)); [rewrite E3 by assumption; reflexivity | reflexivity].
    - intros i Hi Hs Hp. rewrite E3 by assumption. rewrite Hf. unfold vadd, vsub. destruct (pos i) as [a1 a2 a3], (target _) as [b1 b2 b3]; simpl. f_equal; ring.
  Qed.
End Steps.
Lemma project_foot : forall p q n, dot n n = 1 -> foot q n p (projectPointPlane p q n).
Proof.
  intros [p1 p2 p3] [q1 q2 q3] [n1 n2 n3] H. unfold foot, on_plane, projectPointPlane, vsub, vscale, dot in *. simpl in *. split.
  - replace _ with (((p1 - q1) * n1 + (p2 - q2) * n2 + (p3 - q3) * n3) * (1 - (n1 * n1 + n2 * n2 + n3 * n3))) by ring. rewrite H. ring.
  - exists ((p1 - q1) * n1 + (p2 - q2) * n2 + (p3 - q3) * n3). f_equal; ring.
Qed.

(** ** Boundary conditions *)
Lemma find_app : forall (A : Type) i (l m : list (nat * A)), Propagate.find i (l ++ m) = match Propagate.find i l with Some x => Some x | None => Propagate.find i m end.
Proof. induction l as [| [j x] r IH]; intros m; simpl; [reflexivity |]. destruct (Nat.eqb j i); [reflexivity | apply IH]. Qed.
Lemma put_find : forall (A : Type) (value : nat -> A) ids acc i,
  Propagate.find i (put value acc ids) = match Propagate.find i acc with Some x => Some x | None => if in_dec Nat.eq_dec i ids then Some (value i) else None end.
Proof.
  intros A value. induction ids as [| k r IH]; intros acc i; [simpl; destruct (Propagate.find i acc); reflexivity |].
  change (put value acc (k :: r)) with (put value (match Propagate.find k acc with Some _ => acc | None => acc ++ [(k, value k)] end) r). rewrite IH.
  destruct (Propagate.find k acc) as [y |] eqn:Ek.
  - destruct (Propagate.find i acc) eqn:Ei; [reflexivity |].
    destruct (in_dec Nat.eq_dec i r) as [I | I]; destruct (in_dec Nat.eq_dec i (k :: r)) as [J | J]; try reflexivity; exfalso.
    + apply J. right. exact I.
    + destruct J as [-> | J]; [congruence | contradiction].
  - rewrite find_app. destruct (Propagate.find i acc) eqn:Ei; [reflexivity |]. cbn [Propagate.find].
    destruct (Nat.eqb k i) eqn:E.
    + apply Nat.eqb_eq in E. subst. destruct (in_dec Nat.eq_dec i (i :: r)) as [J | J]; [reflexivity | exfalso; apply J; left; reflexivity].
    + apply Nat.eqb_neq in E. destruct (in_dec Nat.eq_dec i r) as [I | I]; destruct (in_dec Nat.eq_dec i (k :: r)) as [J | J]; try reflexivity; exfalso.
      * apply J. right. exact I.
      * destruct J as [-> | J]; [congruence | contradiction].
Qed.
Lemma zero_find : forall (A : Type) (zero : A) rest acc i,
  Propagate.find i (fold_left (fun acc p => put (fun _ => zero) acc (p_verts p)) rest acc)
  = match Propagate.find i acc with Some x => Some x | None => if existsb (fun p => if in_dec Nat.eq_dec i (p_verts p) then true else false) rest then Some zero else None end.
Proof.
  intros A zero. induction rest as [| p r IH]; intros acc i; simpl; [destruct (Propagate.find i acc); reflexivity |].
  rewrite IH, put_find. destruct (Propagate.find i acc); [reflexivity |]. destruct (in_dec Nat.eq_dec i (p_verts p)); reflexivity.
Qed.
(** what a field gives *)
Definition given {A : Type} (zero : A) (f : field A) (i : nat) : A := match Propagate.find i (f_data f) with Some x => x | None => zero end.
(** every value comes from a field or is zero on a patch without one *)
Lemma put_fields_sound : forall (A : Type) (zero : A) fields rest acc i x,
  Propagate.find i (fst (put_fields zero fields rest acc)) = Some x ->
  Propagate.find i acc = Some x \/ exists f, In f fields /\ In i (p_verts (f_patch f)) /\ x = given zero f i.
Proof.
  intros A zero. induction fields as [| f r IH]; intros rest acc i x H; [left; exact H |]. simpl in H.
  destruct (existsb _ rest).
  - apply IH in H. destruct H as [H | [h [Hi [Hp Hx]]]]; [| right; exists h; split; [right; exact Hi | split; assumption]].
    rewrite put_find in H. destruct (Propagate.find i acc) eqn:E; [left; exact H |]. destruct (in_dec Nat.eq_dec i (p_verts (f_patch f))); [| discriminate].
    inversion H. right. exists f. split; [left; reflexivity | split; [assumption | reflexivity]].
  - apply IH in H. destruct H as [H | [h [Hi [Hp Hx]]]]; [left; exact H | right; exists h; split; [right; exact Hi | split; assumption]].
Qed.
Lemma put_fields_keep : forall (A : Type) (zero : A) fields rest acc i x, Propagate.find i acc = Some x -> Propagate.find i (fst (put_fields zero fields rest acc)) = Some x.
Proof.
  intros A zero. induction fields as [| f r IH]; intros rest acc i x H; [exact H |]. simpl. destruct (existsb _ rest); apply IH; [| exact H]. rewrite put_find, H. reflexivity.
Qed.
Lemma put_fields_left : forall (A : Type) (zero : A) fields rest acc p,
  In p (snd (put_fields zero fields rest acc)) <-> In p rest /\ forall f, In f fields -> p_address (f_patch f) <> p_address p.
Proof.
  intros A zero. induction fields as [| f r IH]; intros rest acc p; simpl.
  - split; [intros H; split; [exact H | intros f []] | intros [H _]; exact H].
  - destruct (existsb (fun q => Nat.eqb (p_address q) (p_address (f_patch f))) rest) eqn:E; rewrite IH.
    + rewrite filter_In. split.
      * intros [[H N] K]. split; [exact H |]. intros h [<- | Hh]; [| apply K; exact Hh]. intros Q. rewrite Q, Nat.eqb_refl in N. discriminate.
      * intros [H K]. split; [split; [exact H |] | intros h Hh; apply K; right; exact Hh]. apply negb_true_iff, Nat.eqb_neq. intros Q. apply (K f (or_introl eq_refl)). symmetry. exact Q.
    + split; intros [H K]; split; try exact H; intros h Hh; [| apply K; right; exact Hh].
      destruct Hh as [<- | Hh]; [| apply K; exact Hh]. intros Q. assert (F : existsb (fun q => Nat.eqb (p_address q) (p_address (f_patch f))) rest = true); [| congruence].
      apply existsb_exists. exists p. split; [exact H | apply Nat.eqb_eq; symmetry; exact Q].
Qed.
(** the first field of a patch is put *)
Lemma put_fields_cover : forall (A : Type) (zero : A) fields rest acc i p,
  In p rest -> In i (p_verts p) -> (exists f, In f fields /\ p_address (f_patch f) = p_address p) ->
  (forall f q, In f fields -> In q rest -> p_address (f_patch f) = p_address q -> f_patch f = q) ->
  Propagate.find i (fst (put_fields zero fields rest acc)) <> None.
Proof.
  intros A zero. induction fields as [| f r IH]; intros rest acc i p Hp Hi [h [Hh Ha]] U; [contradiction |]. simpl.
  destruct (Nat.eq_dec (p_address (f_patch f)) (p_address p)) as [E | E].
  - assert (F : existsb (fun q => Nat.eqb (p_address q) (p_address (f_patch f))) rest = true) by (apply existsb_exists; exists p; split; [exact Hp | apply Nat.eqb_eq; symmetry; exact E]).
    rewrite F. pose proof (U f p (or_introl eq_refl) Hp E) as Q. rewrite Q.
    match goal with |- Propagate.find i (fst (put_fields zero r ?L ?Acc)) <> None => destruct (Propagate.find i Acc) as [y |] eqn:Ey; [rewrite (put_fields_keep A zero r L Acc i y Ey); discriminate |] end.
    exfalso. rewrite put_find in Ey. destruct (Propagate.find i acc); [discriminate |]. destruct (in_dec Nat.eq_dec i (p_verts p)); [discriminate | contradiction].
  - destruct Hh as [<- | Hh]; [contradiction |].
    destruct (existsb (fun q => Nat.eqb (p_address q) (p_address (f_patch f))) rest).
    + apply IH with p; [apply filter_In; split; [exact Hp | apply negb_true_iff, Nat.eqb_neq; congruence] | exact Hi | exists h; split; assumption |].
      intros k q Hk Hq. apply filter_In in Hq. apply U; [right; exact Hk | tauto].
    + apply IH with p; [exact Hp | exact Hi | exists h; split; assumption | intros k q Hk Hq; apply U; [right; exact Hk | exact Hq]].
Qed.

Lemma value_find : forall (A : Type) i (l : list (nat * A)), value_at i l = Propagate.find i l.
Proof. induction l as [| [j x] r IH]; simpl; [reflexivity |]. destruct (Nat.eq_dec j i) as [-> | N]; [rewrite Nat.eqb_refl; reflexivity |]. apply Nat.eqb_neq in N. rewrite N. exact IH. Qed.
(** the addresses *)
Lemma array_grows : forall (A : Type) (s : store A) f, (t_array s <= t_array (addConditions s f))%nat.
Proof. intros A s f. unfold addConditions. simpl. destruct (Nat.eqb _ _); lia. Qed.
Lemma stale : forall (A : Type) l (s : store A) k r, (1 < t_array s)%nat -> t_pointers s = (1%nat, k) :: r -> read_conditions (fold_left addConditions l s) = None.
Proof.
  intros A. induction l as [| f l IH]; intros s k r H E.
  - simpl. unfold read_conditions. rewrite E. simpl. destruct (t_array s) as [| [| n]]; [reflexivity | lia | reflexivity].
  - simpl. apply IH with k (r ++ [(if Nat.eqb (length (t_copies s)) (t_capacity s) then S (t_array s) else t_array s, length (t_copies s))]).
    + pose proof (array_grows A s f). lia.
    + simpl. rewrite E. reflexivity.
Qed.

(** ** Damping *)
Lemma power_gt1 : forall x k, 1 < x -> 0 < k -> 1 < Rpower x k.
Proof. intros x k H K. rewrite <- (Rpower_O x) by lra. apply Rpower_lt; lra. Qed.
Lemma power_ge1 : forall x k, 1 <= x -> 0 <= k -> 1 <= Rpower x k.
Proof. intros x k H K. destruct (Req_dec x 1) as [-> | N]; [rewrite <- (Rpower_O 1) at 1 by lra; unfold Rpower; rewrite ln_1; rewrite !Rmult_0_r; lra |]. rewrite <- (Rpower_O x) by lra. apply Rle_Rpower; lra. Qed.
Lemma part_formula : forall radius plateau decay d, 0 < plateau -> plateau < radius -> 0 < decay -> 0 <= d ->
  distance_part radius plateau decay d = Some (if Rlt_dec d plateau then 1 else (Rpower (radius / d) decay - 1) / (Rpower (radius / plateau) decay - 1)).
Proof.
  intros radius plateau decay d Hp Hr Hk Hd. unfold distance_part, div.
  destruct (Req_EM_T plateau 0); [lra |]. destruct (Rlt_dec d plateau); [reflexivity |].
  destruct (Req_EM_T d 0); [lra |]. unfold pow.
  assert (1 < Rpower (radius / plateau) decay).
  { apply power_gt1; [| exact Hk]. apply Rmult_lt_reg_r with plateau; [exact Hp |]. unfold Rdiv. rewrite Rmult_assoc, Rinv_l by lra. lra. }
  destruct (Req_EM_T (Rpower (radius / plateau) decay - 1) 0); [lra | reflexivity].
Qed.
Lemma plateau_gt1 : forall radius plateau decay, 0 < plateau -> plateau < radius -> 0 < decay -> 1 < Rpower (radius / plateau) decay.
Proof. intros radius plateau decay Hp Hr Hk. apply power_gt1; [| exact Hk]. apply Rmult_lt_reg_r with plateau; [exact Hp |]. unfold Rdiv. rewrite Rmult_assoc, Rinv_l by lra. lra. Qed.
Lemma damping_formula : forall radius plateau decay d, 0 < plateau -> plateau < radius -> 0 < decay -> 0 <= d ->
  damping_distance radius plateau decay d = Some (damping_law radius plateau decay d).
Proof.
  intros radius plateau decay d Hp Hr Hk Hd. unfold damping_distance. rewrite part_formula by assumption. unfold div. destruct (Req_EM_T plateau 0); [lra |].
  pose proof (plateau_gt1 radius plateau decay Hp Hr Hk). unfold pow, damping_law. f_equal. destruct (Rlt_dec d plateau); [ring | field; lra].
Qed.
Lemma ratio_le : forall r a b, 0 < r -> 0 < a -> a <= b -> r / b <= r / a.
Proof. intros r a b Hr Ha Hb. unfold Rdiv. apply Rmult_le_compat_l; [lra |]. apply Rinv_le_contravar; lra. Qed.
Lemma power_mono : forall x y k, 0 < x -> x <= y -> 0 <= k -> Rpower x k <= Rpower y k.
Proof. intros x y k Hx H Hk. apply Rle_Rpower_l; [exact Hk | lra]. Qed.
Lemma law_antitone : forall radius plateau decay d e, 0 < plateau -> plateau < radius -> 0 < decay -> 0 <= d <= e -> damping_law radius plateau decay e <= damping_law radius plateau decay d.
Proof.
  intros radius plateau decay d e Hp Hr Hk Hd. unfold damping_law. destruct (Rlt_dec d plateau), (Rlt_dec e plateau); try lra.
  - apply power_mono; [apply Rdiv_lt_0_compat; lra | apply ratio_le; lra | lra].
  - apply power_mono; [apply Rdiv_lt_0_compat; lra | apply ratio_le; lra | lra].
Qed.
Lemma law_outer : forall radius plateau decay, 0 < plateau -> plateau < radius -> damping_law radius plateau decay radius = 1.
Proof. intros radius plateau decay Hp Hr. unfold damping_law. destruct (Rlt_dec radius plateau); [lra |]. replace (radius / radius) with 1 by (field; lra). unfold Rpower. rewrite ln_1, Rmult_0_r, exp_0. reflexivity. Qed.
Lemma fold_max : forall l a, a <= fold_left Rmax l a /\ (forall v, In v l -> v <= fold_left Rmax l a) /\ (fold_left Rmax l a = a \/ In (fold_left Rmax l a) l).
Proof.
  induction l as [| x r IH]; intros a; simpl; [split; [lra | split; [intros v [] | left; reflexivity]] |].
  destruct (IH (Rmax a x)) as [A [B C]]. pose proof (Rmax_l a x). pose proof (Rmax_r a x). split; [lra |]. split.
  - intros v [<- | Hv]; [lra | apply B; exact Hv].
  - destruct C as [C | C]; [| right; right; exact C]. rewrite C. unfold Rmax. destruct (Rle_dec a x); [right; left; reflexivity | left; reflexivity].
Qed.
Lemma fold_min : forall l a, fold_left Rmin l a <= a /\ (forall v, In v l -> fold_left Rmin l a <= v) /\ (fold_left Rmin l a = a \/ In (fold_left Rmin l a) l).
Proof.
  induction l as [| x r IH]; intros a; simpl; [split; [lra | split; [intros v [] | left; reflexivity]] |].
  destruct (IH (Rmin a x)) as [A [B C]]. pose proof (Rmin_l a x). pose proof (Rmin_r a x). split; [lra |]. split.
  - intros v [<- | Hv]; [lra | apply B; exact Hv].
  - destruct C as [C | C]; [| right; right; exact C]. rewrite C. unfold Rmin. destruct (Rle_dec a x); [left; reflexivity | right; left; reflexivity].
Qed.
Lemma floor_same : forall tiny l, (forall v, In v l -> tiny <= v) -> map (floor_volume tiny) l = l.
Proof.
  induction l as [| x r IH]; intros H; simpl; [reflexivity |]. rewrite IH by (intros v Hv; apply H; right; exact Hv). f_equal.
  unfold floor_volume. pose proof (H x (or_introl eq_refl)). destruct (Rlt_dec x tiny); lra.
Qed.
Lemma volmax_is : forall tiny vs hi, 0 < tiny -> (forall v, In v vs -> tiny <= v <= hi) -> In hi vs -> volmax tiny vs = hi.
Proof.
  intros tiny vs hi Ht H Hi. unfold volmax. rewrite floor_same by (intros v Hv; apply H; exact Hv). destruct (fold_max vs 0) as [A [B C]].
  apply Rle_antisym; [| apply B; exact Hi]. destruct C as [-> | C]; [pose proof (H hi Hi); lra | apply H; exact C].
Qed.
Lemma volmin_is : forall tiny huge vs lo, 0 < tiny -> (forall v, In v vs -> tiny <= v /\ lo <= v <= huge) -> In lo vs -> volmin tiny huge vs = lo.
Proof.
  intros tiny huge vs lo Ht H Hi. unfold volmin. rewrite floor_same by (intros v Hv; apply H; exact Hv). destruct (fold_min vs huge) as [A [B C]].
  apply Rle_antisym; [apply B; exact Hi |]. destruct C as [-> | C]; [pose proof (H lo Hi); lra | apply H; exact C].
Qed.
