(** C178: the magnitude of a vector field. *)

From Coq Require Import Reals Lra.
From Coq Require Import ZArith String List Lia.
From Verif Require Import Vec ModFld ModFldSpec.
Import ListNotations.
Open Scope list_scope.
Local Open Scope Z_scope.

Definition lengths (l : list (Z * vec)) : list (Z * R) :=
  map (fun p => (fst p, norm (snd p))) l.

Lemma f_at_none : forall (A : Type) (l : list (Z * A)) i,
  ~ In i (map fst l) -> f_at l i = None.
Proof.
  induction l as [|[k a] r IH]; intros i N; simpl in *; [reflexivity|].
  destruct (Z.eqb_spec k i) as [E|_]; [tauto|]. apply IH. tauto.
Qed.

Lemma f_at_in : forall (A : Type) (l : list (Z * A)) i a,
  NoDup (map fst l) -> In (i, a) l -> f_at l i = Some a.
Proof.
  induction l as [|[k b] r IH]; intros i a N I; simpl in *; [contradiction|].
  inversion N as [|? ? NI N']; subst.
  destruct I as [I|I].
  - inversion I; subst. rewrite Z.eqb_refl. reflexivity.
  - destruct (Z.eqb_spec k i) as [E|_]; [|auto].
    subst k. exfalso. apply NI. apply (in_map fst) in I. exact I.
Qed.

Lemma loop_ok : forall f todo done loc n g,
  NoDup (map fst (f_data f)) -> f_data f = done ++ todo ->
  mod_loop (map fst todo) f (Field loc n g (lengths done))
  = Some (Field loc n g (lengths (f_data f))).
Proof.
  intros f todo. induction todo as [|[i v] r IH]; intros done loc n g N E.
  - rewrite app_nil_r in E. simpl. rewrite E. reflexivity.
  - cbn [map fst mod_loop].
    rewrite (f_at_in _ (f_data f) i v N);
      [|rewrite E; apply in_or_app; right; left; reflexivity].
    unfold f_insert. cbn [f_data f_loc f_name f_geo].
    rewrite f_at_none.
    + replace (lengths done ++ [(i, norm v)]) with (lengths (done ++ [(i, v)]))
        by (unfold lengths; rewrite map_app; reflexivity).
      apply IH; [exact N|]. rewrite <- app_assoc. exact E.
    + unfold lengths. rewrite map_map. cbn [fst].
      rewrite E, map_app in N. cbn [map fst] in N.
      apply NoDup_remove_2 in N. intros I. apply N.
      apply in_or_app. left. exact I.
Qed.

Lemma execute_ok : forall m, proper (m_field m) ->
  execute m = Some (Mod (m_field m)
    (Field (f_loc (m_field m)) "data" (f_geo (m_field m))
           (lengths (f_data (m_field m))))).
Proof.
  intros m N. unfold execute. cbn [f_clear f_loc f_name f_geo f_data].
  change (@nil (Z * R)) with (lengths []).
  rewrite (loop_ok (m_field m) (f_data (m_field m)) [] _ _ _ N eq_refl).
  reflexivity.
Qed.

Lemma lengths_spec : forall l,
  Forall2 (fun (p : Z * vec) (q : Z * R) => fst q = fst p /\
     (0 <= snd q)%R /\
     (snd q * snd q = vx (snd p) * vx (snd p) + vy (snd p) * vy (snd p)
                     + vz (snd p) * vz (snd p))%R) l (lengths l).
Proof.
  induction l as [|[i v] r IH]; [constructor|]. constructor; [|exact IH].
  cbn [fst snd]. unfold norm. split; [reflexivity|]. split.
  - apply sqrt_pos.
  - rewrite sqrt_sqrt; [reflexivity|]. unfold dot. nra.
Qed.

(** For every field, whatever the block has computed before, the result is the
    field of the magnitudes on the mesh of the field, and the field stays as
    it was. *)
Theorem C178_magnitude : forall m, proper (m_field m) ->
  exists m', execute m = Some m' /\ m_field m' = m_field m /\
    magnitude_of (m_field m) (m_result m') /\
    magnitude_of (m_field m) (plotted m').
Proof.
  intros m N. rewrite (execute_ok m N). eexists. split; [reflexivity|].
  cbn [m_field m_result]. split; [reflexivity|].
  unfold magnitude_of, plotted; cbn [f_loc f_geo f_data m_result].
  split; (split; [reflexivity|split; [reflexivity|apply lengths_spec]]).
Qed.
Print Assumptions C178_magnitude.

(** A magnitude is zero exactly where the vector is. *)
Theorem C178_zero : forall m m' i v a, proper (m_field m) ->
  execute m = Some m' -> In (i, v) (f_data (m_field m)) ->
  In (i, a) (f_data (m_result m')) -> (a = 0%R <-> v = V3 0 0 0).
Proof.
  intros m m' i v a N E I J. rewrite (execute_ok m N) in E.
  inversion E; subst; clear E. cbn [m_result f_data] in J.
  unfold lengths in J. apply in_map_iff in J. destruct J as [[k u] [Q J]].
  cbn [fst snd] in Q. inversion Q; subst; clear Q.
  assert (u = v).
  { pose proof (f_at_in _ _ _ _ N I) as A. pose proof (f_at_in _ _ _ _ N J) as B.
    congruence. }
  subst u. unfold norm. destruct v as [x y z]. unfold dot; cbn [vx vy vz].
  split; intros H.
  - apply sqrt_eq_0 in H; [|nra]. f_equal; nra.
  - inversion H; subst. replace (0 * 0 + 0 * 0 + 0 * 0)%R with 0%R by ring.
    apply sqrt_0.
Qed.
Print Assumptions C178_zero.

(** Magnitudes do not depend on what the block held: executed again, or on a
    field set twice, the result is the same; a null field leaves the one set
    before. *)
Theorem C178_again : forall m m' g, proper g ->
  execute (setField (Some g) m) = execute (setField (Some g) m') /\
  (forall r, execute (setField (Some g) m) = Some r -> execute r = Some r) /\
  setField None (setField (Some g) m) = setField (Some g) m.
Proof.
  intros m m' g N.
  assert (A : forall x, execute (setField (Some g) x) =
    Some (Mod g (Field (f_loc g) "data" (f_geo g) (lengths (f_data g)))))
    by (intros x; exact (execute_ok (setField (Some g) x) N)).
  split; [rewrite !A; reflexivity|]. split.
  - intros r H. rewrite A in H. inversion H; subst.
    exact (execute_ok (Mod g _) N).
  - reflexivity.
Qed.
Print Assumptions C178_again.

Example C178_nonvacuous :
  let f := Field 1 "u"%string (Some 5) [(7, V3 3 4 0); (2, V3 0 0 0)] in
  let m := setField (Some f)
             (Mod (Field 0 ""%string None []) (Field 2 ""%string None [(9, 1%R)])) in
  proper (m_field m) /\ exists m', execute m = Some m' /\
    f_data (m_result m') = [(7, 5%R); (2, 0%R)].
Proof.
  intros f m. assert (N : proper (m_field m)).
  { unfold proper; cbn. repeat constructor; cbn; intuition lia. }
  split; [exact N|]. eexists. split; [exact (execute_ok m N)|].
  cbn. unfold norm, dot; cbn [vx vy vz]. f_equal; [|f_equal]; f_equal.
  - replace (3 * 3 + 4 * 4 + 0 * 0)%R with (5 * 5)%R by ring.
    apply sqrt_square. lra.
  - replace (0 * 0 + 0 * 0 + 0 * 0)%R with 0%R by ring. apply sqrt_0.
Qed.
