(** Proofs about the surfaces spread over several processes. *)
From Coq Require Import List Arith Bool Lia Reals Lra.
From Verif Require Import Vec Mpi MpiSpec MpiProofs GlobDist GlobDistSpec.
Import ListNotations.
Open Scope nat_scope.

(** ** Communications whose data are known *)
Section Static.
  Context {W : Type}.
  Variable E : nat -> nat -> nat -> list W.
  Definition entry (i : nat) (c : comm W) : list (rcv W) := if Nat.eqb (c_dst c) i then [(c_src c, c_tag c, E (c_src c) (c_dst c) (c_tag c))] else [].
  Definition entries (i : nat) (l : list (comm W)) : list (rcv W) := flat_map (entry i) l.
  Definition known (cs : list (comm W)) : Prop := forall l1 c l2, cs = l1 ++ c :: l2 ->
    c_src c <> c_dst c /\ c_data c (entries (c_src c) l1) = E (c_src c) (c_dst c) (c_tag c) /\ length (E (c_src c) (c_dst c) (c_tag c)) <= c_room c (entries (c_dst c) l1).
  Lemma entries_app : forall i a b, entries i (a ++ b) = entries i a ++ entries i b.
  Proof. intros. apply flat_map_app. Qed.
  Lemma static_play : forall cs pre log, (forall i, log i = entries i pre) -> (forall l1 c l2, cs = l1 ++ c :: l2 ->
      c_src c <> c_dst c /\ c_data c (entries (c_src c) (pre ++ l1)) = E (c_src c) (c_dst c) (c_tag c) /\ length (E (c_src c) (c_dst c) (c_tag c)) <= c_room c (entries (c_dst c) (pre ++ l1))) ->
    fits cs log /\ forall i, play cs log i = entries i (pre ++ cs).
  Proof.
    induction cs as [|c r IH]; intros pre log L K; cbn [fits play]; [split; [exact I|]; intros i; rewrite app_nil_r; apply L|].
    destruct (K [] c r eq_refl) as (A & B & C). rewrite app_nil_r in B, C.
    assert (L' : forall i, (if Nat.eqb i (c_dst c) then log i ++ [(c_src c, c_tag c, c_data c (log (c_src c)))] else log i) = entries i (pre ++ [c])).
    { intros i. rewrite entries_app, L, (L (c_src c)), B. cbn [entries flat_map]. rewrite app_nil_r. unfold entry. rewrite (Nat.eqb_sym i). destruct (Nat.eqb (c_dst c) i); [reflexivity|rewrite app_nil_r; reflexivity]. }
    destruct (IH (pre ++ [c]) _ L') as (F & P).
    { intros l1 c' l2 Q. specialize (K (c :: l1) c' l2). rewrite Q in K. rewrite <- app_assoc. apply K. reflexivity. }
    split; [split; [exact A|]; split; [rewrite L, (L (c_dst c)), B; exact C|exact F]|]. intros i. rewrite P, <- app_assoc. reflexivity.
  Qed.
  Lemma known_play : forall cs, known cs -> fits cs (fun _ => []) /\ forall i, play cs (fun _ => []) i = entries i cs.
  Proof. intros cs K. apply (static_play cs [] (fun _ => [])); [reflexivity|exact K]. Qed.
End Static.

Section Exchange.
  Variables (P A : Type).
  Variable nprocs : nat.
  Variable queries : nat -> list (query P).
  Variable origin : P.
  Variable answers : list (nat * (nat -> P -> option nat -> A)).
  Hypothesis tags : NoDup (map fst answers).
  Hypothesis fresh : forall a, In a answers -> fst a <> 0 /\ fst a <> 100 /\ fst a <> 101.
  Notation word := (word P A).
  Notation asked := (asked P queries origin).
  Notation others := (others nprocs).

  Definition E (src dst tag : nat) : list word :=
    if Nat.eqb tag 0 then [WCount (length (asked src dst))]
    else if Nat.eqb tag 100 then map (fun q => WId (q_id q)) (asked src dst)
    else if Nat.eqb tag 101 then map (fun q => WPoint (q_point q)) (asked src dst)
    else match find (fun a => Nat.eqb (fst a) tag) answers with
         | Some a => map (fun q => WAnswer (snd a src (q_point q) (q_id q))) (asked dst src)
         | None => []
         end.
  Definition mk (src dst tag : nat) (data : list (rcv word) -> list word) (room : list (rcv word) -> nat) : comm word := Comm src dst tag data room.
  Definition K0 (j i : nat) : list (comm word) := [mk j i 0 (fun _ => [WCount (length (asked j i))]) (fun _ => 1)].
  Definition K1 (j i : nat) : list (comm word) :=
    [mk j i 100 (fun _ => map (fun q => WId (q_id q)) (asked j i)) (fun log => n_send P A log j);
     mk j i 101 (fun _ => map (fun q => WPoint (q_point q)) (asked j i)) (fun log => n_send P A log j)].
  Definition K2 (j i : nat) : list (comm word) := map (fun a => mk j i (fst a) (computed P A origin j i (snd a)) (fun _ => length (asked i j))) answers.
  Definition rounds_of (K : nat -> nat -> list (comm word)) : list (comm word) := flat_map (fun i => flat_map (fun j => K j i) (others i)) (seq 0 nprocs).
  Definition cs : list (comm word) := rounds_of K0 ++ rounds_of K1 ++ rounds_of K2.

  Lemma others_in : forall i j, In j (others i) <-> j < nprocs /\ j <> i.
  Proof.
    intros i j. unfold GlobDist.others. rewrite filter_In, in_seq, negb_true_iff, Nat.eqb_neq. intuition lia.
  Qed.
  Lemma others_nodup : forall i, NoDup (others i).
  Proof. intros i. apply NoDup_filter, seq_NoDup. Qed.
  Lemma in_rounds : forall K c, In c (rounds_of K) <-> exists i j, i < nprocs /\ j < nprocs /\ j <> i /\ In c (K j i).
  Proof.
    intros K c. unfold rounds_of. rewrite in_flat_map. split.
    - intros (i & I & H). apply in_seq in I. apply in_flat_map in H. destruct H as (j & J & H). apply others_in in J. exists i, j. intuition lia.
    - intros (i & j & I & J & D & H). exists i. split; [apply in_seq; lia|]. apply in_flat_map. exists j. split; [apply others_in; auto|exact H].
  Qed.
  Definition between (K : nat -> nat -> list (comm word)) : Prop := forall j i c, In c (K j i) -> c_src c = j /\ c_dst c = i.
  Lemma between0 : between K0. Proof. intros j i c [<- | []]. split; reflexivity. Qed.
  Lemma between1 : between K1. Proof. intros j i c [<- | [<- | []]]; split; reflexivity. Qed.
  Lemma between2 : between K2. Proof. intros j i c H. apply in_map_iff in H. destruct H as (a & <- & _). split; reflexivity. Qed.

  Lemma flat_map_flat : forall (X Y Z : Type) (f : Y -> list Z) (g : X -> list Y) l, flat_map f (flat_map g l) = flat_map (fun x => flat_map f (g x)) l.
  Proof. intros X Y Z f g l. induction l as [|x l IH]; [reflexivity|]. cbn [flat_map]. rewrite flat_map_app, IH. reflexivity. Qed.
  Lemma flat_map_same : forall (X Y : Type) (f g : X -> list Y) l, (forall x, In x l -> f x = g x) -> flat_map f l = flat_map g l.
  Proof. intros X Y f g l H. induction l as [|x l IH]; [reflexivity|]. cbn [flat_map]. rewrite (H x) by (left; reflexivity). f_equal. apply IH. intros y I. apply H. right. exact I. Qed.
  Lemma flat_map_one : forall (Y : Type) (g : nat -> list Y) l x, NoDup l -> In x l -> (forall y, In y l -> y <> x -> g y = []) -> flat_map g l = g x.
  Proof.
    intros Y g l x. induction l as [|a l IH]; intros N I H; [destruct I|]. destruct (proj1 (NoDup_cons_iff a l) N) as (Na & N'). cbn [flat_map]. destruct (Nat.eq_dec a x) as [-> | D].
    - rewrite (flat_nil _ _ g l); [apply app_nil_r|]. intros y Iy. apply H; [right; exact Iy|]. intros ->. contradiction.
    - rewrite (H a) by (first [left; reflexivity|exact D]). cbn [app]. apply IH; [exact N'|destruct I as [I|I]; [contradiction|exact I]|]. intros y Iy. apply H. right. exact Iy.
  Qed.
  Lemma endpoint : forall K me, between K -> me < nprocs ->
    flat_map (side me) (rounds_of K) = flat_map (fun i => if Nat.eqb me i then flat_map (fun j => flat_map (side me) (K j me)) (others me) else flat_map (side me) (K me i)) (seq 0 nprocs).
  Proof.
    intros K me B M. unfold rounds_of. rewrite flat_map_flat. apply flat_map_same. intros i I. apply in_seq in I. rewrite flat_map_flat. destruct (Nat.eqb_spec me i) as [<- | D]; [reflexivity|].
    apply (flat_map_one _ (fun j => flat_map (side me) (K j i))); [apply others_nodup|apply others_in; auto|]. intros j J Dj. apply flat_nil. intros c Hc. destruct (B _ _ _ Hc) as (Sc & Dc). unfold side. rewrite Sc, Dc.
    destruct (Nat.eqb_spec j me); [contradiction|]. destruct (Nat.eqb_spec i me); [congruence|reflexivity].
  Qed.
  Lemma endpoint_out : forall K me, between K -> nprocs <= me -> flat_map (side me) (rounds_of K) = [].
  Proof.
    intros K me B M. apply flat_nil. intros c I. apply in_rounds in I. destruct I as (i & j & Hi & Hj & _ & I). destruct (B _ _ _ I) as (Sc & Dc). unfold side. rewrite Sc, Dc. destruct (Nat.eqb_spec j me); [lia|]. destruct (Nat.eqb_spec i me); [lia|reflexivity].
  Qed.
  Lemma program_sides : forall me, program P A nprocs queries origin answers me = flat_map (side me) cs.
  Proof.
    intros me. unfold program, cs. rewrite !flat_map_app. destruct (Nat.ltb_spec me nprocs) as [M|M].
    - rewrite (endpoint K0 me between0 M), (endpoint K1 me between1 M), (endpoint K2 me between2 M). f_equal; [|f_equal].
      + unfold gathers. apply flat_map_same. intros i I. destruct (Nat.eqb_spec me i) as [<- | D].
        * assert (Q : forall l, (forall j, In j l -> j <> me) -> map (fun j => Recv j gather_tag (fun _ => 1)) l = flat_map (fun j => flat_map (side me) (K0 j me)) l).
          { induction l as [|j l IH]; intros H; [reflexivity|]. cbn [map flat_map]. rewrite IH by (intros k Ik; apply H; right; exact Ik). unfold K0, side. cbn. specialize (H j (or_introl eq_refl)). destruct (Nat.eqb_spec j me); [contradiction|]. rewrite Nat.eqb_refl. reflexivity. }
          apply Q. intros j J. apply others_in in J. apply J.
        * unfold K0, side. cbn. rewrite Nat.eqb_refl. reflexivity.
      + unfold requests. apply flat_map_same. intros i I. destruct (Nat.eqb_spec me i) as [<- | D].
        * apply flat_map_same. intros j J. apply others_in in J. unfold K1, side. cbn. destruct (Nat.eqb_spec j me); [lia|]. rewrite Nat.eqb_refl. reflexivity.
        * unfold K1, side. cbn. rewrite Nat.eqb_refl. reflexivity.
      + unfold replies. apply flat_map_same. intros i I. destruct (Nat.eqb_spec me i) as [<- | D].
        * apply flat_map_same. intros j J. apply others_in in J. unfold K2. clear - J. induction answers as [|a l IH]; [reflexivity|]. cbn [map flat_map]. rewrite IH. unfold side at 2. cbn. destruct (Nat.eqb_spec j me); [lia|]. rewrite Nat.eqb_refl. reflexivity.
        * unfold K2. clear. induction answers as [|a l IH]; [reflexivity|]. cbn [map flat_map]. rewrite IH. unfold side at 2. cbn. rewrite Nat.eqb_refl. reflexivity.
    - rewrite (endpoint_out K0 me between0 M), (endpoint_out K1 me between1 M), (endpoint_out K2 me between2 M). reflexivity.
  Qed.

  Lemma lookup_entries : forall l i j t c, In c l -> c_src c = j -> c_dst c = i -> c_tag c = t -> lookup P A (entries E i l) j t = E j i t.
  Proof.
    induction l as [|d l IH]; intros i j t c I Sc Dc Tc; [destruct I|]. unfold entries. cbn [flat_map]. fold (entries E i l). unfold entry. destruct (Nat.eqb_spec (c_dst d) i) as [Dd|Dd].
    - cbn [app lookup]. destruct (Nat.eqb_spec (c_src d) j) as [Sd|Sd]; cbn [andb].
      + destruct (Nat.eqb_spec (c_tag d) t) as [Td|Td]; [rewrite Sd, Dd, Td; reflexivity|]. destruct I as [-> | I]; [congruence|]. apply (IH i j t c); assumption.
      + destruct I as [-> | I]; [congruence|]. apply (IH i j t c); assumption.
    - cbn [app]. destruct I as [-> | I]; [congruence|]. apply (IH i j t c); assumption.
  Qed.
  Lemma split_app : forall (X : Type) (a b l1 : list X) c l2, a ++ b = l1 ++ c :: l2 -> In c a \/ exists l, l1 = a ++ l /\ b = l ++ c :: l2.
  Proof.
    intros X a. induction a as [|x a IH]; intros b l1 c l2 H; [right; exists l1; auto|]. destruct l1 as [|y l1]; cbn [app] in H; injection H as <- H; [left; left; reflexivity|].
    destruct (IH _ _ _ _ H) as [I | (l & -> & Q)]; [left; right; exact I|]. right. exists l. auto.
  Qed.
  Lemma find_answer : forall a, In a answers -> find (fun b => Nat.eqb (fst b) (fst a)) answers = Some a.
  Proof.
    intros a. clear fresh. induction answers as [|b l IH]; intros I; [destruct I|]. cbn [map] in tags. destruct (proj1 (NoDup_cons_iff _ _) tags) as (Nb & N'). cbn [find]. destruct (Nat.eqb_spec (fst b) (fst a)) as [Q|Q].
    - destruct I as [-> | I]; [reflexivity|]. exfalso. apply Nb. rewrite Q. apply in_map. exact I.
    - destruct I as [-> | I]; [congruence|]. apply IH; assumption.
  Qed.
  Lemma E_answer : forall src dst a, In a answers -> E src dst (fst a) = map (fun q => WAnswer (snd a src (q_point q) (q_id q))) (asked dst src).
  Proof.
    intros src dst a I. destruct (fresh a I) as (F0 & F1 & F2). unfold E. destruct (Nat.eqb_spec (fst a) 0); [contradiction|]. destruct (Nat.eqb_spec (fst a) 100); [contradiction|]. destruct (Nat.eqb_spec (fst a) 101); [contradiction|]. rewrite (find_answer a I). reflexivity.
  Qed.
  Lemma computed_right : forall me k f log, lookup P A log k 0 = E k me 0 -> lookup P A log k 100 = E k me 100 -> lookup P A log k 101 = E k me 101 ->
    computed P A origin me k f log = map (fun q => WAnswer (f me (q_point q) (q_id q))) (asked k me).
  Proof.
    intros me k f log H0 H1 H2. unfold computed, n_send, gather_tag, points_tag, ids_tag. rewrite H0, H1, H2. unfold E. cbn [Nat.eqb count_of]. generalize (asked k me) as l. clear. intros l.
    assert (Q : forall (l pre : list (query P)), map (fun ip => WAnswer (A:=A) (f me (point_of_word P A origin (nth ip (map (fun q => WPoint (A:=A) (q_point q)) (pre ++ l)) (WPoint origin))) (id_of P A (nth ip (map (fun q => WId (q_id q)) (pre ++ l)) (WId None))))) (seq (length pre) (length l)) =
       map (fun q => WAnswer (P:=P) (f me (q_point q) (q_id q))) l).
    { clear l. induction l as [|q l IH]; intros pre; [reflexivity|]. cbn [length seq map]. f_equal.
      - rewrite !map_app, !app_nth2 by (rewrite map_length; lia). rewrite !map_length, Nat.sub_diag. reflexivity.
      - specialize (IH (pre ++ [q])). rewrite <- app_assoc in IH. cbn [app] in IH. rewrite app_length in IH. cbn [length] in IH. rewrite Nat.add_1_r in IH. exact IH. }
    exact (Q l []).
  Qed.
  Lemma cs_known : known E cs.
  Proof.
    intros l1 c l2 H. unfold cs in H. apply split_app in H. destruct H as [I | (l & -> & H)].
    - apply in_rounds in I. destruct I as (i & j & Hi & Hj & D & [<- | []]). cbn. split; [exact D|]. split; [reflexivity|]. unfold E. cbn. lia.
    - apply split_app in H. destruct H as [I | (l' & -> & H)].
      + apply in_rounds in I. destruct I as (i & j & Hi & Hj & D & I).
        assert (L0 : lookup P A (entries E i (rounds_of K0 ++ l)) j 0 = E j i 0).
        { apply (lookup_entries _ _ _ _ (mk j i 0 (fun _ => [WCount (length (asked j i))]) (fun _ => 1))); [|reflexivity..]. apply in_app_iff. left. apply in_rounds. exists i, j. repeat split; try assumption. left. reflexivity. }
        destruct I as [<- | [<- | []]]; cbn [c_src c_dst c_tag c_data c_room mk]; (split; [exact D|]); (split; [reflexivity|]); unfold n_send, gather_tag; rewrite L0; unfold E; cbn [Nat.eqb count_of]; rewrite map_length; lia.
      + assert (I : In c (rounds_of K2)) by (rewrite H; apply in_app_iff; right; left; reflexivity). apply in_rounds in I. destruct I as (i & j & Hi & Hj & D & I). apply in_map_iff in I. destruct I as (a & <- & Ia). cbn [c_src c_dst c_tag c_data c_room mk].
        split; [exact D|]. rewrite (E_answer _ _ _ Ia). split; [|rewrite map_length; lia].
        assert (Lk : forall t, (exists c, In c (K0 i j ++ K1 i j) /\ c_tag c = t) -> lookup P A (entries E j (rounds_of K0 ++ rounds_of K1 ++ l')) i t = E i j t).
        { intros t (c & Ic & Tc). apply in_app_iff in Ic. apply (lookup_entries _ _ _ _ c); [| | |exact Tc].
          - apply in_app_iff. destruct Ic as [Ic|Ic]; [left; apply in_rounds; exists j, i; repeat split; auto|]. right. apply in_app_iff. left. apply in_rounds. exists j, i. repeat split; auto.
          - destruct Ic as [Ic|Ic]; [apply (between0 _ _ _ Ic)|apply (between1 _ _ _ Ic)].
          - destruct Ic as [Ic|Ic]; [apply (between0 _ _ _ Ic)|apply (between1 _ _ _ Ic)]. }
        apply computed_right; apply Lk.
        * exists (mk i j 0 (fun _ => [WCount (length (asked i j))]) (fun _ => 1)). split; [left; reflexivity|reflexivity].
        * exists (mk i j 100 (fun _ => map (fun q => WId (q_id q)) (asked i j)) (fun log => n_send P A log i)). split; [right; left; reflexivity|reflexivity].
        * exists (mk i j 101 (fun _ => map (fun q => WPoint (q_point q)) (asked i j)) (fun log => n_send P A log i)). split; [right; right; left; reflexivity|reflexivity].
  Qed.

  Lemma rounds_length : forall K m, (forall j i, length (K j i) = m) -> length (rounds_of K) = nprocs * ((nprocs - 1) * m).
  Proof.
    intros K m H. unfold rounds_of.
    assert (L : forall i, i < nprocs -> length (others i) = nprocs - 1).
    { intros i I. assert (Q : forall l, NoDup l -> In i l -> S (length (filter (fun j => negb (Nat.eqb j i)) l)) = length l).
      { induction l as [|x l IH]; intros N J; [destruct J|]. destruct (proj1 (NoDup_cons_iff x l) N) as (Nx & N'). cbn [filter]. destruct (Nat.eqb_spec x i) as [-> | D]; cbn [negb].
        - cbn [length]. f_equal. clear - Nx. induction l as [|y l IH]; [reflexivity|]. cbn [filter length]. destruct (Nat.eqb_spec y i) as [-> | D]; [destruct Nx; left; reflexivity|]. cbn [negb length]. f_equal. apply IH. intros J. apply Nx. right. exact J.
        - destruct J as [J|J]; [contradiction|]. cbn [length]. rewrite (IH N' J). reflexivity. }
      specialize (Q (seq 0 nprocs) (seq_NoDup _ _)). rewrite seq_length in Q. unfold GlobDist.others. assert (In i (seq 0 nprocs)) by (apply in_seq; lia). specialize (Q H0). lia. }
    assert (In1 : forall l, length (flat_map (fun j => K j 0) l) = length l * m) by (induction l as [|x l IH]; [reflexivity|]; cbn [flat_map length]; rewrite app_length, H, IH; lia).
    assert (In2 : forall i l, length (flat_map (fun j => K j i) l) = length l * m) by (intros i; induction l as [|x l IH]; [reflexivity|]; cbn [flat_map length]; rewrite app_length, H, IH; lia).
    assert (Out : forall l, (forall i, In i l -> i < nprocs) -> length (flat_map (fun i => flat_map (fun j => K j i) (others i)) l) = length l * ((nprocs - 1) * m)).
    { induction l as [|x l IH]; intros B; [reflexivity|]. cbn [flat_map length]. rewrite app_length, In2, L by (apply B; left; reflexivity). rewrite IH by (intros i I; apply B; right; exact I). lia. }
    rewrite Out by (intros i I; apply in_seq in I; lia). rewrite seq_length. reflexivity.
  Qed.
  Definition total_calls : nat := 2 * (nprocs * ((nprocs - 1) * (3 + length answers))).
  Lemma exchange_ends : always_ends (program P A nprocs queries origin answers) total_calls (play cs (fun _ => [])).
  Proof.
    assert (L : length cs = nprocs * ((nprocs - 1) * (3 + length answers))).
    { unfold cs. rewrite !app_length, (rounds_length K0 1), (rounds_length K1 2), (rounds_length K2 (length answers)); [lia| | |]; intros; unfold K2; rewrite ?map_length; reflexivity. }
    unfold total_calls. rewrite <- L. apply choreography; [apply (known_play E), cs_known|]. intros i. apply program_sides.
  Qed.
  (** what the asker has in the end *)
  Lemma exchange_answers : forall me j a ip, me < nprocs -> j < nprocs -> j <> me -> In a answers -> ip < length (asked me j) ->
    answered P A (play cs (fun _ => []) me) j (fst a) ip = Some (let q := nth ip (asked me j) (blank P origin) in snd a j (q_point q) (q_id q)).
  Proof.
    intros me j a ip M J D Ia L. rewrite (proj2 (known_play E cs cs_known)). unfold answered.
    rewrite (lookup_entries cs me j (fst a) (mk j me (fst a) (computed P A origin j me (snd a)) (fun _ => length (asked me j)))); [|  |reflexivity..].
    - rewrite (E_answer _ _ _ Ia). rewrite nth_error_map, (nth_error_nth' _ (blank P origin) L). reflexivity.
    - unfold cs. apply in_app_iff. right. apply in_app_iff. right. apply in_rounds. exists me, j. repeat split; try assumption. apply in_map_iff. exists a. auto.
  Qed.

  (** the results of the points *)
  Lemma fold_flat : forall (X Y S : Type) (f : S -> Y -> S) (g : X -> list Y) l s, fold_left f (flat_map g l) s = fold_left (fun s x => fold_left f (g x) s) l s.
  Proof. intros X Y S f g l. induction l as [|x l IH]; intros s; [reflexivity|]. cbn [flat_map fold_left]. rewrite fold_left_app. apply IH. Qed.
  Lemma fold_upd_out : forall (X : Type) (g : nat * nat -> X -> X) l (st : nat -> X) i, ~ In i (map fst l) -> fold_left (fun st (t : nat * (nat * nat)) => upd st (fst t) (g (snd t) (st (fst t)))) l st i = st i.
  Proof.
    intros X g l. induction l as [|t l IH]; intros st i N; [reflexivity|]. cbn [fold_left map] in *. rewrite IH by (intros C; apply N; right; exact C). apply upd_other. intros ->. apply N. left. reflexivity.
  Qed.
  Lemma fold_upd_in : forall (X : Type) (g : nat * nat -> X -> X) l (st : nat -> X) i jp, NoDup (map fst l) -> In (i, jp) l -> fold_left (fun st (t : nat * (nat * nat)) => upd st (fst t) (g (snd t) (st (fst t)))) l st i = g jp (st i).
  Proof.
    intros X g l. induction l as [|t l IH]; intros st i jp N I; [destruct I|]. cbn [fold_left map] in *. destruct (proj1 (NoDup_cons_iff _ _) N) as (Nt & N'). destruct I as [-> | I].
    - cbn [fst snd] in *. rewrite fold_upd_out by exact Nt. apply upd_same.
    - rewrite (IH _ i jp N' I). rewrite upd_other; [reflexivity|]. intros ->. apply Nt. apply (in_map fst) in I. exact I.
  Qed.
  Notation index_to := (index_to P queries origin).
  Definition triples (me : nat) : list (nat * (nat * nat)) := flat_map (fun j => map (fun ip => (nth ip (index_to me j) 0, (j, ip))) (seq 0 (length (asked me j)))) (others me).
  Lemma fill_triples : forall (X : Type) me (g : nat -> nat -> X -> X) st, fill P nprocs queries origin me g st = fold_left (fun st (t : nat * (nat * nat)) => upd st (fst t) ((fun jp => g (fst jp) (snd jp)) (snd t) (st (fst t)))) (triples me) st.
  Proof.
    intros X me g st. unfold fill, triples. rewrite fold_flat. revert st. induction (others me) as [|j l IH]; intros st; [reflexivity|]. cbn [fold_left]. rewrite IH. f_equal.
    generalize (seq 0 (length (asked me j))) as ips. intros ips. clear. revert st. induction ips as [|ip ips IH]; intros st; [reflexivity|]. cbn [map fold_left fst snd]. apply IH.
  Qed.
  Lemma asked_length : forall me j, length (asked me j) = length (index_to me j).
  Proof. intros. unfold GlobDist.asked. apply map_length. Qed.
  Lemma map_nth_seq : forall (l : list nat), map (fun ip => nth ip l 0) (seq 0 (length l)) = l.
  Proof.
    intros l. assert (Q : forall l pre, map (fun ip => nth ip (pre ++ l) 0) (seq (length pre) (length l)) = l).
    { clear. induction l as [|x l IH]; intros pre; [reflexivity|]. cbn [length seq map]. rewrite app_nth2, Nat.sub_diag by lia. cbn [nth]. f_equal. specialize (IH (pre ++ [x])). rewrite <- app_assoc, app_length in IH. cbn [app length] in IH. rewrite Nat.add_1_r in IH. exact IH. }
    exact (Q l []).
  Qed.
  Lemma triples_fst : forall me, map fst (triples me) = flat_map (index_to me) (others me).
  Proof.
    intros me. unfold triples. induction (others me) as [|j l IH]; [reflexivity|]. cbn [flat_map]. rewrite map_app, IH, map_map. cbn [fst]. rewrite asked_length, map_nth_seq. reflexivity.
  Qed.
  Lemma index_in : forall me k i, In i (index_to me k) <-> i < length (queries me) /\ q_rank (nth i (queries me) (blank P origin)) = Some k /\ k <> me.
  Proof.
    intros me k i. unfold GlobDist.index_to. rewrite filter_In, in_seq. unfold asks. destruct (q_rank (nth i (queries me) (blank P origin))) as [r|]; [|split; [intros (_ & X); discriminate|intros (_ & X & _); discriminate]].
    rewrite andb_true_iff, negb_true_iff, Nat.eqb_neq, Nat.eqb_eq. split; [intros (A1 & A2 & A3); subst; repeat split; [lia|assumption]|]. intros (A1 & A2 & A3). injection A2 as ->. repeat split; try lia; assumption.
  Qed.
  Lemma triples_nodup : forall me, NoDup (map fst (triples me)).
  Proof.
    intros me. rewrite triples_fst. pose proof (others_nodup me) as N. induction (others me) as [|j l IH]; [constructor|]. destruct (proj1 (NoDup_cons_iff j l) N) as (Nj & N'). cbn [flat_map].
    assert (D : forall i, In i (index_to me j) -> ~ In i (flat_map (index_to me) l)).
    { intros i I C. apply in_flat_map in C. destruct C as (k & Kl & C). apply index_in in I. apply index_in in C. destruct I as (_ & I & _), C as (_ & C & _). rewrite I in C. injection C as ->. contradiction. }
    assert (Nj' : NoDup (index_to me j)) by (apply NoDup_filter, seq_NoDup). specialize (IH N'). revert D Nj'. generalize (index_to me j) as a, (flat_map (index_to me) l) as b, IH. clear.
    intros a b Nb. induction a as [|x a IH]; intros D Na; [exact Nb|]. destruct (proj1 (NoDup_cons_iff x a) Na) as (Nx & Na'). cbn [app]. constructor; [|apply IH; [intros i I; apply D; right; exact I|exact Na']]. intros C. apply in_app_iff in C. destruct C as [C|C]; [contradiction|]. apply (D x); [left; reflexivity|exact C].
  Qed.
  Lemma fill_at : forall (X : Type) me (g : nat -> nat -> X -> X) st i, i < length (queries me) ->
    let q := nth i (queries me) (blank P origin) in
    match q_rank q with
    | Some k => k < nprocs -> k <> me -> exists ip, ip < length (asked me k) /\ nth ip (asked me k) (blank P origin) = q /\ fill P nprocs queries origin me g st i = g k ip (st i)
    | None => True
    end /\ ((q_rank q = None \/ q_rank q = Some me) -> fill P nprocs queries origin me g st i = st i).
  Proof.
    intros X me g st i L q. rewrite fill_triples. split.
    - destruct (q_rank q) as [k|] eqn:Q; [|exact I]. intros K D. assert (Ii : In i (index_to me k)) by (apply index_in; auto). destruct (In_nth _ _ 0 Ii) as (ip & Lp & Np). exists ip. rewrite asked_length. split; [exact Lp|]. split.
      + unfold GlobDist.asked. rewrite (nth_indep _ _ ((fun ip => nth ip (queries me) (blank P origin)) 0)) by (rewrite map_length; exact Lp). etransitivity; [apply (map_nth (fun ip => nth ip (queries me) (blank P origin)))|]. rewrite Np. reflexivity.
      + apply (fold_upd_in X (fun jp => g (fst jp) (snd jp)) (triples me) st i (k, ip)); [apply triples_nodup|]. unfold triples. apply in_flat_map. exists k. split; [apply others_in; auto|]. apply in_map_iff. exists ip. split; [rewrite Np; reflexivity|]. apply in_seq. rewrite asked_length. lia.
    - intros H. apply (fold_upd_out X (fun jp => g (fst jp) (snd jp))). rewrite triples_fst. intros C. apply in_flat_map in C. destruct C as (k & _ & C). apply index_in in C. fold q in C. destruct C as (_ & C & D), H as [H|H]; rewrite H in C; [discriminate|]. injection C as ->. contradiction.
  Qed.
End Exchange.

(** ** Reductions *)
Lemma least_one : forall n (f : nat -> R) big k, k < n -> (f k <= big)%R -> (forall r, r < n -> r <> k -> f r = big) -> least_of n f = f k.
Proof.
  intros n f big k K L H. unfold least_of. assert (Q : forall l, (forall r, In r l -> r < n) -> fold_right (fun r m => Rmin (f r) m) (f 0) l = if in_dec Nat.eq_dec k (0 :: l) then f k else big).
  { induction l as [|r l IH]; intros B; cbn [fold_right].
    - destruct (in_dec Nat.eq_dec k [0]) as [[I | []] | I]; [subst; reflexivity|]. apply H; [lia|]. intros C. apply I. left. exact C.
    - rewrite IH by (intros x I; apply B; right; exact I). destruct (Nat.eq_dec r k) as [-> | D].
      + destruct (in_dec Nat.eq_dec k (0 :: k :: l)) as [_|C]; [|destruct C; right; left; reflexivity]. destruct (in_dec Nat.eq_dec k (0 :: l)); [apply Rmin_left; lra|apply Rmin_left; exact L].
      + rewrite (H r) by (first [apply B; left; reflexivity|exact D]). destruct (in_dec Nat.eq_dec k (0 :: l)) as [I|I], (in_dec Nat.eq_dec k (0 :: r :: l)) as [J|J].
        * apply Rmin_right. exact L.
        * destruct J. destruct I as [I|I]; [left; exact I|right; right; exact I].
        * destruct I. destruct J as [J | [J | J]]; [left; exact J|contradiction|right; exact J].
        * apply Rmin_left. lra. }
  rewrite Q by (intros r I; apply in_seq in I; lia). destruct (in_dec Nat.eq_dec k (0 :: seq 0 n)) as [_|C]; [reflexivity|]. destruct C. right. apply in_seq. lia.
Qed.
Lemma least_none : forall n (f : nat -> R) big, 0 < n -> (forall r, r < n -> f r = big) -> least_of n f = big.
Proof. intros n f big N H. rewrite <- (H 0 N). apply (least_one n f big 0); [exact N|rewrite (H 0 N); lra|]. intros r R _. apply H. exact R. Qed.

Section Seek.
  Variables (big tol : R) (nprocs kmax : nat).
  Variable sd : nat -> vec -> R -> option hit.
  Definition grown (kiter : nat) (r : R) : R := if Nat.leb (kmax - 2) kiter then big else (r * (3 / 2))%R.
  Fixpoint seek (me fuel kiter : nat) (p : vec) (r : R) : option hit :=
    match fuel with O => None | S f => match sd me p r with Some h => Some h | None => seek me f (S kiter) p (grown kiter r) end end.
  Lemma store_out : forall me ws out i, ~ In i (map w_pos ws) -> fold_left (store sd me) ws out i = out i.
  Proof.
    intros me ws. induction ws as [|w ws IH]; intros out i N; [reflexivity|]. cbn [fold_left map] in *. rewrite IH by (intros C; apply N; right; exact C). unfold store. destruct (sd me (w_point w) (w_radius w)); [|reflexivity]. apply upd_other. intros ->. apply N. left. reflexivity.
  Qed.
  Lemma store_in : forall me ws out w, NoDup (map w_pos ws) -> In w ws -> fold_left (store sd me) ws out (w_pos w) = match sd me (w_point w) (w_radius w) with Some h => Some h | None => out (w_pos w) end.
  Proof.
    intros me ws. induction ws as [|v ws IH]; intros out w N I; [destruct I|]. cbn [fold_left map] in *. destruct (proj1 (NoDup_cons_iff _ _) N) as (Nv & N'). destruct I as [-> | I].
    - rewrite store_out by exact Nv. unfold store. destruct (sd me (w_point w) (w_radius w)); [apply upd_same|reflexivity].
    - rewrite (IH _ _ N' I). unfold store. destruct (sd me (w_point w) (w_radius w)); [reflexivity|]. destruct (sd me (w_point v) (w_radius v)); [|reflexivity]. apply upd_other. intros C. apply Nv. rewrite <- C. apply in_map. exact I.
  Qed.
  Lemma pos_augment : forall kiter l, map w_pos (map (augment big kmax kiter) l) = map w_pos l.
  Proof. intros. rewrite map_map. reflexivity. Qed.
  Lemma nodup_filter_pos : forall (f : work -> bool) l, NoDup (map w_pos l) -> NoDup (map w_pos (filter f l)).
  Proof.
    intros f l. induction l as [|w l IH]; intros N; [constructor|]. cbn [map filter] in *. destruct (proj1 (NoDup_cons_iff _ _) N) as (Nw & N'). destruct (f w); [|apply IH; exact N']. cbn [map]. constructor; [|apply IH; exact N'].
    intros C. apply Nw. apply in_map_iff in C. destruct C as (v & E & I). apply filter_In in I. rewrite <- E. apply in_map. apply I.
  Qed.
  Lemma rounds_out : forall me, me < nprocs -> forall fuel kiter ws out i, ~ In i (map w_pos (ws me)) -> rounds big nprocs kmax sd fuel kiter ws out me i = out me i.
  Proof.
    intros me M. induction fuel as [|fuel IH]; intros kiter ws out i N; [reflexivity|]. cbn [rounds]. destruct (forallb _ _); [reflexivity|]. rewrite IH; [apply store_out; exact N|]. rewrite pos_augment. intros C. apply N. apply in_map_iff in C. destruct C as (v & E & I). apply filter_In in I. rewrite <- E. apply in_map. apply I.
  Qed.
  Lemma rounds_in : forall me, me < nprocs -> forall fuel kiter ws out w, NoDup (map w_pos (ws me)) -> In w (ws me) ->
    rounds big nprocs kmax sd fuel kiter ws out me (w_pos w) = match seek me fuel kiter (w_point w) (w_radius w) with Some h => Some h | None => out me (w_pos w) end.
  Proof.
    intros me M. induction fuel as [|fuel IH]; intros kiter ws out w N I; [reflexivity|]. cbn [rounds seek]. destruct (forallb _ _) eqn:E.
    - exfalso. apply (proj1 (forallb_forall _ _)) with (x := me) in E; [|apply in_seq; lia]. destruct (ws me); [destruct I|discriminate].
    - destruct (sd me (w_point w) (w_radius w)) as [h|] eqn:Q.
      + rewrite rounds_out; [rewrite store_in by assumption; rewrite Q; reflexivity|exact M|]. rewrite pos_augment. intros C. apply in_map_iff in C. destruct C as (v & Ev & Iv). apply filter_In in Iv. destruct Iv as (Iv & Mv).
        assert (v = w) by (clear - N I Iv Ev; induction (ws me) as [|x l IHl]; [destruct I|]; cbn [map] in N; destruct (proj1 (NoDup_cons_iff _ _) N) as (Nx & N'); destruct I as [-> | I], Iv as [-> | Iv]; [reflexivity|destruct Nx; rewrite <- Ev; apply in_map; exact Iv|destruct Nx; rewrite Ev; apply in_map; exact I|apply IHl; assumption]).
        subst v. unfold missed in Mv. rewrite Q in Mv. discriminate.
      + specialize (IH (S kiter) (fun r => map (augment big kmax kiter) (filter (missed sd r) (ws r))) (fun r => fold_left (store sd r) (ws r) (out r)) (augment big kmax kiter w)). cbn [w_pos w_point w_radius augment] in IH. fold (grown kiter (w_radius w)) in IH. rewrite IH.
        * rewrite store_in by assumption. rewrite Q. reflexivity.
        * rewrite pos_augment. apply nodup_filter_pos. exact N.
        * apply (in_map (augment big kmax kiter)). apply filter_In. split; [exact I|]. unfold missed. rewrite Q. reflexivity.
  Qed.
  Lemma grown_tried : forall r k, 2 <= kmax -> grown k (tried big r kmax k) = tried big r kmax (S k).
  Proof.
    intros r k K. unfold grown, tried. destruct (Nat.leb_spec (kmax - 2) k), (Nat.ltb_spec (S k) (kmax - 1)); try lia; [reflexivity|]. destruct (Nat.ltb_spec k (kmax - 1)); [|lia]. cbn [pow]. ring.
  Qed.
  Lemma seek_first : forall me r p, 2 <= kmax -> forall fuel k, fuel + k = kmax -> (forall j, j < k -> sd me p (tried big r kmax j) = None) ->
    first_hit (fun j => sd me p (tried big r kmax j)) kmax (seek me fuel k p (tried big r kmax k)).
  Proof.
    intros me r p K. induction fuel as [|fuel IH]; intros k F N; cbn [seek]; [cbn; intros j J; apply N; lia|].
    destruct (sd me p (tried big r kmax k)) as [h|] eqn:E.
    - cbn. exists k. split; [lia|]. split; [exact E|exact N].
    - rewrite (grown_tried r k K). apply IH; [lia|]. intros j J. destruct (Nat.eq_dec j k) as [-> | D]; [exact E|]. apply N. lia.
  Qed.
End Seek.
