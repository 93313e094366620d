(** The basis functions of one direction: [basisITS0] computes the B-splines of the knot span. *)
From Coq Require Import Reals List Arith ZArith Bool Lia Lra.
From Verif Require Import Vec Shape Mesh Lattice Ffd FfdSpec.
Import ListNotations.
Open Scope R_scope.

(** the loop over r without failures *)
Fixpoint innerR (L Rr : nat -> R) (j r : nat) (saved : R) (b : list R) : list R :=
  match b with
  | [] => [saved]
  | x :: b => let tmp := x / (Rr (r + 1)%nat + L (j - r)%nat) in
              (saved + Rr (r + 1)%nat * tmp) :: innerR L Rr j (r + 1) (L (j - r)%nat * tmp) b
  end.
Section Inner.
Variables (left right : nat -> option R) (L Rr : nat -> R) (n : nat).
Hypothesis left_ok : forall a, (1 <= a <= n)%nat -> left a = Some (L a).
Hypothesis right_ok : forall a, (1 <= a <= n)%nat -> right a = Some (Rr a).
Hypothesis den : forall a b, (1 <= a)%nat -> (1 <= b)%nat -> (a + b <= n + 1)%nat -> Rr a + L b <> 0.

Lemma inner_is j : (j <= n)%nat -> forall b r saved, (r + length b = j)%nat -> inner left right j r saved b = Some (innerR L Rr j r saved b).
Proof.
  intros Hj. induction b as [|x b IH]; intros r saved E; cbn [inner innerR]; [reflexivity|]. cbn [length] in E.
  rewrite right_ok, left_ok by lia. cbn [bind]. unfold rdiv. destruct (Req_EM_T _ 0) as [Z|_]; [exfalso; revert Z; apply den; lia|].
  cbn [bind]. rewrite IH by lia. reflexivity.
Qed.
Lemma inner_len j : forall b r saved, length (innerR L Rr j r saved b) = S (length b).
Proof. induction b as [|x b IH]; intros; cbn [innerR length]; [reflexivity|]. now rewrite IH. Qed.
Lemma inner_sum j : (j <= n)%nat -> forall b r saved, (r + length b = j)%nat -> total (innerR L Rr j r saved b) = saved + total b.
Proof.
  intros Hj. induction b as [|x b IH]; intros r saved E; cbn [innerR total fold_right]; [lra|]. cbn [length] in E.
  fold (total (innerR L Rr j (r + 1) (L (j - r)%nat * (x / (Rr (r + 1)%nat + L (j - r)%nat))) b)). rewrite IH by lia. fold (total b).
  assert (Rr (r + 1)%nat + L (j - r)%nat <> 0) by (apply den; lia). field. assumption.
Qed.
Hypothesis Lpos : forall a, (1 <= a <= n)%nat -> 0 <= L a.
Hypothesis Rpos : forall a, (1 <= a <= n)%nat -> 0 <= Rr a.
Lemma inner_pos j : (j <= n)%nat -> forall b r saved, (r + length b = j)%nat -> 0 <= saved -> Forall (Rle 0) b -> Forall (Rle 0) (innerR L Rr j r saved b).
Proof.
  intros Hj. induction b as [|x b IH]; intros r saved E S F; cbn [innerR]; [constructor; [exact S|constructor]|]. cbn [length] in E.
  pose proof (Forall_inv F) as X. pose proof (Forall_inv_tail F) as F'.
  assert (0 <= Rr (r + 1)%nat) by (apply Rpos; lia). assert (0 <= L (j - r)%nat) by (apply Lpos; lia).
  assert (Rr (r + 1)%nat + L (j - r)%nat <> 0) by (apply den; lia).
  assert (0 <= x / (Rr (r + 1)%nat + L (j - r)%nat)) by (apply Rmult_le_pos; [exact X|]; apply Rlt_le, Rinv_0_lt_compat; lra).
  constructor.
  - apply Rplus_le_le_0_compat; [exact S|]. apply Rmult_le_pos; assumption.
  - apply IH; [lia| |exact F']. apply Rmult_le_pos; assumption.
Qed.
End Inner.

Section Basis.
Variables (c : curve) (k : Z) (x : R) (u : Z -> R).
Let n := c_deg c.
Hypothesis low : forall a, (1 <= a <= n)%nat -> getKnotValue c (k + 1 - Z.of_nat a) = Some (u (k + 1 - Z.of_nat a)%Z).
Hypothesis high : forall a, (1 <= a <= n)%nat -> getKnotValue c (k + Z.of_nat a) = Some (u (k + Z.of_nat a)%Z).
Hypothesis apart : forall a b, (1 <= a)%nat -> (1 <= b)%nat -> (a + b <= n + 1)%nat -> u (k + 1 - Z.of_nat b)%Z < u (k + Z.of_nat a)%Z.

Let L a := x - u (k + 1 - Z.of_nat a)%Z.
Let Rr a := u (k + Z.of_nat a)%Z - x.
Let left j := do v <- getKnotValue c (k + 1 - Z.of_nat j); Some (x - v).
Let right j := do v <- getKnotValue c (k + Z.of_nat j); Some (v - x).
Fact left_ok a : (1 <= a <= n)%nat -> left a = Some (L a).
Proof. intros H. unfold left. rewrite low by exact H. reflexivity. Qed.
Fact right_ok a : (1 <= a <= n)%nat -> right a = Some (Rr a).
Proof. intros H. unfold right. rewrite high by exact H. reflexivity. Qed.
Fact den a b : (1 <= a)%nat -> (1 <= b)%nat -> (a + b <= n + 1)%nat -> Rr a + L b <> 0.
Proof. intros A B C. unfold Rr, L. pose proof (apart a b A B C). lra. Qed.

(** the list after the turns 1 .. j *)
Definition turns (j : nat) : list R := fold_left (fun b j => innerR L Rr j 0 0 b) (seq 1 j) [1].
Lemma turns_S j : turns (S j) = innerR L Rr (S j) 0 0 (turns j).
Proof. unfold turns. rewrite seq_S, fold_left_app. reflexivity. Qed.
Lemma turns_len j : length (turns j) = S j.
Proof. induction j as [|j IH]; [reflexivity|]. rewrite turns_S, inner_len, IH. reflexivity. Qed.
Lemma loop_turns j : (j <= n)%nat -> loop (fun j b => inner left right j 0 0 b) (seq 1 j) [1] = Some (turns j).
Proof.
  assert (App : forall (A B : Type) (f : A -> B -> option B) l1 l2 b, loop f (l1 ++ l2) b = do b <- loop f l1 b; loop f l2 b).
  { intros A B f. induction l1 as [|y l1 IH]; intros l2 b; cbn [app loop bind]; [reflexivity|]. destruct (f y b); cbn [bind]; [apply IH|reflexivity]. }
  induction j as [|j IH]; intros H; [reflexivity|]. rewrite seq_S, App, IH by lia. cbn [bind plus loop].
  rewrite (inner_is left right L Rr n left_ok right_ok den (S j)); [|exact H|rewrite turns_len; lia]. cbn [bind]. now rewrite turns_S.
Qed.
Lemma basis_turns : basisITS0 c k x = Some (turns n).
Proof. exact (loop_turns n (le_n _)). Qed.
Lemma turns_sum j : (j <= n)%nat -> total (turns j) = 1.
Proof.
  induction j as [|j IH]; intros H; [cbn; lra|]. rewrite turns_S, (inner_sum L Rr n den); [|exact H|rewrite turns_len; lia]. rewrite IH by lia. lra.
Qed.
Lemma turns_pos j : (j <= n)%nat -> (forall a, (1 <= a <= n)%nat -> u (k + 1 - Z.of_nat a)%Z <= x <= u (k + Z.of_nat a)%Z) -> Forall (Rle 0) (turns j).
Proof.
  intros H In. induction j as [|j IH]; [repeat constructor; lra|]. rewrite turns_S. apply (inner_pos L Rr n den); try lra; try (rewrite turns_len); try lia.
  - intros a A. unfold L. pose proof (In a A). lra.
  - intros a A. unfold Rr. pose proof (In a A). lra.
  - apply IH. lia.
Qed.

(** the values are those of the recursion of Cox and de Boor *)
Lemma bspline_out p i : (i < k - Z.of_nat p \/ k < i)%Z -> bspline u k p i x = 0.
Proof.
  revert i. induction p as [|p IH]; intros i H; cbn [bspline].
  - destruct (Z.eqb_spec i k); [lia|reflexivity].
  - rewrite (IH i), (IH (i + 1)%Z) by lia. lra.
Qed.
Definition level (j : nat) : list R := map (fun r => bspline u k j (k - Z.of_nat j + Z.of_nat r) x) (seq 0 (S j)).
Lemma inner_level j : (S j <= n)%nat -> forall m r, (m + r = S j)%nat ->
  innerR L Rr (S j) r (ratio (x - u (k - Z.of_nat (S j) + Z.of_nat r)%Z) (u (k + Z.of_nat r)%Z - u (k - Z.of_nat (S j) + Z.of_nat r)%Z) * bspline u k j (k - Z.of_nat (S j) + Z.of_nat r) x)
    (map (fun r => bspline u k j (k - Z.of_nat j + Z.of_nat r) x) (seq r m)) =
  map (fun r => bspline u k (S j) (k - Z.of_nat (S j) + Z.of_nat r) x) (seq r (S m)).
Proof.
  intros H. induction m as [|m IH]; intros r E.
  - cbn [seq map innerR]. f_equal. cbn [bspline].
    rewrite (bspline_out j (k - Z.of_nat (S j) + Z.of_nat r + 1)) by lia.
    replace (k - Z.of_nat (S j) + Z.of_nat r + Z.of_nat (S j))%Z with (k + Z.of_nat r)%Z by lia. lra.
  - cbn [seq map innerR].
    assert (D : Rr (r + 1)%nat + L (S j - r)%nat = u (k + Z.of_nat r + 1)%Z - u (k - Z.of_nat j + Z.of_nat r)%Z).
    { unfold Rr, L. replace (k + Z.of_nat (r + 1))%Z with (k + Z.of_nat r + 1)%Z by lia.
      replace (k + 1 - Z.of_nat (S j - r))%Z with (k - Z.of_nat j + Z.of_nat r)%Z by lia. lra. }
    assert (D0 : u (k + Z.of_nat r + 1)%Z - u (k - Z.of_nat j + Z.of_nat r)%Z <> 0).
    { rewrite <- D. apply den; lia. }
    f_equal.
    + cbn [bspline]. rewrite D. replace (k - Z.of_nat (S j) + Z.of_nat r + Z.of_nat (S j))%Z with (k + Z.of_nat r)%Z by lia.
      replace (k - Z.of_nat (S j) + Z.of_nat r + 1)%Z with (k - Z.of_nat j + Z.of_nat r)%Z by lia. f_equal.
      unfold ratio at 1. destruct (Req_EM_T _ 0) as [Z|_]; [contradiction|]. unfold Rr.
      replace (k + Z.of_nat (r + 1))%Z with (k + Z.of_nat r + 1)%Z by lia. field. exact D0.
    + specialize (IH (S r) ltac:(lia)). replace (r + 1)%nat with (S r) by lia. cbn [seq map] in IH |- *. rewrite <- IH. f_equal.
      replace (r + 1)%nat with (S r) in D by lia. rewrite D. replace (k - Z.of_nat (S j) + Z.of_nat (S r))%Z with (k - Z.of_nat j + Z.of_nat r)%Z by lia.
      replace (k + Z.of_nat (S r))%Z with (k + Z.of_nat r + 1)%Z by lia.
      unfold ratio. destruct (Req_EM_T _ 0) as [Z|_]; [contradiction|]. unfold L.
      replace (k + 1 - Z.of_nat (S j - r))%Z with (k - Z.of_nat j + Z.of_nat r)%Z by lia. field. exact D0.
Qed.
Lemma turns_level j : (j <= n)%nat -> turns j = level j.
Proof.
  induction j as [|j IH]; intros H.
  - unfold turns, level. cbn. destruct (Z.eqb_spec (k - 0 + 0) k); [reflexivity|lia].
  - rewrite turns_S, IH by lia. unfold level. rewrite <- (inner_level j H (S j) 0) by lia. f_equal.
    rewrite (bspline_out j (k - Z.of_nat (S j) + Z.of_nat 0)) by lia. lra.
Qed.
Lemma basis_level : basisITS0 c k x = Some (level n).
Proof. rewrite basis_turns, turns_level by lia. reflexivity. Qed.
End Basis.
