(** Concrete fields: cases that meet the hypotheses of the theorems, and counterexamples. *)
From Coq Require Import Reals List Arith Bool Lra Lia.
From Verif Require Import SharedPtr SharedPtrProofs Field FieldSpec FieldProofs Vec FieldAvg FieldAvgSpec FieldAvgProofs.
Import ListNotations.
Open Scope R_scope.

(** (inv_pow is not unfolded by simpl.)
    Two triangles 10 and 20 sharing the edge 2-3, with one border interface 7. *)
Local Arguments inv_pow : simpl never.

Definition tris : geom :=
  {| g_verts := [3; 1; 2; 4]%nat; g_cells := [(10, [1; 2; 3]); (20, [2; 3; 4])]%nat;
     g_ifaces := [(7, (true, [1; 2])); (8, (false, [2; 3]))]%nat; g_interior := Nat.eqb 10 |}.
Lemma tris_ok : geom_ok tris.
Proof. split; [|split]; simpl; repeat (constructor; [simpl; lia|]); constructor. Qed.
Lemma tris_closed : closed_geom tris.
Proof. intros c vs v [H|[H|[]]] I; injection H as <- <-; simpl in *; lia. Qed.

Definition points (v : nat) : vec := match v with 1%nat => V3 0 0 0 | 2%nat => V3 3 0 0 | 3%nat => V3 0 3 0 | _ => V3 3 3 0 end.
Definition flat : metric :=
  {| m_point := points; m_center := fun c => if Nat.eqb c 10 then V3 1 1 0 else V3 2 2 0;
     m_icenter := fun i => if Nat.eqb i 7 then V3 (3/2) 0 0 else V3 (3/2) (3/2) 0; m_volume := fun _ => 9/2 |}.
Lemma norm_nonzero : forall a, vx a <> 0 \/ vy a <> 0 \/ vz a <> 0 -> norm a <> 0.
Proof.
  intros a H E. unfold norm in E. apply sqrt_eq_0 in E.
  - unfold dot in E. pose proof (Rle_0_sqr (vx a)) as A. pose proof (Rle_0_sqr (vy a)) as B. pose proof (Rle_0_sqr (vz a)) as C.
    unfold Rsqr in *. assert (vx a * vx a = 0) by lra. assert (vy a * vy a = 0) by lra. assert (vz a * vz a = 0) by lra.
    destruct H as [H|[H|H]]; apply H; apply Rmult_integral in H0, H1, H2; tauto.
  - unfold dot. pose proof (Rle_0_sqr (vx a)) as A. pose proof (Rle_0_sqr (vy a)) as B. pose proof (Rle_0_sqr (vz a)) as C.
    unfold Rsqr in *. lra.
Qed.
Lemma flat_apart : apart flat tris.
Proof.
  split.
  - intros c vs v [H|[H|[]]] I; injection H as <- <-; destruct I as [<-|[<-|[<-|[]]]]; apply norm_nonzero; simpl; lra.
  - intros c b vs v [H|[H|[]]] I; injection H as <- <- <-; destruct I as [<-|[<-|[]]]; apply norm_nonzero; simpl; lra.
Qed.

(** A point field missing vertices 1 and 3; a field with an unknown id; a full point field. *)
Definition half : mpv nat := {| f_geo := Some tris; f_loc := LPoint; f_name := 5; f_data := [(2, 20); (4, 40)]%nat |}.
Definition alien : mpv nat := {| f_geo := Some tris; f_loc := LPoint; f_name := 5; f_data := [(2, 20); (9, 90)]%nat |}.
Lemma half_ok : field_ok half.
Proof. split; [simpl; repeat (constructor; [simpl; lia|]); constructor|exact tris_ok]. Qed.
Lemma alien_ok : field_ok alien.
Proof. split; [simpl; repeat (constructor; [simpl; lia|]); constructor|exact tris_ok]. Qed.

Definition full : mpv R := {| f_geo := Some tris; f_loc := LPoint; f_name := 5; f_data := [(1%nat, 1); (2%nat, 2); (3%nat, 3); (4%nat, 4)] |}.
Definition one_cell : mpv R := {| f_geo := Some tris; f_loc := LCell; f_name := 5; f_data := [(10%nat, 1)] |}.
Definition some_points : mpv R := {| f_geo := Some tris; f_loc := LPoint; f_name := 5; f_data := [(2%nat, 2); (3%nat, 3)] |}.
Lemma full_covers : forall c vs, In (c, vs) (g_cells tris) -> vs <> [] /\ forall v, In v vs -> value full v <> None.
Proof.
  intros c vs [H|[H|[]]]; injection H as <- <-; (split; [discriminate|]); intros v I;
    destruct I as [<-|[<-|[<-|[]]]]; discriminate.
Qed.

(** A linear field with gradient (1,0,0): the value at a point is its x coordinate. *)
Definition two_cells : mpv R := {| f_geo := Some tris; f_loc := LCell; f_name := 5; f_data := [(10%nat, 1); (20%nat, 2)] |}.
Definition const_cells (k : R) : mpv R := {| f_geo := Some tris; f_loc := LCell; f_name := 5; f_data := [(10%nat, k); (20%nat, k)] |}.
Lemma linear_cells : forall c x, value two_cells c = Some x -> x = vx (m_center flat c).
Proof.
  intros c x. unfold value. simpl. destruct c as [|[|[|[|[|[|[|[|[|[|[|c]]]]]]]]]]]; try discriminate; [intros H; injection H as <-; reflexivity|].
  do 9 (destruct c as [|c]; [discriminate|]). destruct c as [|c]; [intros H; injection H as <-; reflexivity|discriminate].
Qed.

(** At vertex 4 = (3,3) the field is 3, the only contribution is that of cell 20, with value
    2 + 2*(1*1) = 4. *)
Lemma linear_wrong : exists f', cell_to_point_grad flat false tris two_cells (const_cells 1) (const_cells 0) (const_cells 0) = Val f' /\
  value f' 4 = Some 4.
Proof.
  destruct (cell_to_point_grad_ok flat tris two_cells (const_cells 1) (const_cells 0) (const_cells 0) tris_ok tris_closed)
    as [f' [E [_ [_ V]]]].
  - intros c vs _. simpl. lra.
  - intros c vs [H|[H|[]]] _; injection H as <- <-; split; [|split| |split]; discriminate.
  - exists f'. split; [exact E|]. rewrite V. unfold rebuilt. simpl. unfold average. simpl. f_equal.
    unfold extrapolate. simpl. assert (0 < / Rpower (9 / 2) 3) by (apply Rinv_0_lt_compat; unfold Rpower; apply exp_pos).
    field. unfold Rpower. apply Rgt_not_eq. apply exp_pos.
Qed.

(** maximum: vertex 2 receives 1 and 2 and gets 2, not their average. *)
Lemma maximum_not_average : exists f', cell_to_point_grad flat true tris two_cells (const_cells 0) (const_cells 0) (const_cells 0) = Val f' /\
  value f' 2 = Some 2.
Proof.
  unfold cell_to_point_grad.
  assert (W : inv_pow (9 / 2) 0 = Val 1).
  { unfold inv_pow. destruct (Req_EM_T (9 / 2) 0); [lra|]. rewrite Rpower_O; [rewrite Rinv_1; reflexivity|lra]. }
  simpl. rewrite W. simpl. unfold extrapolate. simpl.
  assert (K : forall u a b z, Rabs (1 + 1 * (0 * u) + 1 * (0 * a) + 1 * (0 * b)) = 1 /\ Rabs (2 + 2 * (0 * u) + 2 * (0 * a) + 2 * (0 * b)) = 2 /\
                              z * 1 = z).
  { intros. split; [|split]; [| |lra]; (replace (_ + _) with 1 by lra; apply Rabs_R1) || (replace (_ + _) with 2 by lra; apply Rabs_pos_eq; lra). }
  repeat (match goal with |- context [?z * 1] => rewrite (proj2 (proj2 (K 0 0 0 z))) end).
  repeat (match goal with |- context [if Rlt_dec (Rabs ?a) (Rabs ?b) then _ else _] =>
    destruct (Rlt_dec (Rabs a) (Rabs b)) as [?|n0]; [|exfalso; apply n0; rewrite (proj1 (K _ _ _ 0)), (proj1 (proj2 (K _ _ _ 0))); lra] end; simpl).
  simpl. eexists. split; [reflexivity|]. unfold value. simpl. f_equal. lra.
Qed.

(** A vertex at the centroid of its cell. *)
Definition needle : metric :=
  {| m_point := fun _ => V3 0 0 0; m_center := fun _ => V3 0 0 0; m_icenter := fun _ => V3 0 0 0; m_volume := fun _ => 1 |}.
