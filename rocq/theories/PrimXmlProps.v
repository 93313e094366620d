(** C179: settings of primitive shapes in XML. *)

From Coq Require Import Reals Lra.
From Coq Require Import List.
From Verif Require Import Vec PrimXml PrimXmlSpec.
Import ListNotations.
Local Open Scope R_scope.

(** Spheres and cylinders of selections are read back with all their settings,
    whatever the block that reads had before. *)
Theorem C179_selections : forall rt c s s0,
  c = CSphere \/ c = CCylinder ->
  exists s', absorb c (flush rt c s) s0 = Some s' /\
    same_setup rt s s' /\ u_dual s' = u_dual s.
Proof.
  intros rt c s s0 [-> | ->]; (eexists; split; [reflexivity|]);
    unfold same_setup, same_place, near; cbn; tauto.
Qed.
Print Assumptions C179_selections.

(** Boxes, which always start from 0, too. *)
Theorem C179_boxes : forall rt s s0,
  exists s', absorb CBox (flush rt CBox s) s0 = Some s' /\
    same_place rt s s' /\ u_dual s' = u_dual s /\ u_inf s' = u_inf s0.
Proof.
  intros rt s s0; (eexists; split; [reflexivity|]);
    unfold same_place, near; cbn; tauto.
Qed.
Print Assumptions C179_boxes.

(** Primitives are read back with shape, place, size and orientation. *)
Theorem C179_primitives : forall rt s s0,
  exists s', absorb CPrimitive (flush rt CPrimitive s) s0 = Some s' /\
    u_shape s' = u_shape s /\ same_place rt s s'.
Proof.
  intros rt s s0. eexists; split; [reflexivity|].
  unfold same_place, near; cbn. destruct (u_shape s); cbn; tauto.
Qed.
Print Assumptions C179_primitives.

(** Options which are not there leave the settings as they are. *)
Theorem C179_absent : forall c s,
  absorb c (Section_ None None None None None None) s = Some s.
Proof. intros c s; destruct c; reflexivity. Qed.
Print Assumptions C179_absent.

(** Numbers missing at the end of a size keep the size of the whole shape: a
    radius alone gives a full sphere, or a full cylinder of height 1. *)
Theorem C179_radius : forall c s a,
  exists s', absorb c (Section_ None None None (Some [Num a]) None None) s
             = Some s' /\
    u_origin s' = u_origin s /\ u_axes s' = u_axes s /\ u_inf s' = u_inf s /\
    u_span s' = match c with
                | CSphere => V3 a (2 * PI) PI
                | CCylinder => V3 a (2 * PI) 1
                | CBox => V3 a 1 1
                | CPrimitive => V3 a 0 0
                end.
Proof.
  intros c s a. destruct c; (eexists; split; [reflexivity|]); cbn; tauto.
Qed.
Print Assumptions C179_radius.

Definition unit_axes : axes := Axes (V3 1 0 0) (V3 0 1 0) (V3 0 0 1).

(** Where the coordinates of a primitive start is read but not written: even
    with numbers read back exactly, a primitive starting elsewhere is not
    found again. *)
Theorem C179_limits_refuted :
  ~ (forall s s0 s', absorb CPrimitive (flush (fun x => x) CPrimitive s) s0
                     = Some s' -> same_setup (fun x => x) s s').
Proof.
  intros X.
  destruct (X (Setup Cylinder false (V3 0 0 0) (V3 1 1 1) unit_axes (V3 0 1 0))
              (Setup Cube false (V3 0 0 0) (V3 1 1 1) unit_axes (V3 0 0 0))
              _ eq_refl) as [_ [_ [Y _]]].
  cbn in Y. lra.
Qed.
Print Assumptions C179_limits_refuted.

(** An orientation given by one axis only is taken by the selections, but not
    by primitives: they throw. *)
Theorem C179_axes : forall c s t, c <> CPrimitive ->
  exists s', absorb c (Section_ None None None None
               (Some (AxesSection (Some t) None None)) None) s = Some s' /\
    ax1 (u_axes s') = V3 0 1 0 /\ ax2 (u_axes s') = V3 0 0 1.
Proof.
  intros c s t N. destruct c; [congruence| | |];
    (eexists; split; [reflexivity|]); cbn; tauto.
Qed.
Print Assumptions C179_axes.

Theorem C179_axes_refuted :
  ~ (forall s t, exists s',
       absorb CPrimitive (Section_ None None None None
         (Some (AxesSection (Some t) None None)) None) s = Some s').
Proof.
  intros X.
  destruct (X (Setup Cube false (V3 0 0 0) (V3 1 1 1) unit_axes (V3 0 0 0)) [])
    as [s' H]. discriminate H.
Qed.
Print Assumptions C179_axes_refuted.

Example C179_nonvacuous :
  let s := Setup Cylinder true (V3 1 2 3) (V3 4 5 6)
                 (Axes (V3 0 1 0) (V3 0 0 1) (V3 1 0 0)) (V3 0 7 0) in
  let s0 := Setup Cube false (V3 0 0 0) (V3 1 1 1) unit_axes (V3 0 0 0) in
  absorb CCylinder (flush (fun x => x) CCylinder s) s0
  = Some (Setup Cube true (V3 1 2 3) (V3 4 5 6)
                (Axes (V3 0 1 0) (V3 0 0 1) (V3 1 0 0)) (V3 0 7 0)).
Proof. reflexivity. Qed.
