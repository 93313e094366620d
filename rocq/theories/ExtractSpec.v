(** What the extraction and the choice of fields are asked for. *)
From Coq Require Import List Arith Bool Reals.
From Verif Require Import SharedPtr Field FieldSpec Extract.
Import ListNotations.

Section Spec.
  Context {A : Type}.
  Variable mesh : nat -> geom.

  (** A field as the library makes it: no id twice, every id an element of its geometry. *)
  Definition sound_field (f : fieldv A) : Prop :=
    NoDup (map fst (v_data f)) /\ exists g, v_geo f = Some g /\ geom_ok (mesh g) /\ (forall id, In id (map fst (v_data f)) -> In id (elements_of (mesh g) (v_loc f))).
  Definition point_or_cell (l : location) : Prop := l = LPoint \/ l = LCell.

  (** Some of the entries of f, each once, on the geometry g. *)
  Definition portion (f r : fieldv A) (g : nat) (keep : nat -> Prop) : Prop :=
    v_geo r = Some g /\ v_loc r = v_loc f /\ NoDup (map fst (v_data r)) /\ forall id x, In (id, x) (v_data r) <-> In (id, x) (v_data f) /\ keep id.

  (** The element belongs to a cell that satisfies P. *)
  Definition belongs (g : nat) (loc : location) (P : nat -> Prop) (id : nat) : Prop :=
    match loc with
    | LCell => P id /\ exists vs, In (id, vs) (g_cells (mesh g))
    | LPoint => exists c vs, P c /\ In (c, vs) (g_cells (mesh g)) /\ In id vs
    | _ => False
    end.
  (** The identifiers listed are those of the cells. *)
  Definition pids_right (pid : nat -> nat -> nat) (pid_list : nat -> list nat) (g : nat) : Prop :=
    forall p, In p (pid_list g) <-> exists c vs, In (c, vs) (g_cells (mesh g)) /\ pid g c = p.

  (** The values of a list of fields on an element kept, in order. *)
  Inductive values_at (keep : fieldv A -> nat -> Prop) (id : nat) : list (fieldv A) -> list A -> Prop :=
  | va_nil : values_at keep id [] []
  | va_has : forall f v fs vs, keep f id -> In (id, v) (v_data f) -> values_at keep id fs vs -> values_at keep id (f :: fs) (v :: vs)
  | va_skip : forall f fs vs, ~ (keep f id /\ In id (map fst (v_data f))) -> values_at keep id fs vs -> values_at keep id (f :: fs) vs.

  (** The first field that satisfies P. *)
  Definition first_one (P : fieldv A -> Prop) (fs : list (fieldv A)) (f : fieldv A) : Prop :=
    exists l r, fs = l ++ f :: r /\ P f /\ forall f', In f' l -> ~ P f'.
End Spec.

