(** What it means for the structures of a geometry to be up to date. *)
From Coq Require Import List ZArith Bool.
From Verif Require Import Sync.
Import ListNotations.
Open Scope Z_scope.

Section Spec.
Context {C : Type}.

(** The cell tree holds each cell with the coordinates of its vertices. *)
Definition boxes_of (g : geo C) (t : list (Z * list C)) : Prop :=
  Forall2 (fun cell box => fst cell = fst box /\ Forall2 (fun v x => In (v, x) (g_verts g)) (snd cell) (snd box)) (g_cells g) t.

(** A status SYNC tells that the structure describes the geometry as it is now. *)
Record in_sync (g : geo C) (o : obj C) : Prop := {
  sync_skd : o_skdS o = Synced -> boxes_of g (o_skd o);
  sync_kd : o_kdS o = Synced -> o_kd o = g_verts g;
  sync_adj : o_adjS o = Synced -> o_adj o = g_cells g;
  sync_int : o_intS o = Synced -> o_int o = g_cells g;
  sync_info : o_infoS o = Synced -> o_info o = map fst (g_cells g);
  sync_bb : o_bbS o = Synced -> o_bb o = map snd (g_verts g);
  sync_pc : o_pcS o = Synced -> o_pc o = map snd (g_cells g)
}.

(** Removing coincident vertices leaves ids unique, and nothing changes if none is removed. *)
Definition legal (a : op C) (g : geo C) : Prop :=
  match a with
  | CleanGeometry g' => NoDup (map fst (g_verts g')) /\ (length (g_verts g) = length (g_verts g') -> g' = g)
  | ResetTo type => 1 <= type <= 4
  | _ => True
  end.

(** The histories in which each operation is legal when it is called. *)
Fixpoint history (ops : list (op C)) (s s' : geo C * obj C) : Prop :=
  match ops with
  | [] => s' = s
  | a :: ops' => legal a (fst s) /\ exists s1, step a s = Some s1 /\ history ops' s1 s'
  end.

(** A structure which had been built before is up to date again, one which had not is left so. *)
Definition refreshed (before after : status) : Prop :=
  match before with
  | Unsync | Synced => after = Synced
  | NoneS => after = NoneS
  | NotSupported => after = NotSupported
  end.

(** The cells are made of vertices which exist. *)
Definition well_linked (g : geo C) : Prop :=
  forall cell v, In cell (g_cells g) -> In v (snd cell) -> exists x, In (v, x) (g_verts g).

(** The patch of a point cloud is not emptied. *)
Fixpoint clouds_kept (ops : list (op C)) (s : geo C * obj C) : Prop :=
  match ops with
  | [] => True
  | a :: ops' => (o_type (snd s) = 3 -> a <> ResetPatch) /\ forall s1, step a s = Some s1 -> clouds_kept ops' s1
  end.
End Spec.
