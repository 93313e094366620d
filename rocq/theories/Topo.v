(** Model of the parts and the borders of a mesh (src/core/MimmoObject.cpp 2690-3113, 3475-3563).

    The patch is seen through the adjacencies of bitpit: [adj c] gives, for each face of cell [c] in
    order, the cells on the other side, in the order bitpit has them.  [None] is an exception.
    Serial: all the cells are interior. *)
From Coq Require Import String List Arith Bool ZArith Reals.
From Verif Require Import Vec SharedPtr Obj Select.
Import ListNotations.
Open Scope list_scope.
Open Scope nat_scope.

Definition adjacency := nat -> list (list nat).

(** isClosedLoop, 3475-3500; isFaceBorder of bitpit: no cell on the other side *)
Definition border (ns : list nat) : bool := Nat.eqb (length ns) 0.
Definition isClosedLoop (adj : adjacency) (ids : list nat) : bool := forallb (fun c => forallb (fun ns => negb (border ns)) (adj c)) ids.

(** * decomposeLoop, 3508-3563 *)
Fixpoint first_unchecked (l checked : list nat) : option nat :=
  match l with [] => None | x :: r => if nin x checked then first_unchecked r checked else Some x end.
(** the loop on the faces: at most one cell is added for each face.  The back of the stack is its head *)
Fixpoint push_faces (fs : list (list nat)) (stack checked : list nat) : list nat * list nat :=
  match fs with
  | [] => (stack, checked)
  | ns :: r => match first_unchecked ns checked with
               | None => push_faces r stack checked
               | Some n => push_faces r (n :: stack) (n :: checked)
               end
  end.
(** the loop on the stack; [fuel] bounds the iterations *)
Fixpoint visit (fuel : nat) (adj : adjacency) (ids stack checked save : list nat) : option (list nat * list nat) :=
  match stack with
  | [] => Some (save, checked)
  | t :: st =>
      match fuel with
      | O => None
      | S k => if nin t ids then let '(st, ch) := push_faces (adj t) st checked in visit k adj ids st ch (save ++ [t]) else None
      end
  end.
(** the outer loop.  Without a cell that is not checked the start is -1, and getCells().at(-1) throws *)
Fixpoint decompose (fuel : nat) (adj : adjacency) (ids checked : list nat) (result : list (list nat)) : option (list (list nat)) :=
  match fuel with
  | O => None
  | S k =>
      match first_unchecked ids checked with
      | None => None
      | Some s =>
          match visit (length ids) adj ids [s] (s :: checked) [] with
          | None => None
          | Some (save, ch) => if length ch <? length ids then decompose k adj ids ch (result ++ [save]) else Some (result ++ [save])
          end
      end
  end.
Definition decomposeLoop (adj : adjacency) (ids : list nat) : option (list (list nat)) := decompose (S (length ids)) adj ids [] [].

(** * Borders, 2690-3113 *)
(** extractBoundaryFaceCellID and getBorderFaceCells: the cells with border faces, with their indices *)
Fixpoint border_faces (i : nat) (fs : list (list nat)) : list nat :=
  match fs with [] => [] | ns :: r => if border ns then i :: border_faces (S i) r else border_faces (S i) r end.
Definition extractBoundaryFaceCellID (t : nat) (adj : adjacency) (ids : list nat) : list (nat * list nat) :=
  if Nat.eqb t 3 then [] else filter (fun e => negb (Nat.eqb (length (snd e)) 0)) (map (fun c => (c, border_faces 0 (adj c))) ids).
(** extractBoundaryCellID, getBorderCells *)
Definition extractBoundaryCellID (m : list (nat * list nat)) : list nat := map fst m.
(** extractBoundaryVertexID, getBorderVertices; [face c i] is getFaceVertexIds *)
Definition extractBoundaryVertexID (face : nat -> nat -> list nat) (m : list (nat * list nat)) : list nat :=
  nodup Nat.eq_dec (flat_map (fun e => flat_map (face (fst e)) (snd e)) m).
(** extractBoundaryInterfaceID; [interf c i] is the interface of face [i] of cell [c] *)
Definition extractBoundaryInterfaceID (interf : nat -> nat -> nat) (m : list (nat * list nat)) : list nat :=
  nodup Nat.eq_dec (flat_map (fun e => map (interf (fst e)) (snd e)) m).
(** extractBoundaryMesh, 2929-3006; [shape k] is the type and the connectivity of interface [k],
    [owner k] its owner.  The constructor of the geometry
    takes 1 for 0 (251).  The vertices of interfaces that are not added would be deleted as orphans. *)
Definition boundary_type (t : nat) : nat := Nat.max 1 (match t with 2 => 1 | 1 => 4 | 4 => 3 | _ => 0 end).
Definition extractBoundaryMesh (adj : adjacency) (face : nat -> nat -> list nat) (interf : nat -> nat -> nat) (shape : nat -> elem * list nat) (owner : nat -> nat) (g : obj) : option obj :=
  let m := extractBoundaryFaceCellID (o_type g) adj (map fst (o_cells g)) in
  match copy_verts (extractBoundaryVertexID face m) g (new_obj (boundary_type (o_type g))) with
  | None => None
  | Some r =>
      fold_left (fun r k => match r, find (owner k) (o_cells g) with
                            | Some r, Some c => Some (snd (addConnectedCell (@length nat) (snd (shape k)) (fst (shape k)) (c_pid c) (Some k) r))
                            | _, _ => None
                            end) (extractBoundaryInterfaceID interf m) (Some r)
  end.
