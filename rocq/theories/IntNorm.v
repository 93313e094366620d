(** Model of the normals of the interfaces of a mesh (src/core/MimmoObject.cpp, evalInterfaceNormal 4616-4644,
    evalInterfaceArea 4656-4677).

    Of bitpit, and arguments here: the normal and the length of the edge of the owner (evalEdgeNormal,
    evalEdgeLength) and the normal and area of the faces of volumes. *)
From Coq Require Import Reals ZArith.
From Verif Require Import Vec.
Open Scope R_scope.

(** an interface as the functions see it: the places of its first two vertices, and what bitpit gives for it *)
Record interface := Interface { i_v0 : vec; i_v1 : vec; i_edge_normal : vec; i_edge_length : R; i_face_normal : vec; i_face_area : R }.
Section Normal.
  (** numeric_limits<double>::min() *)
  Variable tiny : R.
  (** 4616-4644; [sync]: the interfaces are built; [type] is the one of the mesh *)
  Definition evalInterfaceNormal (sync : bool) (type : Z) (i : interface) : vec :=
    if negb sync then vzero
    else if Z.eqb type 1 then
      let result := cross (vsub (i_v1 i) (i_v0 i)) (i_edge_normal i) in
      let normres := norm result in
      if Rlt_dec tiny normres then vscale (/ normres) result else result
    else if Z.eqb type 2 then i_face_normal i
    else vzero.
  (** 4656-4677 *)
  Definition evalInterfaceArea (sync : bool) (type : Z) (i : interface) : R :=
    if negb sync then 0
    else if Z.eqb type 1 then i_edge_length i
    else if Z.eqb type 2 then i_face_area i
    else 0.
End Normal.
