(** Model of the selection of the cells of a geometry near another one (src/core/SkdTreeUtils.cpp,
    selectByPatch 251-280, extractTarget 299-360, selectByGlobalPatch 1190-1312, extractTarget on
    boxes 1327-1385).

    A PatchSkdTree of bitpit is a tree of nodes with a bounding box, the cells below and the children
    that are not null (two at most in bitpit, any number here); the nodes of getNode(0..n-1) are the nodes
    of the tree, in an order the results do not depend on.  intersectBoxBox is the one of bitpit: on
    every axis the two intervals, one of them widened by the tolerance, meet.  Sets of cells are lists
    without repetitions; their order, unspecified in the code, is used in no theorem. *)
From Coq Require Import List Arith Bool Reals.
From Verif Require Import Vec.
Import ListNotations.
Open Scope nat_scope.

Record sbox := { bmin : vec; bmax : vec }.
Inductive tree := Node (b : sbox) (cells : list nat) (kids : list tree).
Definition tbox (t : tree) : sbox := match t with Node b _ _ => b end.
Definition tcells (t : tree) : list nat := match t with Node _ c _ => c end.
Definition tkids (t : tree) : list tree := match t with Node _ _ k => k end.

(** bitpit::CGElem::intersectBoxBox(A1, A2, B1, B2, 3, tol) *)
Definition axis_meet (a1 a2 b1 b2 tol : R) : bool :=
  if Rlt_dec (a2 + tol) b1 then false else if Rlt_dec b2 (a1 - tol) then false else true.
Definition intersectBoxBox (a b : sbox) (tol : R) : bool :=
  axis_meet (vx (bmin a)) (vx (bmax a)) (vx (bmin b)) (vx (bmax b)) tol &&
  axis_meet (vy (bmin a)) (vy (bmax a)) (vy (bmin b)) (vy (bmax b)) tol &&
  axis_meet (vz (bmin a)) (vz (bmax a)) (vz (bmin b)) (vz (bmax b)) tol.

(** the nodes of a tree, and isLeaf *)
Fixpoint nodes (t : tree) : list tree :=
  match t with Node b c ks => t :: (fix go (l : list tree) : list tree := match l with [] => [] | k :: r => nodes k ++ go r end) ks end.
Definition isLeaf (t : tree) : bool := match tkids t with [] => true | _ => false end.

(** 315-352: the stack of target nodes, each with the selection leaves still of interest; the children
    of a node are pushed left then right, the last pushed is popped first *)
Fixpoint push_kids (tol : R) (sel : list sbox) (ks : list tree) (stack : list (tree * list sbox)) : list (tree * list sbox) :=
  match ks with
  | [] => stack
  | k :: r =>
      let tocheck := filter (fun s => intersectBoxBox s (tbox k) tol) sel in
      push_kids tol sel r (match tocheck with [] => stack | _ => (k, tocheck) :: stack end)
  end.
(** [fuel] bounds the number of nodes popped; extractTarget gives it the number of nodes of the tree *)
Fixpoint descend (fuel : nat) (tol : R) (stack : list (tree * list sbox)) (candidates : list tree) : list tree :=
  match fuel with
  | 0 => candidates
  | S n =>
      match stack with
      | [] => candidates
      | (t, sel) :: r => descend n tol (push_kids tol sel (tkids t) r) (if isLeaf t then candidates ++ [t] else candidates)
      end
  end.
(** 353-359: the cells of the candidates, once each *)
Definition collect (candidates : list tree) : list nat := nodup Nat.eq_dec (flat_map tcells candidates).
Definition extractTarget (target : tree) (sel : list sbox) (extracted : list nat) (tol : R) : list nat :=
  match sel with
  | [] => extracted
  | _ =>
      let tocheck := filter (fun s => intersectBoxBox s (tbox target) tol) sel in
      extracted ++ collect (descend (length (nodes target)) tol [(target, tocheck)] [])
  end.
(** selectByPatch *)
Definition leaf_boxes (selection : tree) (b : sbox) (tol : R) : list sbox :=
  map tbox (filter (fun n => isLeaf n && intersectBoxBox (tbox n) b tol) (nodes selection)).
Definition selectByPatch (selection target : tree) (tol : R) : list nat :=
  extractTarget target (leaf_boxes selection (tbox target) tol) [] tol.

(** *** On several processes *)
(** 1343-1373: the queue of one selection box *)
Fixpoint sweep_queue (fuel : nat) (tol : R) (s : sbox) (queue : list tree) (candidates : list tree) : list tree :=
  match fuel with
  | 0 => candidates
  | S n =>
      match queue with
      | [] => candidates
      | t :: r => sweep_queue n tol s (r ++ filter (fun k => intersectBoxBox s (tbox k) tol) (tkids t)) (if isLeaf t then candidates ++ [t] else candidates)
      end
  end.
(** extractTarget on boxes, 1327-1385 (the set of the candidate nodes is a list, the set of their
    cells removes the repetitions) *)
Definition extractTarget_boxes (target : tree) (sel : list sbox) (extracted : list nat) (tol : R) : list nat :=
  match sel with
  | [] => extracted
  | _ => extracted ++ collect (fold_left (fun c s => sweep_queue (length (nodes target)) tol s [target] c) sel [])
  end.

(** 1269-1276: the six numbers of every box sent to a process *)
Definition pack (l : list sbox) : list R :=
  flat_map (fun b => [vx (bmin b); vy (bmin b); vz (bmin b); vx (bmax b); vy (bmax b); vz (bmax b)]) l.
(** 1255-1264: displacements of the buffers received *)
Fixpoint displs (from : nat) (counts : list nat) : list nat :=
  match counts with [] => [] | n :: r => from :: displs (from + n * 6) r end.
(** MPI_Gatherv, 1279: the buffer of every process is written from its displacement *)
Fixpoint write_at {A : Type} (at_ : nat) (d : list A) (buf : list A) : list A :=
  match at_, buf with
  | 0, _ => d ++ skipn (length d) buf
  | S n, x :: r => x :: write_at n d r
  | S _, [] => []
  end.
Definition gatherv (sends : list (list R)) (dis : list nat) (buf : list R) : list R :=
  fold_left (fun b e => write_at (snd e) (fst e) b) (combine sends dis) buf.
(** 1284-1295: the boxes read back *)
Fixpoint unpack (n : nat) (l : list R) : list sbox :=
  match n with
  | 0 => []
  | S n => match l with
           | a :: b :: c :: d :: e :: f :: r => {| bmin := V3 a b c; bmax := V3 d e f |} :: unpack n r
           | _ => []
           end
  end.
(** selectByGlobalPatch on process [r]: the trees of all the processes, whose partition boxes are the
    boxes of the roots *)
Definition selectByGlobalPatch (big : R) (trees : list (tree * tree)) (target : tree) (tol : R) : list nat :=
  let sends := map (fun st => leaf_boxes (fst st) (tbox target) tol) trees in
  let counts := map (@length sbox) sends in
  let total := fold_right Nat.add 0 counts in
  let recv := gatherv (map pack sends) (displs 0 counts) (repeat big (6 * total)) in
  extractTarget_boxes target (unpack total recv) [] tol.
