(** Model of the distances and of the location of points on a surface spread over several processes
    (src/core/SkdTreeUtils.cpp: signedGlobalDistance 712-895, locatePointOnGlobalPatch 1021-1178,
    projectPointGlobal 930-1009, findSharedPointClosestGlobalCell 1434-1516).

    The two functions have the same exchange for points that are not shared (810-890 and 1098-1175): a
    gather of the numbers of points, the cells and the points, the answers.  They differ in the
    answers, given here by [answers]: the tags and what the owner computes.  A gather is, as the
    standard has it, a send from every process to the root and the receives of the root; what the root
    has for itself is nothing (no point is asked to it, 749).  A point is one word of a message. *)
From Coq Require Import List Arith Bool Reals.
From Verif Require Import Vec Mpi.
Import ListNotations.
Open Scope nat_scope.

Section Exchange.
  Variables (P A : Type).
  (** what a search of the closest cell gives for a point: cell (NULL_ID), its process (-1), distance *)
  Record query := Query { q_point : P; q_id : option nat; q_rank : option nat }.
  Inductive word := WCount (n : nat) | WId (id : option nat) | WPoint (p : P) | WAnswer (a : A).

  (** the words of the buffers *)
  Definition count_of (w : list word) : nat := match w with WCount n :: _ => n | _ => 0 end.
  Definition id_of (w : word) : option nat := match w with WId id => id | _ => None end.
  (** the first message of a source with a tag: the tags are used once for every source *)
  Fixpoint lookup (log : list (rcv word)) (src tag : nat) : list word :=
    match log with
    | [] => []
    | (s, t, m) :: r => if Nat.eqb s src && Nat.eqb t tag then m else lookup r src tag
    end.

  Variable nprocs : nat.
  Variable queries : nat -> list query.
  Variable origin : P.
  Variable answers : list (nat * (nat -> P -> option nat -> A)).

  Definition blank : query := Query origin None None.
  Definition asks (me k : nat) (q : query) : bool :=
    match q_rank q with Some r => negb (Nat.eqb r me) && Nat.eqb r k | None => false end.
  (** point_index_received_from_rank[k], 775 *)
  Definition index_to (me k : nat) : list nat := filter (fun ip => asks me k (nth ip (queries me) blank)) (seq 0 (length (queries me))).
  (** ask_to_rank[k] and point_to_rank[k], 769-772 *)
  Definition asked (me k : nat) : list query := map (fun ip => nth ip (queries me) blank) (index_to me k).

  Definition gather_tag : nat := 0.
  Definition ids_tag : nat := 100.
  Definition points_tag : nat := 101.
  Definition others (k : nat) : list nat := filter (fun j => negb (Nat.eqb j k)) (seq 0 nprocs).

  (** n_send_to_rank[j] *)
  Definition n_send (log : list (rcv word)) (j : nat) : nat := count_of (lookup log j gather_tag).
  Definition point_of_word (w : word) : P := match w with WPoint p => p | _ => origin end.
  (** 843-860 and 1131-1144: the answers for the points of a process *)
  Definition computed (me k : nat) (f : nat -> P -> option nat -> A) (log : list (rcv word)) : list word :=
    map (fun ip => WAnswer (f me (point_of_word (nth ip (lookup log k points_tag) (WPoint origin))) (id_of (nth ip (lookup log k ids_tag) (WId None))))) (seq 0 (n_send log k)).

  (** 811-816 *)
  Definition gathers (me : nat) : list (op word) :=
    flat_map (fun irank =>
      if Nat.eqb me irank then map (fun j => Recv j gather_tag (fun _ => 1)) (others irank)
      else [Send irank gather_tag (fun _ => [WCount (length (asked me irank))])]) (seq 0 nprocs).
  (** 827-841 *)
  Definition requests (me : nat) : list (op word) :=
    flat_map (fun irank =>
      if Nat.eqb me irank then flat_map (fun j => [Recv j ids_tag (fun log => n_send log j); Recv j points_tag (fun log => n_send log j)]) (others irank)
      else [Send irank ids_tag (fun _ => map (fun q => WId (q_id q)) (asked me irank)); Send irank points_tag (fun _ => map (fun q => WPoint (q_point q)) (asked me irank))]) (seq 0 nprocs).
  (** 862-890 *)
  Definition replies (me : nat) : list (op word) :=
    flat_map (fun irank =>
      if Nat.eqb me irank then flat_map (fun j => map (fun a => Recv j (fst a) (fun _ => length (asked me j))) answers) (others irank)
      else map (fun a => Send irank (fst a) (computed me irank (snd a))) answers) (seq 0 nprocs).
  Definition program (me : nat) : list (op word) := if Nat.ltb me nprocs then gathers me ++ requests me ++ replies me else [].

  (** the answers for the points asked to a process, by tag *)
  Definition answered (log : list (rcv word)) (j tag ip : nat) : option A :=
    match nth_error (lookup log j tag) ip with Some (WAnswer a) => Some a | _ => None end.
  (** 878-882 and 1158-1166: the results of the points asked to the others, point by point *)
  Definition fill {X : Type} (me : nat) (g : nat -> nat -> X -> X) (st : nat -> X) : nat -> X :=
    fold_left (fun st j => fold_left (fun st ip => upd st (nth ip (index_to me j) 0) (g j ip (st (nth ip (index_to me j) 0)))) (seq 0 (length (asked me j))) st) (others me) st.
End Exchange.
Arguments WCount {P A}. Arguments WId {P A}. Arguments WPoint {P A}. Arguments WAnswer {P A}.
Arguments Query {P}. Arguments q_point {P}. Arguments q_id {P}. Arguments q_rank {P}.

(** ** The distance with sign *)
Inductive reply := RNormal (v : vec) | RSign (s : R).
Section Signed.
  Variable big : R.
  (** computePseudoNormal on the part of the surface of a process *)
  Variable pseudo : nat -> vec -> option nat -> R * vec.
  Variable nprocs : nat.
  Variable partitioned : bool.
  Variable queries : nat -> list (query vec).
  (** the distances of the searches *)
  Variable dist : nat -> nat -> R.
  Definition signed_answers : list (nat * (nat -> vec -> option nat -> reply)) :=
    [(102, fun r p id => RNormal (snd (pseudo r p id))); (103, fun r p id => RSign (fst (pseudo r p id)))].
  Definition the_query (me ip : nat) : query vec := nth ip (queries me) (blank vec vzero).
  Definition owned (me ip : nat) : bool := match q_rank (the_query me ip) with Some r => Nat.eqb r me | None => false end.
  Definition bigvec : vec := V3 big big big.
  (** 742-778: normal and distance of the points on the cells of the process *)
  Definition signed_local (me ip : nat) : vec * R :=
    let q := the_query me ip in
    if owned me ip then
      let (s, n) := pseudo me (q_point q) (q_id q) in
      (n, match q_id q with Some _ => (dist me ip * s)%R | None => dist me ip end)
    else (bigvec, dist me ip).
  (** 880-881 *)
  Definition signed_put (log : list (rcv (word vec reply))) (j ip : nat) (x : vec * R) : vec * R :=
    (match answered vec reply log j 102 ip with Some (RNormal v) => v | _ => fst x end,
     match answered vec reply log j 103 ip with Some (RSign s) => (snd x * s)%R | _ => snd x end).
  (** points of every process; [log] is what it has received *)
  Definition signedGlobalDistance (me : nat) (log : list (rcv (word vec reply))) : nat -> vec * R :=
    if Nat.ltb 1 nprocs && partitioned then fill vec nprocs queries vzero me (signed_put log) (signed_local me) else signed_local me.

  (** points shared: every process has the same list; MPI_Allreduce with MPI_MIN *)
  Definition least_of (f : nat -> R) : R := fold_right (fun r m => Rmin (f r) m) (f 0) (seq 0 nprocs).
  Definition sign_local (me ip : nat) : R :=
    let q := the_query me ip in
    if owned me ip then match q_id q with Some _ => fst (pseudo me (q_point q) (q_id q)) | None => big end else big.
  Definition normal_local (me ip : nat) : vec := let q := the_query me ip in if owned me ip then snd (pseudo me (q_point q) (q_id q)) else bigvec.
  Definition signedGlobalDistance_shared (me ip : nat) : vec * R :=
    let times s := match q_id (the_query me ip) with Some _ => (dist me ip * s)%R | None => dist me ip end in
    if Nat.ltb 1 nprocs && partitioned then
      (V3 (least_of (fun r => vx (normal_local r ip))) (least_of (fun r => vy (normal_local r ip))) (least_of (fun r => vz (normal_local r ip))),
       times (least_of (fun r => sign_local r ip)))
    else (normal_local me ip, if Nat.eqb nprocs 1 then times (sign_local me ip) else dist me ip).
End Signed.

(** ** The cells of the points *)
Section Locate.
  (** checkPointBelongsToCell on the part of the surface of a process *)
  Variable belongs : nat -> vec -> option nat -> bool.
  Variable nprocs : nat.
  Variable partitioned : bool.
  Variable queries : nat -> list (query vec).
  Definition locate_answers : list (nat * (nat -> vec -> option nat -> bool)) := [(102, belongs)].
  (** 1053-1084 *)
  Definition locate_local (me ip : nat) : option nat :=
    let q := the_query queries me ip in
    if owned queries me ip then (if belongs me (q_point q) (q_id q) then q_id q else None) else None.
  (** 1160-1164 *)
  Definition locate_put (me : nat) (log : list (rcv (word vec bool))) (j ip : nat) (x : option nat) : option nat :=
    match answered vec bool log j 102 ip with Some true => q_id (nth ip (asked vec queries vzero me j) (blank vec vzero)) | _ => x end.
  Definition locatePointOnGlobalPatch (me : nat) (log : list (rcv (word vec bool))) : nat -> option nat :=
    if Nat.ltb 1 nprocs && partitioned then fill vec nprocs queries vzero me (locate_put me log) (locate_local me) else locate_local me.
  (** points shared: MPI_MAX, NULL_ID is the least long *)
  Definition larger_id (a b : option nat) : option nat := match a, b with Some x, Some y => Some (Nat.max x y) | Some x, None => Some x | None, y => y end.
  Definition locatePointOnGlobalPatch_shared (me ip : nat) : option nat :=
    if Nat.ltb 1 nprocs && partitioned then fold_right (fun r m => larger_id (locate_local r ip) m) None (seq 0 nprocs) else locate_local me ip.
End Locate.

(** ** The closest cell of a shared point *)
Section Shared.
  (** SkdGlobalCellDistance: process, cell, distance; nothing found is [None] *)
  Definition candidate : Type := option (nat * nat * R).
  (** findPointClosestCell among the interior cells of a process *)
  Variable nearest_in : nat -> vec -> R -> option (nat * R).
  Variable nprocs : nat.
  (** the least over the boxes of the processes of the largest distance, 1482-1485 *)
  Variable bound : vec -> R.
  (** getMPIMinOperation *)
  Variable pick : candidate -> candidate -> candidate.
  Definition own_candidate (p : vec) (me : nat) : candidate := match nearest_in me p (bound p) with Some (id, h) => Some (me, id, h) | None => None end.
  Definition allreduce (v : nat -> candidate) : nat -> candidate := fun _ => fold_right (fun r m => pick (v r) m) (v 0) (seq 0 nprocs).
  (** 1505-1507: the reduction is made nprocs times *)
  Fixpoint repeat_reduce (k : nat) (v : nat -> candidate) : nat -> candidate := match k with O => v | S k => repeat_reduce k (allreduce v) end.
  (** the radius given is not used, 1438 *)
  Definition findSharedPointClosestGlobalCell (p : vec) (r : R) (me : nat) : candidate := repeat_reduce nprocs (own_candidate p) me.
End Shared.

(** ** The projections *)
Section Project.
  Variable big : R.
  Variable tol : R.
  Variable nprocs kmax : nat.
  (** signedGlobalDistance: cell, process, distance and normal, or NULL_ID *)
  Definition hit : Type := nat * nat * R * vec.
  Variable sd : nat -> vec -> R -> option hit.
  Record work := Work { w_pos : nat; w_point : vec; w_radius : R }.
  (** 996-1002 *)
  Definition augment (kiter : nat) (w : work) : work := Work (w_pos w) (w_point w) (if Nat.leb (kmax - 2) kiter then big else (w_radius w * (3 / 2))%R).
  Definition missed (me : nat) (w : work) : bool := match sd me (w_point w) (w_radius w) with None => true | Some _ => false end.
  Definition store (me : nat) (out : nat -> option hit) (w : work) : nat -> option hit :=
    match sd me (w_point w) (w_radius w) with None => out | Some h => upd out (w_pos w) (Some h) end.
  (** 957-1005, all the processes: the loop goes on until no process has points left *)
  Fixpoint rounds (fuel kiter : nat) (ws : nat -> list work) (out : nat -> nat -> option hit) : nat -> nat -> option hit :=
    match fuel with
    | O => out
    | S fuel =>
        if forallb (fun r => match ws r with [] => true | _ => false end) (seq 0 nprocs) then out
        else rounds fuel (S kiter) (fun r => map (augment kiter) (filter (missed r) (ws r))) (fun r => fold_left (store r) (ws r) (out r))
    end.
  Variable points : nat -> list vec.
  Variable radii : nat -> nat -> R.
  Definition work_list (me : nat) : list work := map (fun i => Work i (nth i (points me) vzero) (Rmax (radii me i) tol)) (seq 0 (length (points me))).
  Definition projectPointGlobal_hits : nat -> nat -> option hit := rounds kmax 0 work_list (fun _ _ => None).
  (** 1007-1009: the distance starts from big, the normal from zero *)
  Definition projectPointGlobal (me i : nat) : vec :=
    match projectPointGlobal_hits me i with
    | Some (_, _, d, n) => vsub (nth i (points me) vzero) (vscale d n)
    | None => vsub (nth i (points me) vzero) (vscale big vzero)
    end.
End Project.
