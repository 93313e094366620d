(** Model of the averages of MimmoPiercedVector (src/core/MimmoPiercedVector.tpp 645-827), for
    fields of doubles (fields of arrays are averaged component by component).  Coordinates of
    vertices and the centroids and volumes computed by bitpit are arbitrary functions. *)
From Coq Require Import Reals List Arith Bool.
From Verif Require Import SharedPtr Field Vec.
Import ListNotations.
Open Scope R_scope.

Record metric := { m_point : nat -> vec; m_center : nat -> vec; m_icenter : nat -> vec; m_volume : nat -> R }.

(** Throw: at() on an id without value; Undef: operator[] on an absent id; NotFinite: division by
    a zero power. *)
Inductive outcome (A : Type) := Val (a : A) | Throw | Undef | NotFinite.
Arguments Val {A}. Arguments Throw {A}. Arguments Undef {A}. Arguments NotFinite {A}.
Definition obind {A B} (o : outcome A) (k : A -> outcome B) : outcome B :=
  match o with Val a => k a | Throw => Throw | Undef => Undef | NotFinite => NotFinite end.
Definition at_ {A} (id : nat) (l : list (nat * A)) : outcome A := match find id l with Some v => Val v | None => Throw end.
Definition ref_ {A} (id : nat) (l : list (nat * A)) : outcome A := match find id l with Some v => Val v | None => Undef end.
Definition ins_ {A} (id : nat) (v : A) (l : list (nat * A)) : outcome (list (nat * A)) :=
  match insert id v l with Some l => Val l | None => Throw end.

(** 1. / std::pow(d, p) for d >= 0 *)
Definition inv_pow (d p : R) : outcome R :=
  if Req_EM_T d 0 then (if Req_EM_T p 0 then Val 1 else NotFinite) else Val (/ Rpower d p).
Definition weight (c x : vec) (p : R) : outcome R := inv_pow (norm (vsub c x)) p.

(** The loop on the vertices of a cell, 652-665: data and sumWeights[idcell], None before init. *)
Fixpoint gather (m : metric) (p : R) (c : vec) (vs : list nat) (d : list (nat * R)) (acc : option (R * R)) :
  outcome (option (R * R)) :=
  match vs with
  | [] => Val acc
  | v :: r =>
      obind (weight c (m_point m v) p) (fun w =>
      obind (at_ v d) (fun x =>
      gather m p c r d (Some (match acc with None => (x * w, w) | Some (s, sw) => (s + x * w, sw + w) end))))
  end.
(** pointDataToCellData, 645-671 *)
Fixpoint p2c_loop (m : metric) (p : R) (cells : list (nat * list nat)) (d out : list (nat * R)) : outcome (list (nat * R)) :=
  match cells with
  | [] => Val out
  | (c, vs) :: r =>
      obind (gather m p (m_center m c) vs d None) (fun acc =>
      match acc with
      | None => Undef
      | Some (s, sw) => obind (ins_ c (s / sw) out) (fun out => p2c_loop m p r d out)
      end)
  end.
Definition point_to_cell (m : metric) (p : R) (g : geom) (f : mpv R) : outcome (mpv R) :=
  obind (p2c_loop m p (g_cells g) (f_data f) []) (fun d =>
  Val {| f_geo := Some g; f_loc := LCell; f_name := data_name; f_data := d |}).

(** cellDataToPointData, 682-712: the loop on the vertices of a cell with datum x; pointData and
    sumWeights. *)
Fixpoint scatter (m : metric) (p : R) (c : vec) (x : R) (vs : list nat) (pd sw : list (nat * R)) :
  outcome (list (nat * R) * list (nat * R)) :=
  match vs with
  | [] => Val (pd, sw)
  | v :: r =>
      obind (weight c (m_point m v) p) (fun w =>
      match find v pd with
      | None => obind (ins_ v (x * w) pd) (fun pd => obind (ins_ v w sw) (fun sw => scatter m p c x r pd sw))
      | Some y => obind (ref_ v sw) (fun s => scatter m p c x r (set v (y + x * w) pd) (set v (s + w) sw))
      end)
  end.
Fixpoint c2p_loop (m : metric) (p : R) (cells : list (nat * list nat)) (d pd sw : list (nat * R)) :
  outcome (list (nat * R) * list (nat * R)) :=
  match cells with
  | [] => Val (pd, sw)
  | (c, vs) :: r =>
      match find c d with
      | None => c2p_loop m p r d pd sw
      | Some x => obind (scatter m p (m_center m c) x vs pd sw) (fun '(pd, sw) => c2p_loop m p r d pd sw)
      end
  end.
(** The divisions, 704-710. *)
Fixpoint divide (verts : list nat) (pd sw : list (nat * R)) : outcome (list (nat * R)) :=
  match verts with
  | [] => Val pd
  | v :: r => match find v pd with
              | None => divide r pd sw
              | Some y => obind (ref_ v sw) (fun s => divide r (set v (y / s) pd) sw)
              end
  end.
Definition cell_to_point (m : metric) (p : R) (g : geom) (f : mpv R) : outcome (mpv R) :=
  obind (c2p_loop m p (g_cells g) (f_data f) [] []) (fun '(pd, sw) =>
  obind (divide (g_verts g) pd sw) (fun d =>
  Val {| f_geo := Some g; f_loc := LPoint; f_name := data_name; f_data := d |})).

(** cellDataToPointData with gradients, 728-776: the reconstructed value times the weight. *)
Definition extrapolate (v : R) (grad dx : vec) : R :=
  v + v * (vx grad * vx dx) + v * (vy grad * vy dx) + v * (vz grad * vz dx).
Fixpoint gscatter (m : metric) (maximum : bool) (c : vec) (w x : R) (grad : vec) (vs : list nat) (pd sw : list (nat * R)) :
  outcome (list (nat * R) * list (nat * R)) :=
  match vs with
  | [] => Val (pd, sw)
  | v :: r =>
      let y := extrapolate x grad (vsub (m_point m v) c) * w in
      match find v pd with
      | None => obind (ins_ v y pd) (fun pd => obind (ins_ v w sw) (fun sw => gscatter m maximum c w x grad r pd sw))
      | Some z =>
          if maximum
          then gscatter m maximum c w x grad r (if Rlt_dec (Rabs z) (Rabs y) then set v y pd else pd) sw
          else obind (ref_ v sw) (fun s => gscatter m maximum c w x grad r (set v (z + y) pd) (set v (s + w) sw))
      end
  end.
Fixpoint g2p_loop (m : metric) (maximum : bool) (cells : list (nat * list nat)) (d gx gy gz pd sw : list (nat * R)) :
  outcome (list (nat * R) * list (nat * R)) :=
  match cells with
  | [] => Val (pd, sw)
  | (c, vs) :: r =>
      match find c d with
      | None => g2p_loop m maximum r d gx gy gz pd sw
      | Some x =>
          obind (inv_pow (m_volume m c) (if maximum then 0 else 3)) (fun w =>
          match vs with
          | [] => g2p_loop m maximum r d gx gy gz pd sw
          | _ =>
              obind (at_ c gx) (fun x1 => obind (at_ c gy) (fun x2 => obind (at_ c gz) (fun x3 =>
              obind (gscatter m maximum (m_center m c) w x (V3 x1 x2 x3) vs pd sw) (fun '(pd, sw) =>
              g2p_loop m maximum r d gx gy gz pd sw))))
          end)
      end
  end.
Definition cell_to_point_grad (m : metric) (maximum : bool) (g : geom) (f fx fy fz : mpv R) : outcome (mpv R) :=
  obind (g2p_loop m maximum (g_cells g) (f_data f) (f_data fx) (f_data fy) (f_data fz) [] []) (fun '(pd, sw) =>
  obind (if maximum then Val pd else divide (g_verts g) pd sw) (fun d =>
  Val {| f_geo := Some g; f_loc := LPoint; f_name := data_name; f_data := d |})).

(** pointDataToBoundaryInterfaceData, 785-827; the tests exists(idvertex) of 806 and 813 succeed
    since all vertices were found. *)
Fixpoint p2i_loop (m : metric) (p : R) (ifaces : list (nat * (bool * list nat))) (d out : list (nat * R)) : outcome (list (nat * R)) :=
  match ifaces with
  | [] => Val out
  | (i, (border, vs)) :: r =>
      if border && Nat.eqb (length (filter (fun v => exists_id v d) vs)) (length vs)
      then obind (gather m p (m_icenter m i) vs d None) (fun acc =>
           match acc with
           | None => Undef
           | Some (s, sw) => obind (ins_ i (s / sw) out) (fun out => p2i_loop m p r d out)
           end)
      else p2i_loop m p r d out
  end.
Definition point_to_boundary (m : metric) (p : R) (g : geom) (f : mpv R) : outcome (mpv R) :=
  obind (p2i_loop m p (g_ifaces g) (f_data f) []) (fun d =>
  Val {| f_geo := Some g; f_loc := LIface; f_name := data_name; f_data := d |}).
