(** Model of one planning cycle of the 3D planner: planner_cspace/src/planner_3d.cpp makePlan (1900-2031), with the costs, the estimate
    and the offered moves of GridAstarModel3D, grid_astar_model_3dof.cpp:98-131, 145-344.

    Costs, lengths and angles are exact reals, [None] is FLT_MAX and everything above it (the code uses float).  The markers, the
    poses published for display, the metrics and the hysteresis map (2036-2090, Hysteresis.v) are left out. *)
From Coq Require Import QArith Qreals Reals.
From Verif Require Import Common CyclicVec CostAlg CostZ DistMap Overlay SearchAvail GridMetric Path2D PathGeom StartPredict StartPoses
  Hysteresis Primitives AStar MotionCache Cost3D Cost3DProps MotionReset.
Local Open Scope R_scope.

Definition cell_vec (c : cell3) : vec := [fst (fst c); snd (fst c); snd c].
Definition vec_cell (v : vec) : cell3 := ((vx v, vy v), vt v).

(** cc_ and ec_ without the coefficients that buildStartPoses uses (in [scfg]). *)
Record ccfg := CCfg {
  ec2 : R;                       (* euclid_cost_coef_[2] *)
  in_place_turn : R;             (* in_place_turn_ *)
  w_turn : R; w_turn_h : R;      (* weight_costmap_turn_, weight_costmap_turn_heuristics_ *)
  w_back : R; w_decel : R;       (* weight_backward_, weight_decel_ *)
  w_hyst : R;                    (* weight_hysteresis_ *)
  max_vel : R; max_ang : R;      (* max_vel_, max_ang_vel_ *)
  turn_threshold : Z             (* turn_penalty_cost_threshold_ *)
}.

Section Plan.
  Variables (S : scfg) (G : ccfg) (P : prim_cfg) (M : pmap).
  Variable computed : Z -> vec -> list posef.    (* samples of the curves, MotionReset.v *)
  Variables gres ires : R.                       (* grid_enumeration_resolution, path_interpolation_resolution *)
  Variable page_dist : Z -> vec -> R.            (* Page::getDistance of a start heading and displacement *)
  Variables cm cm_hyst : cell3 -> Z.             (* cm_, cm_hyst_ *)
  Variable hyst : bool.                          (* hyst && has_hysteresis_map_, 1992 *)
  Variable est : Z -> Z -> option R.             (* cost_estim_cache_ *)
  Variable local_range : Z.                      (* local_range_ *)

  Definition map3 (f : cell3 -> Z) : costmap := mkCostmap (pm_w M) (pm_h M) (pm_a M) (fun v => f (vec_cell v)).
  Definition plan_cache : cache := reset_cache P gres ires computed.
  (** grid_astar_model_3dof.cpp:98-103 min_boundary_, max_boundary_. *)
  Definition lo_bound : vec := max_range P gres ires computed.
  Definition hi_bound : vec := [pm_w M - vx lo_bound; pm_h M - vy lo_bound; pm_a M - vt lo_bound]%Z.

  (** 145-169 euclidCost; the heading difference has been normalised before, so the loops at 150-153 (which keep the absolute value of
      differences up to half a turn) do nothing more. *)
  Definition euclid3 (d : vec) : R := sqrt (IZR (vx d * vx d + vy d * vy d)) * ec0 S + Rabs (ec2 G * IZR (vt d)).
  (** 180, 213-220 with rot_cache_.getMotion: the part of the cost of a motion that is common to straight motions and curves. *)
  Definition drive_base (cur d : vec) (end_yaw : Z) : R :=
    let '(mx, _, _) := motion_of P (vt cur) [vx d; vy d; end_yaw] in
    if Rlt_dec mx 0 then euclid3 d * (1 + w_back G) else euclid3 d.
  (** 203-209. *)
  Definition turn_cost (d : vec) (sum : Z) : option R :=
    Some (euclid3 d + in_place_turn G + IZR sum * (pr_ang P * (w_turn G / 100 + ec2 G / ec0 S * w_turn_h G / 100))).
  (** 224-225, 248-250; a motion exactly sideways has an infinite cost. *)
  Definition straight_cost (cur d : vec) (sum sum_hyst num : Z) : option R :=
    let '(mx, my, _) := motion_of P (vt cur) [vx d; vy d; vt cur] in
    if Req_EM_T mx 0 then None
    else if (num =? 0)%Z then None
    else
      let di := [vx d; vy d; vt cur] in
      Some (drive_base cur d (vt cur) + ec2 G * Rabs (my / mx) * pr_ang P / (PI * 2)
            + IZR sum * pr_lin P * page_dist (vt cur) di * weight S / (100 * IZR num)
            + IZR sum_hyst * pr_lin P * page_dist (vt cur) di * w_hyst G / (100 * IZR num)).
  (** 254-257, 264-269, 296-299. *)
  Definition curve_cost (cur d : vec) (sum sum_turn sum_hyst num : Z) : option R :=
    let end_yaw := ((vt cur + vt d) mod pr_angle P)%Z in
    let di := [vx d; vy d; end_yaw] in
    let '(mx, my, mt) := motion_of P (vt cur) di in
    let '(r1, r2) := radiuses (mx, my, mt) in
    if (num =? 0)%Z then None
    else
      let decel := if Rlt_dec (max_ang G * Rabs r1) (max_vel G)
                   then sqrt (mx * mx + my * my) * Rabs (Rabs ((r1 + r2) / 2) * max_ang G / max_vel G) * w_decel G else 0 in
      Some (drive_base cur d end_yaw + decel
            + IZR sum * pr_lin P * page_dist (vt cur) di * weight S / (100 * IZR num)
            + IZR sum_turn * pr_ang P * IZR (Z.abs (vt d)) * w_turn G / (100 * IZR num)
            + IZR sum_hyst * pr_lin P * page_dist (vt cur) di * w_hyst G / (100 * IZR num)).
  Definition plan_costs : @numeric (option R) := mkNumeric turn_cost straight_cost curve_cost.

  (** 305-322 costEstim; for headings in the map each loop at 314-317 runs at most once. *)
  Definition yaw_diff (a b : Z) : Z :=
    (let d := a - b in if pr_angle P / 2 <? d then d - pr_angle P else if d <? - (pr_angle P / 2) then d + pr_angle P else d)%Z.
  Definition estim3 (cur goal : vec) : option R :=
    match est (vx cur) (vy cur) with
    | None => None
    | Some c => Some (c + ec2 G * IZR (Z.abs (yaw_diff (vt cur) (vt goal))))
    end.
  (** 106-118 search_list_rough_. *)
  Definition rough_moves : list vec :=
    flat_map (fun x => flat_map (fun y => if (pr_range P * pr_range P <? x * x + y * y)%Z then [] else [[x; y; 0%Z]])
      (range_incl (- pr_range P) (pr_range P))) (range_incl (- pr_range P) (pr_range P)).
  (** motion_primitives_[i], MotionPrimitiveBuilder::build (130). *)
  Definition primitives (i : Z) : list vec :=
    match build P with
    | Ok ls => map (fun p => [fst (fst p); snd (fst p); snd p]) (nth (Z.to_nat i) ls [])
    | UB => []
    end.
  (** 323-339 searchGrids; headings outside of the map are never asked for. *)
  Definition near_start (ss : list (vec * option R)) (p : vec) : bool :=
    existsb (fun s => let dx := vx (fst s) - vx p in let dy := vy (fst s) - vy p in dx * dx + dy * dy <? local_range * local_range)%Z ss.
  Definition grids3 (p : vec) (ss : list (vec * option R)) (e : vec) : list vec :=
    if near_start ss p then (if ((0 <=? vt p) && (vt p <? pr_angle P))%Z then primitives (vt p) else []) else rough_moves.

  Definition model3 : @smodel (option R) :=
    planner_model KR (map3 cm) (map3 cm_hyst) hyst (turn_threshold G) plan_cache (pr_angle P) (pr_range P) lo_bound hi_bound plan_costs estim3 grids3.

  Variable C : pcfg.                                       (* start_pose_predictor_ *)
  Variables (racc tol_range tol_angle : Z).                (* relocation_acceptable_cost_, tolerance_range_, tolerance_angle_ *)
  (** 1880: searchAvailablePos (SearchAvail.v) with its default limits. *)
  Definition search_pos (s : cell3) : outcome (option cell3) :=
    do r <- searchAvailablePos KR (fun d => Some (euclid3 (cell_vec d))) (pm_w M) (pm_h M) (pm_a M) (margin S) racc cm s tol_range tol_angle (-1) 0;
    Ok (if fst r then Some (snd r) else None).
  Variables (escaping continuous find_best : bool).
  Variables (fuel : nat) (O : @oracle (option R)) (ntask limit : nat).

  (** grid_metric_converter.h:83-102 appendGridPath2MetricPath. *)
  Definition metric_pose (p : posef) : pose2 :=
    let '(x, y, yaw) := grid2MetricF exact exact (pm_info M) (Q2R (px p)) (Q2R (py p)) (Q2R (pt p)) in mkP2 x y yaw None.

  (** The reasons to end a cycle: in rock, escaped, close to the goal, no estimate from here or goal occupied, search failed; or the
      planned cells, whether the search succeeded, and the path. *)
  Inductive plan_result :=
  | InRock | Escaped | Finishing | Unreachable | NotFound (aborted : bool)
  | Planned (found : bool) (cells : list vec) (path : list pose2).

  (** 2019-2031: the path from the cells. *)
  Definition publish (found : bool) (kept : list pose2) (cells : list vec) : outcome (option plan_result) :=
    do r <- interpolatePath plan_cache (pr_angle P) cells;
    Ok (Some (Planned found cells (kept ++ map metric_pose r))).
  (** getPreservedPath after buildStartPoses (cleared at 1814). *)
  Definition preserved (robot : pose2) (previous : list pose2) : outcome (list pose2) :=
    if StartPoses.keep S && negb (match previous with [] => true | _ => false end) then
      do r <- process C M cm robot previous; Ok (match r with Some r => st_preserved r | None => [] end)
    else Ok [].
  (** makePlan, 1900-2031. *)
  Definition makePlan (robot goal : pose2) (previous : list pose2) : outcome (option plan_result) :=
    do s <- pose_cell M robot;
    do e <- pose_cell M goal;
    do b <- buildStartPoses S C M cm search_pos robot goal previous;
    let '(status, starts) := b in
    match status with
    | START_OCCUPIED => Ok (Some InRock)
    | _ =>
        if (match status with FINISHING => true | _ => false end) && escaping then Ok (Some Escaped)
        else if (match status with FINISHING => true | _ => false end) && negb continuous then Ok (Some Finishing)
        else
          match est (fst (fst s)) (snd (fst s)) with
          | None => Ok (Some Unreachable)
          | Some est0 =>
              do ce <- read_cm M cm e;
              if (100 <=? ce)%Z then Ok (Some Unreachable)
              else
                do kept <- preserved robot previous;
                let range_limit := Some (est0 - IZR (local_range + margin S) * ec0 S) in
                if existsb (fun c => if vec_dec (cell_vec (fst c)) (cell_vec e) then true else false) starts
                then publish true kept [cell_vec e]
                else
                  match search KR 2 [pm_w M; pm_h M; pm_a M] model3 fuel O ntask limit range_limit
                          (map (fun c => (cell_vec (fst c), Some (snd c))) starts) (cell_vec e) find_best with
                  | SUB => UB
                  | SFuel => Ok None
                  | SDone ok ab cells =>
                      if ok || find_best then publish ok kept cells else Ok (Some (NotFound ab))
                  end
          end
    end.
End Plan.
