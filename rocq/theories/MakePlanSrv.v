(** Model of the make_plan service: planner_cspace/src/planner_3d.cpp cbMakePlan (336-428) with the search model
    GridAstarModel2D, grid_astar_model_3dof.cpp:346-385, and the constructor's lists, 78-118.

    Lengths and costs are exact reals (the code uses float); [metric2Grid] (GridMetric.v) has been applied to the request, the
    search is AStar.v's, the relocation SearchAvail.v's. *)
From Coq Require Import Reals QArith.
From Verif Require Import Common CyclicVec CostAlg CostZ MotionCache DistMap Overlay SearchAvail AStar.
Local Open Scope Z_scope.

Section MakePlan.
  Variables W H A : Z.                 (* map_info_.width, height, angle *)
  Variable range : Z.                  (* range_ *)
  Variable rough : cell -> Z.          (* cm_rough_ *)
  Variables coef res weight : R.       (* euclid_cost_coef_[0], linear_resolution, weight_costmap_ *)
  Variable steps : Z -> Z -> Z.        (* total_step of a displacement, motion_cache.cpp:88 *)
  Variable istep : Z.                  (* interpolation_step, motion_cache.cpp:89-90 *)

  (** CyclicVecBase::len of a displacement in the plane. *)
  Definition len2 (dx dy : Z) : R := sqrt (IZR (dx * dx + dy * dy)).

  (** grid_astar_model_3dof.cpp:157-169 euclidCostRough (the table holds the same values). *)
  Definition euclid_rough (dx dy : Z) : R := (len2 dx dy * coef)%R.

  (** grid_astar_model_3dof.cpp:82-88 motion_cache_linear_ and motion_cache.cpp:53-117: the pages of orientation 0 for displacements that
      keep it, straight motions.  (The single orientation of map_info_linear is not used by reset, which takes the angle from the angular resolution.) *)
  Definition linear_page (dx dy : Z) : option (list vec) :=
    if (dx =? 0) && (dy =? 0) then None
    else if range * range <? dx * dx + dy * dy then None
    else if (range <? Z.abs dx) || (range <? Z.abs dy) then None
    else Some (pg_motion (build_page A istep [dx; dy; 0] (straight_samples 0 [dx; dy; 0] (steps dx dy)))).

  (** grid_astar_model_3dof.cpp:358-366; reading cm_rough_ outside the map is undefined. *)
  Fixpoint rough_loop (cx cy : Z) (m : list vec) (sum : Z) : outcome (option Z) :=
    match m with
    | [] => Ok (Some sum)
    | d :: m' =>
        let x := cx + vx d in let y := cy + vy d in
        if (0 <=? x) && (x <? W) && (0 <=? y) && (y <? H) then
          if 99 <? rough (x, y) then Ok None else rough_loop cx cy m' (sum + rough (x, y))
        else UB
    end.

  (** grid_astar_model_3dof.cpp:346-370 cost.  A motion without cells divides 0 by 0: treated as undefined. *)
  Definition cost2d (cur next : vec) : outcome (option R) :=
    let dx := vx next - vx cur in let dy := vy next - vy cur in
    match linear_page dx dy with
    | None => Ok (Some (-1)%R)
    | Some m =>
        do s <- rough_loop (vx cur) (vy cur) m 0;
        match s with
        | None => Ok (Some (-1)%R)
        | Some sum =>
            if (length m =? 0)%nat then UB
            else Ok (Some (euclid_rough dx dy + IZR sum * res * len2 dx dy * weight / (100 * INR (length m)))%R)
        end
    end.

  (** grid_astar_model_3dof.cpp:371-378 costEstim. *)
  Definition estim2d (cur goal : vec) : option R := Some (euclid_rough (vx goal - vx cur) (vy goal - vy cur)).

  (** grid_astar_model_3dof.cpp:107-118 search_list_rough_ and 379-384 searchGrids. *)
  Definition rough_list : list vec :=
    map (fun '(x, y) => [x; y; 0])
      (filter (fun '(x, y) => negb (range * range <? x * x + y * y)) (list_prod (range_incl (- range) range) (range_incl (- range) range))).

  (** GridAstarModel2D; an undefined evaluation would count as cost 0. *)
  Definition model2d : @smodel (option R) :=
    mkModel (fun cur next _ _ => match cost2d cur next with Ok c => c | UB => Some 0%R end) estim2d (fun _ _ _ => rough_list).

  Variable euclid : cell3 -> option R.   (* euclidCost, used by searchAvailablePos *)
  Variable racc : Z.                     (* relocation_acceptable_cost_ *)
  Variable cm : cell3 -> Z.              (* cm_ *)
  Variable tol_angle : Z.                (* tolerance_angle_ *)
  Variable find_best : bool.             (* find_best_ *)
  Variables (fuel : nat) (O : @oracle (option R)) (ntask limit : nat).

  (** What the service does: the reasons to return false, or the grid path of the answer. *)
  Inductive mp_answer :=
  | MNoMap | MWrongFrame | MStartOff | MStartRock | MGoalOff | MGoalRock | MUnreachable
  | MPlan (path : list vec).

  Definition to_vec (c : cell3) : vec := [fst (fst c); snd (fst c); snd c].

  (** planner_3d.cpp:336-428.  [frames] tells that both frames are the map's; the poses are cells already.  [None]: out of fuel. *)
  Definition make_plan (has_map frames : bool) (s0 e0 : cell3) (tol : Z) : outcome (option mp_answer) :=
    if negb has_map then Ok (Some MNoMap)
    else if negb frames then Ok (Some MWrongFrame)
    else
      do rs <- relocate KR euclid W H A range racc cm rough true s0 tol tol_angle;
      do re <- relocate KR euclid W H A range racc cm rough true e0 tol tol_angle;
      match fst rs with
      | POutOfMap => Ok (Some MStartOff)
      | PInRock => Ok (Some MStartRock)
      | _ =>
          match fst re with
          | POutOfMap => Ok (Some MGoalOff)
          | PInRock => Ok (Some MGoalRock)
          | _ =>
              match search KR 2 [W; H; A] model2d fuel O ntask limit (fzero KR) [(to_vec (snd rs), fzero KR)] (to_vec (snd re)) find_best with
              | SUB => UB
              | SFuel => Ok None
              | SDone false _ _ => Ok (Some MUnreachable)
              | SDone true _ path => Ok (Some (MPlan path))
              end
          end
      end.
End MakePlan.
