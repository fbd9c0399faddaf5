(** Model of when planner_3d plans (planner_cspace/src/planner_3d.cpp): waitUntil (1501-1555), the timing of spin (1734-1768, without
    trigger_plan_by_costmap_update), the switch-back of planPath (1609, 1690-1696) and getSwitchIndex (2331-2362).
    Simplifications: exact reals; what the callbacks and tf bring between two looks is given by the look; the path is given by its poses and by the cells
    metric2Grid (GridMetric.v) gives for them. *)
From Coq Require Import Reals ZArith List.
From Verif Require Import Common.
Import ListNotations.
Local Open Scope R_scope.

Record pose2 := Pose2 { q_x : R; q_y : R; q_yaw : R }.

(** 2345-2349: does the segment to [p] count, and is it driven backwards. *)
Definition counts (p0 p : pose2) : bool :=
  let dx := q_x p - q_x p0 in let dy := q_y p - q_y p0 in
  if Rlt_dec (1 / 1000 * (1 / 1000)) (dy * dy + dx * dx) then true else false.
Definition backward (p0 p : pose2) : bool :=
  let dx := q_x p - q_x p0 in let dy := q_y p - q_y p0 in
  if Rlt_dec (cos (q_yaw p) * dx + sin (q_yaw p) * dy) 0 then true else false.
(** 2337-2361: from the [i]-th pose on; [dir] is the direction so far, if any. *)
Fixpoint switch_from (i : nat) (p0 : pose2) (dir : option bool) (l : list pose2) : option nat :=
  match l with
  | [] => None
  | p :: l' =>
    if counts p0 p then
      let d := backward p0 p in
      match dir with
      | Some d0 => if xorb d0 d then Some i else switch_from (S i) p (Some d) l'
      | None => switch_from (S i) p (Some d) l'
      end
    else switch_from (S i) p dir l'
  end.
(** 2331-2362; None is -1. *)
Definition getSwitchIndex (path : list pose2) : option nat :=
  match path with [] => None | p :: l => switch_from 1 p None l end.

(** atan2(sin a, cos a), up to the sign of a half turn. *)
Definition wrap (a : R) : R := a - 2 * PI * IZR (Int_part ((a + PI) / (2 * PI))).

(** What one round of waitUntil sees after spinOnce: whether a costmap update came, has_map_, detectJump, the cells of the poses of the last path and their
    costs (undefined outside of the map), the pose of the robot, the time of the check, and for the case that it returns: the time at which spin plans and
    what planPath comes to. *)
(** planPath does not come to 1609 (no goal, map, start or a costmap that is too old); it comes to 1609 but not to 1690 (finishing, given up, no distance
    map); it publishes a path with these poses. *)
Inductive planned := NotReady | NoPath | Published (path : list pose2).
Record look := Look { l_updated : bool; l_map : bool; l_jump : bool; l_cells : list (Z * Z * Z); l_cost : Z * Z * Z -> outcome Z; l_robot : pose2; l_now : R;
                      l_plan : R; l_path : planned }.
Record wconf := WConf { c_freq : R; c_sw_wait : R; c_keep : bool; c_tol_lin : R; c_tol_ang : R }.
(** next_replan_time, and sw_pos_ if is_path_switchback_. *)
Record wst := WSt { w_next : R; w_sw : option pose2 }.

Section Wait.
  Variable c : wconf.
  (** 1520-1530. *)
  Fixpoint blocked (cost : Z * Z * Z -> outcome Z) (cells : list (Z * Z * Z)) : outcome bool :=
    match cells with
    | [] => Ok false
    | p :: l => do v <- cost p; if (v =? 100)%Z then Ok true else blocked cost l
    end.
  (** 1534-1542. *)
  Definition arrived (robot sw : pose2) : bool :=
    let dx := q_x robot - q_x sw in let dy := q_y robot - q_y sw in
    if Rlt_dec (sqrt (dy * dy + dx * dx)) (c_tol_lin c) then if Rlt_dec (Rabs (wrap (q_yaw robot - q_yaw sw))) (c_tol_ang c) then true else false else false.
  (** One round of 1503-1554: does waitUntil return, and what is left of the switch-back. *)
  Definition returns (s : wst) (l : look) : outcome (bool * option pose2) :=
    let late := if Rlt_dec (w_next s) (l_now l) then true else false in
    if l_map l then
      if l_jump l then Ok (true, w_sw s)
      else
        do b <- (if l_updated l && (1 <? length (l_cells l))%nat then blocked (l_cost l) (l_cells l) else Ok false);
        if b then Ok (true, w_sw s)
        else match w_sw s with
             | Some p => if arrived (l_robot l) p then Ok (true, None) else Ok (late, w_sw s)
             | None => Ok (late, None)
             end
    else Ok (late, w_sw s).
  (** 1609, 1690-1696: the switch-back after planPath. *)
  Definition new_switch (old : option pose2) (path : planned) : option pose2 :=
    match path with
    | NotReady => old
    | NoPath => None
    | Published l => if (if Rlt_dec 0 (c_sw_wait c) then negb (c_keep c) else false)
                     then match getSwitchIndex l with Some i => nth_error l i | None => None end
                     else None
    end.
  (** One round, with the planning and 1754-1765 if it returns.  Gives the time of the planning. *)
  Definition wstep (s : wst) (l : look) : outcome (wst * option R) :=
    do r <- returns s l;
    if fst r then
      let sw := new_switch (snd r) (l_path l) in
      Ok (WSt (l_plan l + match sw with Some _ => c_sw_wait c | None => 1 / c_freq c end) sw, Some (l_plan l))
    else Ok (WSt (w_next s) (snd r), None).
  (** 1738-1767: the looks one after the other, with the times at which it planned. *)
  Fixpoint wrun (s : wst) (ls : list look) : outcome (wst * list R) :=
    match ls with
    | [] => Ok (s, [])
    | l :: ls' => do r <- wstep s l; do q <- wrun (fst r) ls'; Ok (fst q, match snd r with Some t => t :: snd q | None => snd q end)
    end.
End Wait.
