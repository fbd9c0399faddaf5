(** The plan of planner_2dof_serial_joints end to end: makePlan (planner_cspace/src/planner_2dof_serial_joints.cpp:546-631) with the search it runs
    (AStar.v, 582-595) on the model of grid_astar_model_2dof_joints.cpp. *)
From Coq Require Import List ZArith QArith.
From Flocq Require Import Core.Core IEEE754.BinarySingleNaN.
From Verif Require Import Common CyclicVec CostAlg CostF32 BbfFloat Joint2D AStar.
Import ListNotations.
Local Open Scope Z_scope.

(** Cells as the vectors of the search ([Astar::Vec], dimension 2, both coordinates cyclic: planner_2dof_serial_joints.cpp:60). *)
Definition vj (c : jcell) : list Z := [fst c; snd c].
Definition jv (v : list Z) : jcell := (nth 0 v 0, nth 1 v 0).
(** grid_astar_model_2dof_joints.cpp:56-62 (search_list_) and 117-123 (searchGrids). *)
Definition neighbours (range : Z) : list (list Z) := map vj (square range).
(** grid_astar_model_2dof_joints.cpp:74-123.  An undefined cost is taken as -1 here; that it is never met is part of C80. *)
Definition joint_model (range res : Z) (c0 c1 w : f32) (cm : jcell -> Z) : @smodel f32 :=
  mkModel (fun p q _ _ => match move_cost res c0 c1 w cm (jv p) (jv q) with Ok c => c | UB => f32_of_Z (-1) end)
    (fun p e => estimate2 c0 c1 (jv p) (jv e)) (fun _ _ _ => neighbours range).
(** [JRunning]: more steps of the search are needed. *)
Inductive jplan := JDone (r : option (list jangle)) | JUndefined | JRunning.
(** planner_2dof_serial_joints.cpp:546-631; 409-410 is the size of the map of the search, 569-570 its start (of cost 0), 587-590 its call.
    [o_abort] of the oracle is the cancellation after replan_interval (584-586: cbProgress always asks to stop, 661-664), [limit] is queue_size_limit.
    What is done with the found path (600-630) is in [makePlan], which takes the same way up to there. *)
Definition joint_plan (fuel : nat) (O : @oracle f32) (ntask limit : nat) (range res : Z) (c0 c1 w : f32) (cm : jcell -> Z) (sg eg : jangle) : jplan :=
  let s := metric2Grid res sg in
  let e := metric2Grid res eg in
  match read_joint_map res cm s with
  | UB => JUndefined
  | Ok a => if a =? 100 then JDone None else
  match read_joint_map res cm e with
  | UB => JUndefined
  | Ok b => if b =? 100 then JDone None else
  match cycle2 res (fst e - fst s, snd e - snd s), move_cost res c0 c1 w cm s e with
  | Ok d, Ok c =>
      if Bleb (euclid2 c0 c1 d) c then JDone (Some [sg; eg])
      else match search KF32 0 [2 * res; 2 * res] (joint_model range res c0 c1 w cm) fuel O ntask limit (fzero KF32) [(vj s, fzero KF32)] (vj e) true with
      | SUB => JUndefined
      | SFuel => JRunning
      | SDone false _ _ => JDone None
      | SDone true _ path =>
          match makePlan res c0 c1 w cm sg eg (Some (map jv path)) with
          | Ok r => JDone r
          | UB => JUndefined
          end
      end
  | _, _ => JUndefined
  end end end.
