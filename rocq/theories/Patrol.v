(** Model of planner_cspace/src/patrol.cpp (PatrolActionNode).

    ROS delivers callbacks only inside [spinOnce], so a run of the node is a
    sequence of path messages and loop bodies; each loop body polls the action
    client once.  The two action clients (move_base, tolerant_move) are used
    alternatively by the [with_tolerance] parameter, fixed at start-up; the goal's
    header stamp and tolerances are not modelled. *)
From Verif Require Import Common.

Section Patrol.
  Context {P : Type}.   (* poses *)

  (** actionlib::SimpleClientGoalState, as compared at patrol.cpp:166-179. *)
  Inductive goal_state := G_PENDING | G_ACTIVE | G_RECALLED | G_REJECTED | G_PREEMPTED | G_ABORTED | G_SUCCEEDED | G_LOST.

  Inductive event :=
  | EvPath (msg : list P)        (* cbPath *)
  | EvLoop (s : goal_state).     (* one loop body after spinOnce; [s] is what getState returns if asked *)

  Inductive output := Cancel | Send (p : P).

  (** patrol.cpp:53-54: [path_] and [pos_]. *)
  Record pstate := mkP { p_path : list P; p_pos : nat }.
  (** patrol.cpp:103: [pos_ = 0], empty path. *)
  Definition pinit : pstate := mkP [] 0.

  (** patrol.cpp:61-77 cbPath. *)
  Definition cbPath (st : pstate) (msg : list P) : pstate * list output :=
    (mkP msg 0, if (0 <? length (p_path st))%nat then [Cancel] else []).

  (** patrol.cpp:105-141 sendNextGoal. *)
  Definition sendNextGoal (st : pstate) : pstate * list output :=
    if (length (p_path st) <=? p_pos st)%nat then (mkP [] (p_pos st), [])
    else match nth_error (p_path st) (p_pos st) with
         | Some p => (mkP (p_path st) (S (p_pos st)), [Send p])
         | None => (st, [])   (* unreachable: the index was checked *)
         end.

  (** patrol.cpp:151-180: the loop body. *)
  Definition loop_body (st : pstate) (s : goal_state) : pstate * list output :=
    if (length (p_path st) =? 0)%nat then (st, [])
    else if (p_pos st =? 0)%nat then sendNextGoal st
    else match s with
         | G_SUCCEEDED => sendNextGoal st
         | G_ABORTED => sendNextGoal st
         | _ => (st, [])
         end.

  Definition pstep (st : pstate) (e : event) : pstate * list output :=
    match e with EvPath m => cbPath st m | EvLoop s => loop_body st s end.

  Fixpoint prun (st : pstate) (es : list event) : pstate * list output :=
    match es with
    | [] => (st, [])
    | e :: es' => let '(st1, o1) := pstep st e in
                  let '(st2, o2) := prun st1 es' in (st2, o1 ++ o2)
    end.
End Patrol.
