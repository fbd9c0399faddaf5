(** Model of the goal handling of planner_cspace/src/planner_3d.cpp: cbGoal, cbPreempt, setGoal (432-495), the control flow of
    createCostEstimCache (557-653), cbMapUpdate (966-987), cbAction, cbTolerantAction (1109-1133), planPath (1557-1732), makePlan
    (1900-2096) and updateTemporaryEscapeGoal (2098-2329).
    What depends on the map, the poses and the search is taken from the outside as an arbitrary answer per call ([cres], [cycle]).
    actionlib::SimpleActionServer is modelled by its documented behaviour ([server]): at most one current and one pending goal, a new
    goal preempts an active one before the goal callback runs, a goal has at most one terminal result if it is set only while active.
    Left out: feedback, markers, metrics, diagnostics, hysteresis. *)
From Verif Require Import Common SearchAvail.
Local Open Scope Z_scope.

(** planner_cspace_msgs/PlannerStatus. *)
Inductive pstatus := DONE | DOING | FINISHING.
Inductive perror := GOING_WELL | IN_ROCK | PATH_NOT_FOUND | DATA_MISSING | INTERNAL_ERROR.
(** temporary_escape.h:39-44. *)
Inductive escape := NOT_ESCAPING | WITH_IMPROVEMENT | WITHOUT_IMPROVEMENT.
Definition isEscaping (e : escape) : bool := match e with NOT_ESCAPING => false | _ => true end.
(** temporary_escape.h:51-69. *)
Definition escape_error (e : escape) : perror := match e with WITHOUT_IMPROVEMENT => PATH_NOT_FOUND | _ => GOING_WELL end.
Definition escape_worst (a b : escape) : escape :=
  match a, b with
  | WITHOUT_IMPROVEMENT, _ | _, WITHOUT_IMPROVEMENT => WITHOUT_IMPROVEMENT
  | WITH_IMPROVEMENT, _ | _, WITH_IMPROVEMENT => WITH_IMPROVEMENT
  | _, _ => NOT_ESCAPING
  end.

(** The two action servers; [cur] is the active goal, [next] a goal that was received and not accepted. *)
Inductive which := Move | Tolerant.
Inductive result := Succeeded | Aborted | Canceled.
Record server := Server { cur : option Z; next : option Z }.

(** What is published: a path with so many poses, the status, the result of an action. *)
Inductive pub := Path (n : nat) | Status (s : pstatus) (e : perror) | Result (w : which) (id : Z) (r : result).

Record config := Config { watchdog : Z; retain : bool; max_retry : Z; temporary_escape : bool; crowd : bool; find_best : bool; trigger : bool }.

(** Members of Planner3dNode; [tol_goal]: goal_tolerant_, None is a null pointer, the flag is continuous_movement_mode. *)
Record pl := Pl {
  has_map : bool; has_goal : bool; has_start : bool; created : bool; occupied : bool;
  status : pstatus; error : perror; act : server; tol : server; tol_goal : option bool;
  stuck : Z; esc : escape; last_costmap : Z; switchback : bool; out : list pub }.

(** 1335-1356 and the constructor. *)
Definition initial : pl :=
  Pl false false false false false DONE GOING_WELL (Server None None) (Server None None) None 0 NOT_ESCAPING 0 false [].

Definition set_goal b s := Pl (has_map s) b (has_start s) (created s) (occupied s) (status s) (error s) (act s) (tol s) (tol_goal s) (stuck s) (esc s) (last_costmap s) (switchback s) (out s).
Definition set_map b s := Pl b (has_goal s) (has_start s) (created s) (occupied s) (status s) (error s) (act s) (tol s) (tol_goal s) (stuck s) (esc s) (last_costmap s) (switchback s) (out s).
Definition set_start b s := Pl (has_map s) (has_goal s) b (created s) (occupied s) (status s) (error s) (act s) (tol s) (tol_goal s) (stuck s) (esc s) (last_costmap s) (switchback s) (out s).
Definition set_created b s := Pl (has_map s) (has_goal s) (has_start s) b (occupied s) (status s) (error s) (act s) (tol s) (tol_goal s) (stuck s) (esc s) (last_costmap s) (switchback s) (out s).
Definition set_occupied b s := Pl (has_map s) (has_goal s) (has_start s) (created s) b (status s) (error s) (act s) (tol s) (tol_goal s) (stuck s) (esc s) (last_costmap s) (switchback s) (out s).
Definition set_status x s := Pl (has_map s) (has_goal s) (has_start s) (created s) (occupied s) x (error s) (act s) (tol s) (tol_goal s) (stuck s) (esc s) (last_costmap s) (switchback s) (out s).
Definition set_error x s := Pl (has_map s) (has_goal s) (has_start s) (created s) (occupied s) (status s) x (act s) (tol s) (tol_goal s) (stuck s) (esc s) (last_costmap s) (switchback s) (out s).
Definition set_tol_goal x s := Pl (has_map s) (has_goal s) (has_start s) (created s) (occupied s) (status s) (error s) (act s) (tol s) x (stuck s) (esc s) (last_costmap s) (switchback s) (out s).
Definition set_stuck x s := Pl (has_map s) (has_goal s) (has_start s) (created s) (occupied s) (status s) (error s) (act s) (tol s) (tol_goal s) x (esc s) (last_costmap s) (switchback s) (out s).
Definition set_esc x s := Pl (has_map s) (has_goal s) (has_start s) (created s) (occupied s) (status s) (error s) (act s) (tol s) (tol_goal s) (stuck s) x (last_costmap s) (switchback s) (out s).
Definition set_last x s := Pl (has_map s) (has_goal s) (has_start s) (created s) (occupied s) (status s) (error s) (act s) (tol s) (tol_goal s) (stuck s) (esc s) x (switchback s) (out s).
Definition set_switchback x s := Pl (has_map s) (has_goal s) (has_start s) (created s) (occupied s) (status s) (error s) (act s) (tol s) (tol_goal s) (stuck s) (esc s) (last_costmap s) x (out s).
Definition emit p s := Pl (has_map s) (has_goal s) (has_start s) (created s) (occupied s) (status s) (error s) (act s) (tol s) (tol_goal s) (stuck s) (esc s) (last_costmap s) (switchback s) (out s ++ [p]).
Definition server_of (w : which) (s : pl) : server := match w with Move => act s | Tolerant => tol s end.
Definition set_server (w : which) (v : server) (s : pl) : pl :=
  match w with
  | Move => Pl (has_map s) (has_goal s) (has_start s) (created s) (occupied s) (status s) (error s) v (tol s) (tol_goal s) (stuck s) (esc s) (last_costmap s) (switchback s) (out s)
  | Tolerant => Pl (has_map s) (has_goal s) (has_start s) (created s) (occupied s) (status s) (error s) (act s) v (tol_goal s) (stuck s) (esc s) (last_costmap s) (switchback s) (out s)
  end.
Definition active (w : which) (s : pl) : bool := match cur (server_of w s) with Some _ => true | None => false end.

(** [if (act_->isActive()) act_->setX(...)]. *)
Definition finish (w : which) (r : result) (s : pl) : pl :=
  match cur (server_of w s) with
  | Some id => emit (Result w id r) (set_server w (Server None (next (server_of w s))) s)
  | None => s
  end.
Definition finish_both (r : result) (s : pl) : pl := finish Tolerant r (finish Move r s).

Inductive escape_found := EscNone | EscBack | EscTo (better : bool).
(** Where the start and the goal are, for one call of createCostEstimCache. *)
Record cres := CRes { r_start : pose_status; r_goal : pose_status }.

Section Planner.
  Variable C : config.

  (** createCostEstimCache, 557-653; [escape_now] is the call of updateTemporaryEscapeGoal in 616. *)
  Definition create_body (escape_now : pl -> pl) (r : cres) (s0 : pl) : bool * pl :=
    if negb (has_goal s0) then (true, s0)
    else if negb (has_map s0 && has_start s0) then (true, s0)
    else
      let s := set_occupied false (set_created false s0) in
      match r_start r with
      | POutOfMap => (false, s)
      | PInRock => (true, set_occupied true (set_stuck (stuck s + 1) s))
      | _ =>
          match r_goal r with
          | POutOfMap => (false, s)
          | PInRock =>
              if isEscaping (esc s) then (true, set_esc NOT_ESCAPING s)
              else let s1 := set_stuck (stuck s + 1) s in
                   (true, if temporary_escape C && crowd C then escape_now s1 else s1)
          | _ => (true, set_created true s)
          end
      end.
  (** updateTemporaryEscapeGoal, 2098-2329: [found] says what the search gives: nothing, that the original goal can be reached after all (crowd
      mode only), or a temporary goal and whether it improves.  The search itself is modelled in TempEscape.  The original goal is then free
      (2243), so the inner createCostEstimCache does not come back here in that case either. *)
  Definition escape_goal (found : escape_found) (inner : pl -> bool * pl) (s : pl) : pl :=
    if negb (has_map s && has_goal s && has_start s) then s
    else if switchback s then s
    else
      match found with
      | EscNone => s
      | EscBack => snd (inner (set_esc NOT_ESCAPING s))
      | EscTo better =>
          let s1 := set_esc (if crowd C && better then WITH_IMPROVEMENT else WITHOUT_IMPROVEMENT) s in
          let s2 := match status s1 with FINISHING => set_status DOING s1 | _ => s1 end in
          snd (inner s2)
      end.
  (** The inner createCostEstimCache runs while escaping, so it does not come back to 616. *)
  Definition create_inner (r : cres) : pl -> bool * pl := create_body (fun s => s) r.
  Record ccall := CCall { cc_res : cres; cc_found : escape_found; cc_inner : cres }.
  Definition create (c : ccall) : pl -> bool * pl := create_body (escape_goal (cc_found c) (create_inner (cc_inner c))) (cc_res c).

  (** cbPreempt, 441-453. *)
  Definition cbPreempt (s : pl) : pl := set_status DONE (set_esc NOT_ESCAPING (set_goal false (finish_both Canceled s))).

  (** A goal message: whether its frame is the map frame, whether its orientation is a unit quaternion within 0.1, its
      continuous_movement_mode, and what createCostEstimCache meets. *)
  Record goal := Goal { g_frame : bool; g_unit : bool; g_continuous : bool; g_create : ccall }.
  (** setGoal, 455-495. *)
  Definition setGoal (g : goal) (s : pl) : bool * pl :=
    if negb (g_frame g) then (false, s)
    else if g_unit g then
      let '(ok, s1) := create (g_create g) (set_stuck 0 (set_goal true (set_esc NOT_ESCAPING s))) in
      if negb ok then (false, set_goal false s1)
      else let s2 := set_status DOING s1 in (true, emit (Status (status s2) (error s2)) s2)
    else (true, finish_both Succeeded (set_goal false s)).
  (** cbGoal, 432-440. *)
  Definition cbGoal (g : goal) (s : pl) : pl := if active Move s || active Tolerant s then s else snd (setGoal g s).

  (** acceptNewGoal of the server: undefined here if there is none (a null pointer is returned). *)
  Definition accept (w : which) (s : pl) : outcome pl :=
    match next (server_of w s) with
    | None => UB
    | Some id =>
        let s1 := finish w Canceled s in
        Ok (set_server w (Server (Some id) None) s1)
    end.
  Definition other (w : which) : which := match w with Move => Tolerant | Tolerant => Move end.
  (** cbAction and cbTolerantAction, 1109-1133. *)
  Definition cbAction (w : which) (g : goal) (s : pl) : outcome pl :=
    if active (other w) s then Ok s
    else
      do s1 <- accept w s;
      let s2 := match w with Tolerant => set_tol_goal (Some (g_continuous g)) s1 | Move => s1 end in
      let '(ok, s3) := setGoal g s2 in
      Ok (if ok then s3 else finish w Aborted s3).
  (** A goal arrives at a server (SimpleActionServer::goalCallback). *)
  Definition goal_arrives (w : which) (id : Z) (g : goal) (s : pl) : outcome pl :=
    let s1 := match next (server_of w s) with Some n => emit (Result w n Canceled) s | None => s end in
    let s2 := set_server w (Server (cur (server_of w s1)) (Some id)) s1 in
    let s3 := if active w s2 then cbPreempt s2 else s2 in
    cbAction w g s3.
  (** A cancel request (SimpleActionServer::preemptCallback). *)
  Definition cancel_arrives (w : which) (id : Z) (s : pl) : pl :=
    match cur (server_of w s) with
    | Some c => if c =? id then cbPreempt s else s
    | None => s
    end.

  (** What a planning cycle meets: the createCostEstimCache of 1562, whether the final orientation is reached (1617), how the start
      poses turn out, createCostEstimCache after an escape (1920), whether the distance map reaches the start (1948), the escape search and its
      createCostEstimCache (1955), the number of progress callbacks (1960-1980), whether the search succeeds, the number of
      poses of the path, and whether it has a switch-back. *)
  Inductive start_status := StartOccupied | StartFinishing | StartNormal.
  Record cycle := Cycle {
    y_create : ccall; y_final : bool; y_start : start_status; y_escaped : ccall; y_reached : bool;
    y_found : escape_found; y_inner : cres; y_progress : nat; y_search : bool; y_poses : nat; y_switch : bool }.

  Fixpoint emits (n : nat) (p : pub) (s : pl) : pl := match n with O => s | S k => emits k p (emit p s) end.

  (** goal_tolerant_-> while the tolerant action is active: undefined if the pointer is null. *)
  Definition deref (s : pl) : outcome bool :=
    if active Tolerant s then match tol_goal s with Some c => Ok c | None => UB end else Ok false.

  (** The rest of makePlan once the start poses are known, 1945-2096. *)
  Definition plan_search (y : cycle) (s1 : pl) : outcome (nat * pl) :=
    if negb (y_reached y) then
        let s2 := set_error PATH_NOT_FOUND s1 in
        Ok (O, if temporary_escape C then escape_goal (y_found y) (create_inner (y_inner y)) s2 else s2)
    else
      let s2 := emits (y_progress y) (Path 0) s1 in
      if y_search y then Ok (y_poses y, s2)
      else let s3 := set_error PATH_NOT_FOUND s2 in
           if find_best C then Ok (y_poses y, s3) else Ok (O, s3).
  (** makePlan, 1900-2096: the number of poses of the path (0 if it is left empty). *)
  Definition makePlan (y : cycle) (s : pl) : outcome (nat * pl) :=
    do continuous <- (if isEscaping (esc s) then Ok false else deref s);
    match y_start y with
    | StartOccupied => Ok (O, set_error IN_ROCK s)
    | StartFinishing =>
        if isEscaping (esc s) then Ok (O, snd (create (y_escaped y) (set_esc NOT_ESCAPING s)))
        else if active Tolerant s && continuous then plan_search y (set_tol_goal None (finish Tolerant Succeeded s))
        else Ok (O, emit (Path 1) (set_status FINISHING s))
    | StartNormal => plan_search y s
    end.

  (** 1709-1713. *)
  Definition publish (s : pl) : pl := emit (Status (status s) (error s)) s.
  (** The branch of planPath with status FINISHING, 1610-1643. *)
  Definition plan_finishing (y : cycle) (s : pl) : outcome pl :=
    do _ <- deref s;
    if y_final y then Ok (publish (finish_both Succeeded (set_goal false (set_status DONE s))))
    else Ok (publish (emit (Path 1) s)).
  (** The other branch, 1644-1701; exceeding the retry limit returns without publishing the status. *)
  Definition plan_doing (y : cycle) (s : pl) : outcome pl :=
    if negb (max_retry C =? -1) && (max_retry C <? stuck s) then
      Ok (finish_both Aborted (emit (Path 0) (set_goal false (set_status DONE (set_error PATH_NOT_FOUND s)))))
    else if negb (created s) then
      Ok (publish (emit (Path 0) (set_error (if occupied s then IN_ROCK else PATH_NOT_FOUND) s)))
    else
      do r <- makePlan y (set_error GOING_WELL s);
      let '(n, s5) := r in
      let s6 := set_switchback (y_switch y) (emit (Path n) s5) in
      Ok (publish (if isEscaping (esc s6) || isEscaping (esc s) then set_error (escape_error (escape_worst (esc s6) (esc s))) s6 else s6)).
  (** The watchdog, 1567-1594. *)
  Definition stale (now : Z) (s : pl) : bool := (0 <? watchdog C) && (watchdog C <? now - last_costmap s).
  Definition refresh (y : cycle) (s : pl) : pl :=
    if has_map s && negb (created s) && has_goal s then snd (create (y_create y) s) else s.
  (** planPath, 1557-1732. *)
  Definition planPath (now : Z) (y : cycle) (s0 : pl) : outcome pl :=
    let s1 := refresh y s0 in
    let s2 := if stale now s1 then emit (Path 0) (set_error DATA_MISSING s1) else s1 in
    if has_map s2 && has_goal s2 && has_start s2 && negb (stale now s1) then
      let s3 := set_switchback false s2 in
      match status s3 with FINISHING => plan_finishing y s3 | _ => plan_doing y s3 end
    else if negb (has_goal s2) then
      Ok (publish (emit (Path 0) (if retain C then s2 else set_error GOING_WELL s2)))
    else Ok (publish s2).

  (** Everything that happens to the node.  A costmap update carries the time it is applied, whether it fits the map, and the
      createCostEstimCache it may run (924, 931; the fast update of the distance map does not change the flags). *)
  Inductive event :=
  | EGoal (g : goal) | EAction (w : which) (id : Z) (g : goal) | ECancel (w : which) (id : Z)
  | EMap (c : ccall) | EStart (ok : bool) | ECostmap (now : Z) (fits : bool) (c : option ccall) (y : cycle)
  | ETrigger (found : escape_found) (r : cres) | ECycle (now : Z) (y : cycle).

  (** applyCostmapUpdate, 777-940, as far as the flags go. *)
  Definition apply_costmap (now : Z) (fits : bool) (c : option ccall) (s : pl) : pl :=
    if negb fits then s
    else
      let s1 := set_last now s in
      if negb (has_start s1 && has_goal s1) then s1
      else match c with Some c' => snd (create c' s1) | None => s1 end.

  Definition step (s : pl) (e : event) : outcome pl :=
    match e with
    | EGoal g => Ok (cbGoal g s)
    | EAction w id g => goal_arrives w id g s
    | ECancel w id => Ok (cancel_arrives w id s)
    | EMap c => Ok (snd (create c (set_map true (emit (Path 0) s))))
    | EStart b => Ok (set_start b s)
    | ECostmap now fits c y =>
        if negb (has_map s) then Ok s
        else
          let s1 := apply_costmap now fits c s in
          if trigger C then planPath (last_costmap s1) y s1 else Ok s1
    | ETrigger f r => Ok (if has_map s then escape_goal f (create_inner r) s else s)
    | ECycle now y => planPath now y s
    end.
  Definition run (es : list event) : outcome pl := foldM step es initial.
End Planner.
