(** Model of the command handling and timing of the 2-DoF joint planner: planner_cspace/src/planner_2dof_serial_joints.cpp, cbJoint (165-190),
    cbTrajectory (194-225) and replan (226-370).  Angles, times and velocities are exact reals (the code uses float and double).
    makePlan (546-660, modelled in Joint2D.v) is an argument of each event: the path from the start to the end and whether both are in the same
    cell, or failure.  UB stands for undefined behaviour and for a number that is not finite: an index outside of a list, a ros::Duration made of
    0/0 or x/0 and a velocity 0/0.
    Left out: the status message and logging. *)
From Coq Require Import Reals.
From Verif Require Import Common.
Local Open Scope R_scope.

Definition jpos := (R * R)%type.
(** Names are numbers. *)
Record jpoint := JPoint { jp_time : R; jp_pos : list R }.
Record jcmd := JCmd { jc_names : list Z; jc_points : list jpoint }.
Record jstates := JStates { jm_names : list Z; jm_pos : list R }.
(** A published point: trajectory_msgs/JointTrajectoryPoint of the two links. *)
Record jout := JOut { jo_pos : jpos; jo_vel : jpos; jo_time : R }.
Inductive vel_mode := VEL_PREV | VEL_NEXT | VEL_AVG.
Record jcfg := JCfg { j_link0 : Z; j_link1 : Z; j_vmax0 : R; j_vmax1 : R; j_mode : vel_mode; j_interval : R }.

(** Members.  [js_id]: None if one of id_[0], id_[1] is -1.  [js_prev]: replan_prev_, None is Time(0).  [js_vel]: avg_vel_.
    cmd_prev_ starts with zeros (a default constructed std::pair of Duration and floats), traj_prev_ without points. *)
Record jst := JSt { js_cur : jpos; js_has : bool; js_id : option (nat * nat); js_cmd : R * jpos; js_points : list jpoint; js_vel : R; js_prev : option R;
                    js_out : list (list jout) }.
Definition jinit : jst := JSt (0, 0) false None (0, (0, 0)) [] 0 None [].

Definition nth_or_ub {A} (l : list A) (i : nat) : outcome A := match nth_error l i with Some a => Ok a | None => UB end.
(** a / b where the result must be finite. *)
Definition qdiv (a b : R) : outcome R := if Req_EM_T b 0 then UB else Ok (a / b).

Section Joints.
  Variable C : jcfg.

  (** 167-174, 196-204: the last position of each name. *)
  Fixpoint find_links (names : list Z) (i : nat) (id : option nat * option nat) : option nat * option nat :=
    match names with
    | [] => id
    | n :: l => find_links l (S i) (if (n =? j_link0 C)%Z then (Some i, snd id) else if (n =? j_link1 C)%Z then (fst id, Some i) else id)
    end.
  Definition link_ids (names : list Z) : option (nat * nat) :=
    match find_links names 0 (None, None) with (Some a, Some b) => Some (a, b) | _ => None end.

  (** 265-268, 307-309. *)
  Definition dmax (a b : jpos) : R := Rmax (Rabs (fst b - fst a)) (Rabs (snd b - snd a)).
  (** 257-270. *)
  Fixpoint pos_sum (l : list jpos) : R :=
    match l with a :: ((b :: _) as l') => dmax a b + pos_sum l' | _ => 0 end.
  (** 271-282. *)
  Definition average_velocity (time sum : R) : R :=
    if Rle_dec time 0 then Rmin (j_vmax0 C) (j_vmax1 C)
    else
      let v := sum / time in
      let v := if Rlt_dec (j_vmax0 C) v then j_vmax0 C else v in
      if Rlt_dec (j_vmax1 C) v then j_vmax1 C else v.

  (** 319-335. *)
  Definition direction (prev cur next : jpos) : jpos :=
    match j_mode C with
    | VEL_PREV => (fst cur - fst prev, snd cur - snd prev)
    | VEL_NEXT => (fst next - fst cur, snd next - snd cur)
    | VEL_AVG => (fst next - fst prev, snd next - snd prev)
    end.
  (** 312-341. *)
  Definition velocity (v : R) (prev cur : jpos) (rest : list jpos) : outcome jpos :=
    match rest with
    | [] => Ok (0, 0)
    | next :: _ =>
        let dir := direction prev cur next in
        do t <- qdiv (Rmax (Rabs (fst dir)) (Rabs (snd dir))) v;
        do a <- qdiv (fst dir) t; do b <- qdiv (snd dir) t; Ok (a, b)
    end.
  (** 292-346: the points after the first one; [sum] is the way so far. *)
  Fixpoint timed (v sum : R) (prev : jpos) (l : list jpos) : outcome (list jout) :=
    match l with
    | [] => Ok []
    | cur :: rest =>
        let sum' := sum + dmax prev cur in
        do w <- velocity v prev cur rest;
        do t <- qdiv sum' v;
        do r <- timed v sum' cur rest;
        Ok (JOut cur w t :: r)
    end.

  Definition planner := jpos -> jpos -> option (list jpos * bool).
  (** replan, 226-370. *)
  Definition replan (now : R) (plan : planner) (s : jst) : outcome jst :=
    if negb (js_has s) then Ok s
    else
      match js_id s with
      | None => Ok (JSt (js_cur s) (js_has s) (js_id s) (js_cmd s) (js_points s) (js_vel s) (Some now) (js_out s))
      | Some (a, b) =>
          do p <- nth_or_ub (js_points s) 0;
          do x <- nth_or_ub (jp_pos p) a;
          do y <- nth_or_ub (jp_pos p) b;
          match plan (js_cur s) (x, y) with
          | Some (path, same) =>
              let v := if Rlt_dec (js_vel s) 0 then average_velocity (jp_time p) (pos_sum path) else js_vel s in
              do out <- (match path with [] => Ok [] | first :: rest => timed v 0 first rest end);
              Ok (JSt (js_cur s) (js_has s) (js_id s) (js_cmd s) (js_points s) v (if same then None else Some now) (js_out s ++ [out]))
          | None =>
              Ok (JSt (js_cur s) (js_has s) (js_id s) (js_cmd s) (js_points s) (js_vel s) (Some now) (js_out s ++ [[JOut (js_cur s) (0, 0) 0]]))
          end
      end.

  (** cbJoint, 165-190. *)
  Definition cb_joint (m : jstates) (now : R) (plan : planner) (s : jst) : outcome jst :=
    match link_ids (jm_names m) with
    | None => Ok s
    | Some (a, b) =>
        do x <- nth_or_ub (jm_pos m) a;
        do y <- nth_or_ub (jm_pos m) b;
        let s := JSt (x, y) true (js_id s) (js_cmd s) (js_points s) (js_vel s) (js_prev s) (js_out s) in
        let due := match js_prev s with None => true | Some t => if Rlt_dec (t + j_interval C) now then true else false end in
        if due && (if Rlt_dec 0 (j_interval C) then true else false) then replan now plan s else Ok s
    end.

  (** cbTrajectory, 194-225. *)
  Definition cmd_eq (a b : R * jpos) : bool :=
    if Req_EM_T (fst a) (fst b) then
      if Req_EM_T (fst (snd a)) (fst (snd b)) then if Req_EM_T (snd (snd a)) (snd (snd b)) then true else false else false else false.
  Definition cb_trajectory (m : jcmd) (now : R) (plan : planner) (s : jst) : outcome jst :=
    let s := JSt (js_cur s) (js_has s) (link_ids (jc_names m)) (js_cmd s) (js_points s) (js_vel s) (js_prev s) (js_out s) in
    match js_id s with
    | None => Ok s
    | Some (a, b) =>
        do p <- nth_or_ub (jc_points m) 0;
        do x <- nth_or_ub (jp_pos p) a;
        do y <- nth_or_ub (jp_pos p) b;
        let cmd := (jp_time p, (x, y)) in
        if cmd_eq (js_cmd s) cmd then Ok s
        else replan now plan (JSt (js_cur s) (js_has s) (js_id s) cmd (jc_points m) (-1) (js_prev s) (js_out s))
    end.

  Inductive jevent := EJoint (m : jstates) (now : R) (plan : planner) | ECommand (m : jcmd) (now : R) (plan : planner).
  Definition jstep (s : jst) (e : jevent) : outcome jst :=
    match e with EJoint m now plan => cb_joint m now plan s | ECommand m now plan => cb_trajectory m now plan s end.
  Definition jrun (es : list jevent) : outcome jst := foldM jstep es jinit.
End Joints.
