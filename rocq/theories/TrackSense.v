(** Model of what the trajectory tracker measures on its path, and of the node with these measurements
    (/repo/trajectory_tracker/src/trajectory_tracker.cpp:286-298, 303-379, 515-626).  [Tracker] takes the measurements as
    given; here they are computed from the path and the pose of the robot.

    Simplifications.  Coordinates, angles and the look-forward time are exact reals (double and float in the code).
    The pose of the robot is given in the frame of the path, i.e. the product of the transforms of 530-532.  The
    limiter values are read as the real numbers they stand for. *)
From Coq Require Import Reals.
From Flocq Require Import Core.Core IEEE754.BinarySingleNaN.
From Verif Require Import Common CostF32 BasicControl Path2D PathGeom Tracker.
Local Open Scope R_scope.

(** eigen_line.h 90-97 projection2d, for [a] other than [b]. *)
Definition projection2d (a b p : vec) : vec :=
  let r := dot (vsub b a) (vsub p a) / dot (vsub b a) (vsub b a) in
  (fst b * r + fst a * (1 - r), snd b * r + snd a * (1 - r)).

(** std::atan2. *)
Definition atan2 (y x : R) : R :=
  if Rlt_dec 0 x then atan (y / x)
  else if Rlt_dec x 0 then (if Rle_dec 0 y then atan (y / x) + PI else atan (y / x) - PI)
  else if Rlt_dec 0 y then PI / 2 else if Rlt_dec y 0 then - (PI / 2) else 0.
(** angleNormalized, basic_control.h 53-60; the code leaves a half turn to the left as it is, here it becomes one to
    the right. *)
Definition normalized (a : R) : R := a - 2 * PI * IZR (Int_part ((a + PI) / (2 * PI))).

(** Parameters of the measurements (219-262). *)
Record mcfg := Mcfg {
  m_look : R;        (* look_forward *)
  m_eps : R;         (* epsilon *)
  m_backward : bool; (* allow_backward *)
  m_no_pos : R;      (* no_position_control_dist *)
  m_rotate : R }.    (* rotate_ang *)

(** A pose of the robot in the frame of the path. *)
Record rpose := Rpose { r_x : R; r_y : R; r_yaw : R }.
(** What [control] is called with: the pose and the prediction offset (410-415). *)
Record place := Place { pl_robot : rpose; pl_off : vec; pl_off_yaw : R }.
(** cbOdometry 333-349: the pose extrapolated over the age [age] of the odometry (0 without predict_odom), and the
    prediction offset. *)
Definition extrapolated (p : rpose) (lin ang age : R) : place :=
  Place (Rpose (r_x p + cos (r_yaw p) * (lin * age)) (r_y p + sin (r_yaw p) * (lin * age)) (r_yaw p + ang * age))
        (lin * age, 0) (ang * age).
(** cbTimer 365. *)
Definition at_rest (p : rpose) : place := Place p (0, 0) 0.

(** 543-546: every [step]-th pose of the path, from index [i] on; [n] bounds the number of iterations. *)
Fixpoint thin (step n i : nat) (l : list pose2) : list pose2 :=
  match n with
  | O => []
  | S n' => match nth_error l i with Some p => p :: thin step n' (i + step) l | None => [] end
  end.
Definition kept (step : nat) (l : list pose2) : list pose2 := thin step (length l) 0 l.
(** 537-546: a pose seen from the robot. *)
Definition seen (r : rpose) (p : pose2) : pose2 :=
  let dx := p_x p - r_x r in
  let dy := p_y p - r_y r in
  mkP2 (cos (r_yaw r) * dx + sin (r_yaw r) * dy) (- sin (r_yaw r) * dx + cos (r_yaw r) * dy) (- r_yaw r + p_yaw p) (p_vel p).

Section Measure.
  Variable M : mcfg.

  (** 561-563: where the robot will be after the look-forward time, seen from the robot. *)
  Definition ahead (v w : R) : vec :=
    let yaw := w * m_look M / 2 in (cos yaw * v * m_look M, sin yaw * v * m_look M).

  (** getTrackingResult up to 634.  [path] is path_, [done] is path_step_done_; [v], [w] are the limiter values.
      UB: an access outside the vector, or an iterator beyond its end.
      If the two ends of the nearest strip coincide, projection2d and lineDistance divide by zero and the distances
      are NaN; they are not used then ([in_place] makes every comparison with remain_local superfluous, 653 sets the
      others to 0, dist_err is read in the other branch only) and are set to 0 here. *)
  Definition measure (path : list pose2) (step : nat) (pl : place) (v w : R) (done : nat) : outcome sensed :=
    let lpath := map (seen (pl_robot pl)) (kept step path) in
    let n := length lpath in
    let origin := ahead v w in
    let plen := path_length lpath in
    do g <- findLocalGoal lpath (m_backward M) true (1 / 1000000) done n;                        (* 568-569 *)
    let lg := match g with Some k => k | None => n end in
    let range := if Nat.ltb 0 done then 1 else 0 in                                              (* 571 *)
    do nd <- findNearestWithDistance lpath done lg origin range (m_eps M);                       (* 572-574 *)
    let i := fst nd in
    if Nat.eqb i n then Ok (Sensed n None lg plen 0 0 0 0 0 0 0 0 false false)                   (* 576-579 *)
    else
      do a <- at_ lpath (i - 1);
      do b <- at_ lpath i;
      do last <- at_ lpath (lg - 1);
      let vec := vsub (pos b) (pos a) in
      let in_place := if Req_EM_T (snd vec) 0 then if Req_EM_T (fst vec) 0 then true else false else false in  (* 629 *)
      do rl <- remainedDistance lpath 0 i lg (projection2d (pos a) (pos b) origin);              (* 594 *)
      do dr <- remainedDistance lpath 0 i n (projection2d (pos a) (pos b) origin);               (* 596 *)
      do drr <- remainedDistance lpath 0 i n (projection2d (pos a) (pos b) (pl_off pl));         (* 597 *)
      let zero := orb in_place (if Rlt_dec plen (m_no_pos M) then true else false) in            (* 598-599 *)
      let dir := atan2 (snd vec) (fst vec) in
      let pose := if m_backward M then p_yaw b else dir in                                       (* 608 *)
      let angle := normalized (if Rlt_dec (cos dir * cos pose + sin dir * sin pose) 0 then - dir + PI else - dir) in
      let large := if Rlt_dec (Rabs (m_rotate M)) PI then if Rlt_dec (cos angle) (cos (m_rotate M)) then true else false else false in
      Ok (Sensed n (Some i) lg plen
            (if zero then 0 else rl) (if zero then 0 else dr) (if zero then 0 else drr)
            (if in_place then 0 else lineDistance (pos a) (pos b) origin)                        (* 602-603 *)
            (nrm (vsub (pos b) origin))
            angle (normalized (- p_yaw last)) (pl_off_yaw pl) large in_place).
End Measure.

Section Node.
  Variable c : tcfg.
  Variable M : mcfg.
  (** The float velocity of a pose; any function. *)
  Variable velocity : option R -> f32.

  (** The node: the state of [Tracker], the poses of path_ and path_step_. *)
  Record drive := Drive { d_node : nst; d_path : list pose2; d_step : nat }.
  Definition start (step : nat) : drive := Drive ninit [] step.

  (** Callbacks, as in [Tracker], with messages and poses in place of measurements.  [None] for a pose: no transform
      between path and odometry.  [HTimer None]: no transform between odometry and robot.  [HStep]: the parameter
      path_step is changed (cbParameter 240). *)
  Inductive hev :=
  | HPath (frame : bool) (msg : list pose2)
  | HOdom (stamp : Z) (at_pose : option rpose) (age : R) (f : refs) (lin ang : R) (dt : f32)
  | HTimer (at_pose : option (option rpose)) (f : refs) (dt : f32)
  | HOdomTimeout
  | HStep (step : nat).

  Definition look (d : drive) (pl : place) (k : nat) : outcome sensed :=
    measure M (d_path d) (d_step d) pl (B2R (n_v (d_node d))) (B2R (n_w (d_node d))) k.
  (** The measurements as [Tracker] takes them, per number of finished path steps. *)
  Definition sight (d : drive) (o : option place) (k : nat) : option sensed :=
    match o with
    | None => None
    | Some pl => match look d pl k with Ok z => Some z | UB => None end
    end.
  (** The measurements [control] takes (420-428) are defined; the second component is the tracking result it acts on. *)
  Definition result (d : drive) (o : option place) (lin ang : R) : outcome tresult :=
    let s := d_node d in
    let track k := tracking_result c (n_frame s) (length (n_path s)) k lin ang (sight d o k) in
    let check k := match o with
                   | Some pl => if negb (n_frame s) || Nat.eqb (length (n_path s)) 0 then Ok tt else do z <- look d pl k; Ok tt
                   | None => Ok tt
                   end in
    do u <- check (n_done s);
    let k := if n_updated s then r_step_done (track (n_done s)) else n_done s in
    do u' <- check k;
    Ok (track k).

  (** The published status: status, distance_remains, angle_remains (508-511, 373-377, 393-397). *)
  Definition report : Type := status * R * R.
  Definition report_of (r : tresult) : report := (r_status r, r_dist r, r_angle r).

  Definition hstep (d : drive) (e : hev) : outcome (drive * list out * list report) :=
    let s := d_node d in
    let act e' := step c s e' in
    match e with
    | HPath frame msg =>
        let path := fromMsg (m_eps M) msg in
        let vels := map (fun p => velocity (p_vel p)) path in
        let '(s', o) := act (EPath frame vels) in
        Ok (Drive s' (if existsb bad_vel vels then [] else path) (d_step d), o, [])
    | HOdom stamp at_pose age f lin ang dt =>
        let pl := option_map (fun p => extrapolated p lin ang age) at_pose in
        let '(s', o) := act (EOdom stamp (sight d pl) f lin ang dt) in
        if Z.eqb (n_odom s) 0 then Ok (Drive s' (d_path d) (d_step d), o, [])
        else do r <- result d pl lin ang; Ok (Drive s' (d_path d) (d_step d), o, [report_of r])
    | HTimer None f dt =>
        let '(s', o) := act (ETimer None f dt) in
        Ok (Drive s' (d_path d) (d_step d), o, [(NO_PATH, 0, 0)])
    | HTimer (Some at_pose) f dt =>
        let pl := option_map at_rest at_pose in
        let '(s', o) := act (ETimer (Some (sight d pl)) f dt) in
        do r <- result d pl 0 0; Ok (Drive s' (d_path d) (d_step d), o, [report_of r])
    | HOdomTimeout =>
        let '(s', o) := act EOdomTimeout in
        Ok (Drive s' (d_path d) (d_step d), o, [(NO_PATH, 0, 0)])
    | HStep k => Ok (Drive s (d_path d) k, [], [])
    end.

  Definition hrun (step : nat) (es : list hev) : outcome drive :=
    foldM (fun d e => do r <- hstep d e; Ok (fst (fst r))) es (start step).
End Node.
