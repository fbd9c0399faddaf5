(** Model of the trajectory tracker node
    (/repo/trajectory_tracker/src/trajectory_tracker.cpp): callbacks, control
    decision and limiter updates.

    Simplifications.  What getTrackingResult measures on the path (nearest
    segment, remaining distances, angles, lines 523-626) is an input, a
    [sensed] record per number of finished path steps; the decisions taken from
    it (lines 628-706) are modelled.  The reference velocities computed from the
    measurements (lines 445-486) are inputs too, arbitrary floats that may
    depend on the current limiter values; what is done with them is modelled.
    Path poses are represented by their velocity, after Path2D::fromMsg. *)
From Coq Require Import ZArith List Bool Reals.
From Flocq Require Import Core.Core IEEE754.BinarySingleNaN.
From Verif Require Import CostF32 BasicControl.
Import ListNotations.
Local Open Scope R_scope.

Inductive status := NO_PATH | FOLLOWING | GOAL | FAR_FROM_PATH.

(** Parameters used by the decisions (trajectory_tracker.cpp:219-262). *)
Record tcfg := Tcfg {
  t_stop_dist : R; t_stop_ang : R; t_min_track : R; t_d_stop : R;
  t_goal_dist : R; t_goal_ang : R; t_goal_lin : R; t_goal_angv : R;
  t_limit_by_avel : bool; t_use_toc : bool; t_use_odom_timeout : bool;
  t_vel_w : f32; t_acc_v : f32; t_acc_w : f32 }.

(** Measurements on the transformed path, trajectory_tracker.cpp:552-634. *)
Record sensed := Sensed {
  z_size : nat;                (* lpath.size() *)
  z_nearest : option nat;      (* i_nearest, None: not found (571-574) *)
  z_local_goal : nat;          (* i_local_goal *)
  z_path_length : R; z_remain_local : R;
  z_dist_remains : R; z_dist_remains_raw : R;
  z_dist_err : R;              (* signed distance to the nearest line, 602 *)
  z_nearest_norm : R;          (* (lpath[i_nearest].pos_ - origin).norm() *)
  z_angle : R;                 (* angle_remains after 618 *)
  z_goal_angle : R;            (* angleNormalized(-(it_local_goal-1)->yaw_), 644 *)
  z_yaw_raw : R;
  z_large_angle : bool;        (* 634 *)
  z_in_place : bool }.         (* 629 *)

(** TrackingResult, trajectory_tracker.cpp:147-180 (the members the control
    decision uses). *)
Record tresult := Tresult {
  r_status : status; r_dist : R; r_angle : R; r_dist_raw : R; r_angle_raw : R;
  r_turning : bool; r_step_done : nat }.
Definition no_path_result : tresult := Tresult NO_PATH 0 0 0 0 false 0.

(** Node state.  [n_frame]: path_header_.frame_id is not empty. *)
Record nst := Nst {
  n_frame : bool; n_path : list f32; n_updated : bool; n_done : nat;
  n_v : f32; n_w : f32; n_odom : Z }.
Definition ninit : nst := Nst false [] false 0 s0 s0 0%Z.

Section Tracker.
  Variable c : tcfg.

  Definition absless (x tol : R) : bool := Rlt_bool (Rabs x) tol.
  Definition vel_ok (tol x : R) : bool := Req_bool tol 0 || absless x tol.

  (** getTrackingResult, trajectory_tracker.cpp:515-706.  [sense] is [None] if a
      transform is missing (550-556).  [path_size] is path_.size(). *)
  Definition tracking_result (frame : bool) (path_size done : nat)
      (lin ang : R) (sense : option sensed) : tresult :=
    if negb frame || Nat.eqb path_size 0 then no_path_result
    else match sense with
    | None => no_path_result
    | Some z =>
        match z_nearest z with
        | None => no_path_result
        | Some i =>
            let near_goal := Rlt_bool (z_path_length z) (t_min_track c) ||
                             absless (z_remain_local z) (t_stop_dist c) || z_in_place z in
            let rotate := z_large_angle z || near_goal in
            let goal_end := Nat.eqb (z_local_goal z) (z_size z) in
            let dist_from_path :=
              if Nat.eqb i 0 then - z_nearest_norm z
              else if Nat.leb path_size (i + 1) then - z_nearest_norm z
              else z_dist_err z in
            let arrive := rotate && near_goal && negb goal_end in
            let zeroed := rotate && (Rlt_bool (z_path_length z) (t_stop_dist c) || z_in_place z) in
            let dist := if zeroed then 0 else z_dist_remains z in
            let dist_raw := if zeroed then 0 else z_dist_remains_raw z in
            let angle := if rotate && near_goal then z_goal_angle z else z_angle z in
            let angle_raw := if rotate then 0 else angle + z_yaw_raw z in
            if negb rotate && Rlt_bool (t_d_stop c) (Rabs dist_from_path) then
              Tresult FAR_FROM_PATH dist angle dist_raw angle_raw false 0
            else
              let at_goal := absless dist (t_goal_dist c) && absless angle (t_goal_ang c) &&
                             absless dist_raw (t_goal_dist c) && absless angle_raw (t_goal_ang c) &&
                             vel_ok (t_goal_lin c) lin && vel_ok (t_goal_angv c) ang && goal_end in
              Tresult (if at_goal then GOAL else FOLLOWING) dist angle dist_raw angle_raw rotate
                (if arrive then z_local_goal z else Nat.max done (i - 1))
        end
    end.

  (** Reference values computed in [control] from the measurements. *)
  Record refs := Refs {
    f_lin_vel : f32;             (* target_linear_vel *)
    f_v : f32;                   (* timeOptimalControl(signed_local_distance), 468 *)
    f_over : f32 -> bool;        (* |wref| > vel_[1], given v_lim_, 473 *)
    f_v2 : f32 -> f32;           (* 476 *)
    f_w : f32 -> f32 -> f32;     (* increment of w_lim_ (459, 486), given v_lim_, w_lim_ *)
    f_w_toc : f32 -> f32 }.      (* timeOptimalControl for turning, 453 *)

  (** Published messages. *)
  Inductive out := OCmd (v w : f32) | OStatus (s : status).

  (** [control], trajectory_tracker.cpp:410-513. *)
  Definition control (s : nst) (sense : nat -> option sensed) (f : refs) (lin ang : R) (dt : f32)
    : nst * list out :=
    let size := length (n_path s) in
    let done := if n_updated s
                then r_step_done (tracking_result (n_frame s) size (n_done s) lin ang (sense (n_done s)))
                else n_done s in
    let r := tracking_result (n_frame s) size done lin ang (sense done) in
    match r_status r with
    | NO_PATH | FAR_FROM_PATH =>
        (Nst (n_frame s) (n_path s) false done s0 s0 (n_odom s), [OCmd s0 s0; OStatus (r_status r)])
    | _ =>
        let '(v, w) :=
          if r_turning r then
            let v1 := lim_set (n_v s) s0 (f_lin_vel f) (t_acc_v c) dt in
            let w1 := if t_use_toc c
                      then lim_set (n_w s) (f_w_toc f (n_w s)) (t_vel_w c) (t_acc_w c) dt
                      else lim_increment (n_w s) (f_w f v1 (n_w s)) (t_vel_w c) (t_acc_w c) dt in
            (v1, w1)
          else
            let v1 := lim_set (n_v s) (f_v f) (f_lin_vel f) (t_acc_v c) dt in
            let v2 := if t_limit_by_avel c && f_over f v1
                      then lim_set v1 (f_v2 f v1) (f_lin_vel f) (t_acc_v c) dt else v1 in
            (v2, lim_increment (n_w s) (f_w f v2 (n_w s)) (t_vel_w c) (t_acc_w c) dt) in
        let stop := absless (r_dist r) (t_stop_dist c) && absless (r_angle r) (t_stop_ang c) &&
                    absless (r_dist_raw r) (t_stop_dist c) && absless (r_angle_raw r) (t_stop_ang c) in
        let '(v, w) := if stop then (s0, s0) else (v, w) in
        (Nst (n_frame s) (n_path s) false (r_step_done r) v w (n_odom s),
         [OCmd v w; OStatus (r_status r)])
    end.

  (** Callbacks: cbPath 286-301 (a path with a negative finite velocity is
      dropped), cbOdometry 303-356, cbTimer 358-379 ([None]: no transform from
      odometry to robot), cbOdomTimeout 381-398. *)
  Inductive ev :=
  | EPath (frame : bool) (vels : list f32)
  | EOdom (stamp : Z) (sense : nat -> option sensed) (f : refs) (lin ang : R) (dt : f32)
  | ETimer (m : option (nat -> option sensed)) (f : refs) (dt : f32)
  | EOdomTimeout.

  Definition bad_vel (x : f32) : bool := is_finite x && slt x (sneg s0).

  Definition step (s : nst) (e : ev) : nst * list out :=
    match e with
    | EPath frame vels =>
        (Nst frame (if existsb bad_vel vels then [] else vels) true 0 (n_v s) (n_w s) (n_odom s), [])
    | EOdom stamp sense f lin ang dt =>
        let '(s1, o) := if Z.eqb (n_odom s) 0 then (s, []) else control s sense f lin ang dt in
        (Nst (n_frame s1) (n_path s1) (n_updated s1) (n_done s1) (n_v s1) (n_w s1) stamp, o)
    | ETimer None _ _ => (s, [OStatus NO_PATH])
    | ETimer (Some sense) f dt => control s sense f 0 0 dt
    | EOdomTimeout =>
        (Nst (n_frame s) (n_path s) (n_updated s) (n_done s) s0 s0 (n_odom s), [OCmd s0 s0; OStatus NO_PATH])
    end.

  Definition run (es : list ev) : nst := fold_left (fun s e => fst (step s e)) es ninit.
  (** What is published while [e] is handled after the history [es]. *)
  Definition published (es : list ev) (e : ev) : list out := snd (step (run es) e).
End Tracker.
