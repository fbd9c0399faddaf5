(** Model of how the trajectory tracker approaches a stop of its path and turns in place: the velocities it commands, in
    closed loop with a robot that does what it is told
    (/repo/trajectory_tracker/include/trajectory_tracker/basic_control.h:38-60, 77-92,
     /repo/trajectory_tracker/src/trajectory_tracker.cpp:415-500, 560-562, 593, 644, 683).

    Simplifications.  Exact reals (float and double in the code; [BasicControl] has the limiter in binary32).  The robot
    is on a straight stretch with the right heading, it moves exactly with the last command from one control cycle to the
    next, and the stretch is represented by the way left to the stop, negative behind it. *)
From Coq Require Import Reals List.
Import ListNotations.
Local Open Scope R_scope.

(** basic_control.h 38-41 timeOptimalControl. *)
Definition toc (x acc : R) : R := - (if Rlt_dec x 0 then -1 else 1) * sqrt (Rabs (2 * x * acc)).
(** 43-51 clip. *)
Definition clip_r (v mx : R) : R := if Rlt_dec mx v then mx else if Rlt_dec v (- mx) then - mx else v.
(** 77-92 VelAccLimitter::set; the check for infinities has no counterpart. *)
Definition set_r (p v vel acc dt : R) : R :=
  let v := clip_r v vel in
  if Rlt_dec (p + dt * acc) v then p + dt * acc else if Rlt_dec v (p - dt * acc) then p - dt * acc else v.

Section Approach.
  (** acc_[0], acc_toc_[0], look_forward_, vel_[1], limit_vel_by_avel_ (trajectory_tracker.cpp 219-262); the direction of
      the stretch: 1 forward, -1 backward (sign_vel, 608-613). *)
  Variables (acc acc_toc look vel_w : R) (limit_by_avel : bool) (sign : R).

  (** What a control cycle does (430-500), given target_linear_vel: the robot is turning or within min_track_path, the
      large angle or the stop tolerance (445-447); it follows a path of curvature [curv] (465-479); it is within all stop
      tolerances, or the path is lost (432-442, 492-500). *)
  Inductive mode := Turn (vel : R) | Follow (vel curv : R) | Clear.

  (** The way left, and v_lim_. *)
  Record car := Car { left : R; speed : R }.

  (** One cycle, [dt] after the one before.  The predicted position (560-562) is look * v_lim_ ahead. *)
  Definition command (way v : R) (m : mode) (dt : R) : R :=
    match m with
    | Clear => 0
    | Turn vel => set_r v 0 vel acc dt
    | Follow vel curv =>
        let remain := way - sign * (v * look) in
        let v1 := set_r v (toc (- remain * sign) acc_toc) vel acc dt in
        let wref := Rabs v1 * curv in
        if andb limit_by_avel (if Rlt_dec vel_w (Rabs wref) then true else false)
        then set_r v1 ((if Rlt_dec v1 0 then -1 else 1) * Rabs (vel_w / curv)) vel acc dt
        else v1
    end.
  (** The robot has moved with the last command (simplification: exactly), then control runs (409-500). *)
  Definition cycle (s : car) (i : mode * R) : car :=
    let way := left s - sign * speed s * snd i in
    Car way (command way (speed s) (fst i) (snd i)).
  (** The robot starts at rest, [way] before the stop. *)
  Definition approach (way : R) (is : list (mode * R)) : car := fold_left cycle is (Car way 0).
End Approach.

Section Turning.
  (** acc_[1], acc_toc_[1], time_optimal_control_future_gain_, vel_[1] (219-265). *)
  Variables (acc acc_toc gain vel : R).

  (** angleNormalized, basic_control.h 53-60; the code leaves a half turn to the left as it is, here it becomes one to
      the right. *)
  Definition wrapped (a : R) : R := a - 2 * PI * IZR (Int_part ((a + PI) / (2 * PI))).

  (** The heading of the robot minus the wanted one, with full turns counted, and w_lim_. *)
  Record turner := Turner { angle : R; rate : R }.

  (** One cycle of a turn in place with use_time_optimal_control_ (449-454), [dt] after the one before; with [clear] it is
      one within all stop tolerances, or without a path (432-442, 492-500). *)
  Definition turn_cycle (s : turner) (i : bool * R) : turner :=
    let '(clear, dt) := i in
    let heading := angle s + rate s * dt in
    let angle_remains := wrapped heading in                               (* 644 *)
    Turner heading
      (if clear then 0 else set_r (rate s) (toc (angle_remains + rate s * dt * gain) acc_toc) vel acc dt).
  (** The robot starts at rest. *)
  Definition turn (th : R) (is : list (bool * R)) : turner := fold_left turn_cycle is (Turner th 0).
End Turning.
