(** Model of a robot driving straight ahead behind the safety limiter, in closed loop: the sensor sees the obstacles from
    where the limited commands have taken the robot
    (/repo/safety_limiter/src/safety_limiter.cpp:284-317, 396-577, 710-734).

    Simplifications.  Exact reals (float in the code).  The cloud of each prediction holds all obstacles, without
    downsampling, and is not older than the prediction; the limit of a prediction is held until the next one (C35); the
    robot moves with its speed of the cycle from one prediction to the next. *)
From Coq Require Import Reals List.
From Verif Require Import Polygon SafetyPredict SafetyCollide.
Import ListNotations.
Local Open Scope R_scope.

(** From one prediction to the next: the command [g_cmd] the prediction is made for (twist_), the limit [g_held] that
    holds before it (r_lim_), the share [g_ease] of the limited command the robot drives with (limitMaxVelocities 579-603,
    slower commands, the inertia of the robot), and the time [g_time]. *)
Record stage := Stage { g_cmd : R; g_held : R; g_ease : R; g_time : R }.

Section Drive.
  Variables (c : pcfg) (z0 z1 : R) (fp : list vec2) (world : list pt3).
  (** The obstacles as seen by a robot that has driven [s] along its x axis. *)
  Definition view (s : R) : list pt3 := map (fun p => Pt3 (px p - s) (py p) (pz p)) world.
  (** EPSILON, 154. *)
  Definition eps : R := / 1000000.
  (** limit, 557-577, of a forward command. *)
  Definition limited (r v : R) : R := if Rlt_dec r (1 - eps) then v * r else v.
  (** cbPredictTimer, 308-311, then cbTwist, 728: r_lim_ only decreases. *)
  Definition drive_stage (s : R) (g : stage) : R :=
    let r_cur := predict_cloud (g_cmd g) 0 0 (p_dt c) z0 z1 (fun l => l) fp c (view s) in
    let r := if Rlt_dec r_cur (g_held g) then r_cur else g_held g in
    s + g_ease g * limited r (g_cmd g) * g_time g.
  (** From where the robot starts; a simplification of the run of the timer and the callbacks. *)
  Definition drive_on (gs : list stage) : R := fold_left drive_stage gs 0.
End Drive.
