(** Model of the safety limiter node: limiting of velocity commands and the
    callbacks that decide which limit applies
    (/repo/safety_limiter/src/safety_limiter.cpp).

    Velocities and limit ratios are IEEE binary64 numbers, the C++ [double] of
    geometry_msgs/Twist and of [r_lim_] and [max_values_].  Times are integer
    nanoseconds (ros::Time, ros::Duration). *)
From Coq Require Import ZArith List Bool Reals.
From Flocq Require Import Core.Core IEEE754.BinarySingleNaN.
Import ListNotations.
Local Open Scope Z_scope.

Definition p64 : Prec_gt_0 53 := eq_refl.
Definition e64 : Prec_lt_emax 53 1024 := eq_refl.
Definition f64 := binary_float 53 1024.
Definition f64_of (m e : Z) : f64 := binary_normalize 53 1024 p64 e64 mode_NE m e false.
Definition fmul (a b : f64) : f64 := Bmult (prec_gt_0_ := p64) (prec_lt_emax_ := e64) mode_NE a b.
Definition fdiv (a b : f64) : f64 := Bdiv (prec_gt_0_ := p64) (prec_lt_emax_ := e64) mode_NE a b.
Definition flt (a b : f64) : bool := Bltb a b.
Definition fle (a b : f64) : bool := Bleb a b.
Definition f0 : f64 := B754_zero false.
Definition f1 : f64 := f64_of 1 0.
(** [std::min(a,b)] returns [a] unless [b < a]; [std::max(a,b)] returns [a]
    unless [a < b]. *)
Definition fmin (a b : f64) : f64 := if flt b a then b else a.
Definition fmax (a b : f64) : f64 := if flt a b then b else a.

(** geometry_msgs/Twist *)
Record twist := Twist {
  lin_x : f64; lin_y : f64; lin_z : f64;
  ang_x : f64; ang_y : f64; ang_z : f64 }.
Definition zero_twist : twist := Twist f0 f0 f0 f0 f0 f0.

(** [1.0 - EPSILON], EPSILON being the float constant 1e-6
    (safety_limiter.cpp:154, 561): float(1e-6) = 8796093 * 2^-43. *)
Definition lim_thr : f64 := f64_of (2 ^ 43 - 8796093) (-43).

(** [limit], safety_limiter.cpp:557-577.  The warning text is not modelled. *)
Definition limit (r : f64) (i : twist) : twist :=
  if flt r lim_thr then
    Twist (fmul (lin_x i) r) (fmul (lin_y i) r) (lin_z i)
          (ang_x i) (ang_y i) (fmul (ang_z i) r)
  else i.

Section Node.
  (** [std::hypot], a libm function: any function. *)
  Variable hyp : f64 -> f64 -> f64.

  (** [limitMaxVelocities], safety_limiter.cpp:579-603; [ml], [ma] are
      [max_values_[0]] and [max_values_[1]]. *)
  Definition limit_max (ml ma : f64) (i : twist) : twist :=
    let '(x, y) :=
      if fle ml f0 then (f0, f0)
      else
        let v := hyp (lin_x i) (lin_y i) in
        if flt ml v then
          let q := fdiv ml v in (fmul (lin_x i) q, fmul (lin_y i) q)
        else (lin_x i, lin_y i) in
    let z := if flt f0 (ang_z i) then fmin (ang_z i) ma else fmax (ang_z i) (Bopp ma) in
    Twist x y (lin_z i) (ang_x i) (ang_y i) z.

  (** The parameters the callbacks below use (cbParameter,
      safety_limiter.cpp:320-353); [c_hold] is [hold_], already the maximum of
      the configured hold time and one control period. *)
  Record config := Config {
    c_timeout : Z; c_disable_timeout : Z; c_hold : Z;
    c_max_lin : f64; c_max_ang : f64 }.

  (** Node state (members of SafetyLimiterNode).  [has_twist_] is not kept: it
      starts true and is never cleared.  [cloud_accum_], [cloud_clear_] and
      [twist_] only feed [predict], whose result is part of the event. *)
  Record st := St {
    s_cfg : config; s_r : f64; s_hold_off : Z; s_last_disable : Z;
    s_has_cloud : bool; s_wd_stop : bool; s_stamp : Z }.

  (** Initial state after the constructor, which runs cbParameter once
      (safety_limiter.cpp:163-262). *)
  Definition init (c : config) : st := St c f1 0 0 false false 0.

  (** Callback invocations.  [EPredict now r]: the prediction timer fires at
      [now] and [predict], if it is called, returns [r].  [ECloud stamp ok]: a
      point cloud arrives, [ok] says that it could be transformed. *)
  Inductive ev :=
  | ETwist (now : Z) (m : twist)
  | EPredict (now : Z) (r : f64)
  | ECloud (stamp : Z) (ok : bool)
  | EWatchdogTimer
  | EWatchdogReset
  | EDisable (now : Z) (on : bool)
  | EParam (c : config).

  (** The callbacks; the second component lists the published commands.
      cbTwist 710-734, cbPredictTimer 286-319, cbCloud 736-772,
      cbWatchdogTimer 276-285, cbWatchdogReset 271-275, cbDisable 773-779,
      cbParameter 320-353. *)
  Definition step (s : st) (e : ev) : st * list twist :=
    let c := s_cfg s in
    match e with
    | ETwist now m =>
        if now - s_last_disable s <? c_disable_timeout c then
          (s, [limit_max (c_max_lin c) (c_max_ang c) m])
        else if negb (s_has_cloud s) || s_wd_stop s then (s, [zero_twist])
        else
          (St c (if s_hold_off s <? now then f1 else s_r s) (s_hold_off s)
              (s_last_disable s) (s_has_cloud s) (s_wd_stop s) (s_stamp s),
           [limit_max (c_max_lin c) (c_max_ang c) (limit (s_r s) m)])
    | EPredict now r =>
        if negb (s_has_cloud s) then (s, [])
        else if c_timeout c <? now - s_stamp s then
          (St c f0 (s_hold_off s) (s_last_disable s) false (s_wd_stop s) (s_stamp s), [zero_twist])
        else
          (St c (if flt r (s_r s) then r else s_r s)
              (if flt r f1 then now + c_hold c else s_hold_off s)
              (s_last_disable s) (s_has_cloud s) (s_wd_stop s) (s_stamp s), [])
    | ECloud stamp ok =>
        if ok then
          (St c (s_r s) (s_hold_off s) (s_last_disable s) true (s_wd_stop s) stamp, [])
        else (s, [])
    | EWatchdogTimer =>
        (St c f0 (s_hold_off s) (s_last_disable s) (s_has_cloud s) true (s_stamp s), [zero_twist])
    | EWatchdogReset =>
        (St c (s_r s) (s_hold_off s) (s_last_disable s) (s_has_cloud s) false (s_stamp s), [])
    | EDisable now on =>
        if on then
          (St c (s_r s) (s_hold_off s) now (s_has_cloud s) (s_wd_stop s) (s_stamp s), [])
        else (s, [])
    | EParam c' =>
        (St c' f1 (s_hold_off s) (s_last_disable s) (s_has_cloud s) (s_wd_stop s) (s_stamp s), [])
    end.

  (** The state after a history of callbacks, and what the node publishes while
      it handles [e] after that history. *)
  Definition run (s : st) (es : list ev) : st := fold_left (fun s e => fst (step s e)) es s.
  Definition published (c : config) (es : list ev) (e : ev) : list twist :=
    snd (step (run (init c) es) e).
End Node.
