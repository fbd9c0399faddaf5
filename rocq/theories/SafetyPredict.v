(** Model of the collision prediction of the safety limiter
    (SafetyLimiterNode::predict and the time horizon computed by cbParameter,
    /repo/safety_limiter/src/safety_limiter.cpp).

    Simplifications: real arithmetic instead of float/double; whether some
    point of the cloud is inside the footprint after [k] steps of motion is a
    given predicate [col] (transformation, kd-tree search and polygon test of
    lines 374-489 are not modelled); the loop time [k*dt] is exact. *)
From Coq Require Import ZArith List Bool Reals.
From Flocq Require Import Core.Raux.
Import ListNotations.
Local Open Scope R_scope.

(** Parameters (cbParameter, safety_limiter.cpp:320-353); index v: linear
    ([0]), w: angular ([1]). *)
Record pcfg := Pcfg {
  p_hz : R; p_dt : R;
  p_vel_v : R; p_acc_v : R; p_margin_v : R; p_escape_v : R;
  p_vel_w : R; p_acc_w : R; p_margin_w : R; p_escape_w : R;
  p_allow_empty : bool }.

(** [tmax_], safety_limiter.cpp:343-351. *)
Definition tmax (c : pcfg) : R :=
  let t0 := p_vel_v c / p_acc_v c in
  let t1 := p_vel_w c / p_acc_w c in
  let m0 := if Rlt_bool 0 t0 then t0 else 0 in
  let m1 := if Rlt_bool m0 t1 then t1 else m0 in
  m1 * (3 / 2) + Rmax (p_margin_v c / p_vel_v c) (p_margin_w c / p_vel_w c).

(** Number of iterations of [for (float t = 0; t < tmax_; t += dt_)], 459. *)
Definition n_steps (c : pcfg) : nat := Z.to_nat (Zceil (tmax c / p_dt c)).

Section Predict.
  Variable c : pcfg.
  (** [linear_vel] (457, non-negative) and [twist_.angular.z]. *)
  Variables (v w : R).
  Variable col : nat -> bool.

  (** Loop variables, safety_limiter.cpp:450-456. *)
  Record ls := Ls { l_d : R; l_yaw : R; l_de : R; l_ye : R; l_now : bool }.
  Definition ls0 : ls := Ls 0 0 0 0 false.

  (** One iteration, 461-512: [inl] continues, [inr] leaves the loop with
      [has_collision] set. *)
  Definition iter (k : nat) (s : ls) : ls + ls :=
    let s1 :=
      match k with
      | O => s
      | S _ => Ls (l_d s + v * p_dt c) (l_yaw s + w * p_dt c)
                  (l_de s - v * p_dt c) (l_ye s - Rabs w * p_dt c) (l_now s)
      end in
    if col k then
      let d := l_d s1 - v * p_dt c in
      let yaw := l_yaw s1 - w * p_dt c in
      let s2 := match k with
                | O => Ls d yaw (p_escape_v c) (p_escape_w c) true
                | S _ => Ls d yaw (l_de s1) (l_ye s1) (l_now s1)
                end in
      if Rle_bool (l_de s2) 0 || Rle_bool (l_ye s2) 0 then
        inr (if l_now s2 then Ls 0 0 (l_de s2) (l_ye s2) true else s2)
      else inl s2
    else inl s1.

  Fixpoint loop (fuel k : nat) (s : ls) : ls + ls :=
    match fuel with
    | O => inl s
    | S f => match iter k s with
             | inl s' => loop f (S k) s'
             | inr s' => inr s'
             end
    end.

  (** Delay compensation, 530-548. *)
  Definition delay : R := 1 / p_hz c + p_dt c.
  Definition compensated (d acc margin : R) : R :=
    let a := acc * (delay * delay) in
    Rmax 0 (Rabs d - margin + a - sqrt (a * a + 2 * a * Rabs d)).
  (** [sqrt(|2 acc d|) / speed], replaced by 1 if it is not finite, 549-556. *)
  Definition speed_ratio (acc d speed : R) : R :=
    if Req_bool speed 0 then 1 else sqrt (Rabs (2 * acc * d)) / speed.

  (** The part of [predict] after the point cloud has been prepared, 450-557. *)
  Definition predict_motion : R :=
    match loop (n_steps c) 0 ls0 with
    | inl _ => 1
    | inr s =>
        let d := compensated (l_d s) (p_acc_v c) (p_margin_v c) in
        let y := compensated (l_yaw s) (p_acc_w c) (p_margin_w c) in
        Rmin (speed_ratio (p_acc_v c) d v) (speed_ratio (p_acc_w c) y (Rabs w))
    end.
End Predict.

(** What [predict] finds when it prepares the point cloud (354-436): no points
    at all or none in the height range, no transform, or points. *)
Inductive cloud := CloudEmpty | CloudNoTransform | CloudPoints (col : nat -> bool).

Definition predict (c : pcfg) (v w : R) (cl : cloud) : R :=
  match cl with
  | CloudEmpty => if p_allow_empty c then 1 else 0
  | CloudNoTransform => 0
  | CloudPoints col => predict_motion c v w col
  end.
