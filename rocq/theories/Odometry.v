(** Model of track_odometry/src/track_odometry.cpp: cbResetZ (132-135), cbImu
    (145-206) and cbOdom (207-292), in exact real arithmetic.  A position that is
    not finite in the code is [None].  Orientations are an abstract type with their
    action on vectors; the frame transformation inside cbImu is part of the event.
    Stamps, frame ids, twist, covariance, tf broadcast and [dist_] are not modelled. *)
From Coq Require Import Reals List.
From Verif Require Import Kalman.
Import ListNotations.
Local Open Scope R_scope.

Record vec3 := mkV { v_x : R; v_y : R; v_z : R }.
Definition vadd a b := mkV (v_x a + v_x b) (v_y a + v_y b) (v_z a + v_z b).
Definition vsub a b := mkV (v_x a - v_x b) (v_y a - v_y b) (v_z a - v_z b).
Definition vscale k a := mkV (k * v_x a) (k * v_y a) (k * v_z a).

Section Odometry.
  Context {Q : Type} (rotate : Q -> vec3 -> vec3) (qinv : Q -> Q).

  (** nav_msgs::Odometry fields used: stamp, position, orientation, angular.z. *)
  Record odom := mkOdom { o_stamp : R; o_pos : vec3; o_ori : Q; o_w : R }.

  (** Parameters read in the constructor (295-389). *)
  Record params := mkParams {
    negative_slip : bool; predict_tc : R; sigma_predict : R; sigma_odom : R; use_kf : bool; z_tc : R }.
  Variable P : params.

  Record ostate := mkO {
    raw_prev : option odom;          (* odomraw_prev_, None: !has_odom_ *)
    pos_prev : option vec3;          (* odom_prev_.pose.pose.position *)
    imu : option (R * Q);            (* angular_velocity.z and orientation, None: !has_imu_ *)
    slip : kf
  }.
  (** 383-388: [slip_.set(0.0, 0.1)]. *)
  Definition oinit : ostate := mkO None None None (mkKf (Fin 0) (Fin (1/10))).

  (** 240-256: the measurement fed to the slip filter. *)
  Definition slip_measurement (w_odom w_imu : R) : ext * ext :=
    if Rlt_dec (Rabs w_odom) (sigma_odom P) then (NaN, Inf)
    else if Req_EM_T (w_odom * w_odom - sigma_odom P * sigma_odom P) 0 then
      (if Req_EM_T (sigma_odom P) 0 then (NaN, NaN) else (NaN, Inf))
    else (Fin ((w_odom - w_imu) / (w_odom * Rabs w_odom)),
          Fin (sigma_odom P * Rabs (2 * w_odom * sigma_odom P / ((w_odom * w_odom - sigma_odom P * sigma_odom P) ^ 2)))).

  Inductive oevent :=
  | EvOdom (m : odom)
  | EvImu (v : option (R * Q))     (* Some: transformed reading; None: transform failed *)
  | EvImuNoBase                    (* base_link id not known yet: cbImu returns *)
  | EvResetZ (z : R).

  Definition ostep (s : ostate) (e : oevent) : ostate * list (option vec3) :=
    match e with
    | EvResetZ z =>
        (mkO (raw_prev s) (match pos_prev s with Some p => Some (mkV (v_x p) (v_y p) z) | None => None end) (imu s) (slip s), [])
    | EvImuNoBase => (s, [])
    | EvImu v => (mkO (raw_prev s) (pos_prev s) v (slip s), [])
    | EvOdom m =>
        match raw_prev s with
        | None => (mkO (Some m) (Some (o_pos m)) (imu s) (slip s), [])
        | Some prev =>
            match imu s with
            | None => (s, [])                                        (* 218-222 *)
            | Some (w_imu0, q_imu) =>
                let dt := o_stamp m - o_stamp prev in
                let w_odom := o_w m in
                let w_imu := if Rlt_dec (w_imu0 * w_odom) 0
                             then (if negative_slip P then w_imu0 else w_odom) else w_imu0 in
                let sl1 := predict (slip s)
                             (match kf_x (slip s) with Fin x => Fin (- x * dt * predict_tc P) | v => v end)
                             (Fin (dt * sigma_predict P)) in
                let slip_ratio := if Rlt_dec (sigma_odom P * 3) (Rabs w_odom) then w_imu / w_odom else 1 in
                let '(xi, si) := slip_measurement w_odom w_imu in
                let sl2 := measure sl1 xi si in
                let diff := vsub (o_pos m) (o_pos prev) in
                let v := rotate q_imu (rotate (qinv (o_ori m)) diff) in
                let factor := if use_kf P
                              then match kf_x sl2 with Fin x => Some (1 - x) | _ => None end
                              else Some slip_ratio in
                let pos :=
                  match pos_prev s, factor with
                  | Some p, Some k =>
                      let p' := vadd p (vscale k v) in
                      Some (if Rlt_dec 0 (z_tc P) then mkV (v_x p') (v_y p') (v_z p' * (1 - dt / z_tc P)) else p')
                  | _, _ => None
                  end in
                (mkO (Some m) pos (imu s) sl2, [pos])
            end
        end
    end.

  Fixpoint orun (s : ostate) (es : list oevent) : ostate * list (option vec3) :=
    match es with
    | [] => (s, [])
    | e :: es' => let '(s1, o1) := ostep s e in
                  let '(s2, o2) := orun s1 es' in (s2, o1 ++ o2)
    end.
End Odometry.
