(** Model of track_odometry/src/tf_projection.cpp (projectTranslation, 35-44) and of TfProjectionNode::process of tf_projection_node.cpp (98-157).
    Exact real arithmetic; rotations are the basis matrices of tf2::Transform (conversions to quaternions and back are left out; so is the rounding of the yaw to
    float).  A failing lookup skips the cycle. *)
From Coq Require Import Reals ZArith.
From Verif Require Import Common.
Local Open Scope R_scope.

Record vec3 := V3 { v_x : R; v_y : R; v_z : R }.
(** Rows of the basis. *)
Record mat3 := M3 { m_x : vec3; m_y : vec3; m_z : vec3 }.
Record tf := Tf { t_rot : mat3; t_org : vec3 }.

Definition dot (a b : vec3) : R := v_x a * v_x b + v_y a * v_y b + v_z a * v_z b.
Definition vadd (a b : vec3) : vec3 := V3 (v_x a + v_x b) (v_y a + v_y b) (v_z a + v_z b).
Definition mvec (m : mat3) (v : vec3) : vec3 := V3 (dot (m_x m) v) (dot (m_y m) v) (dot (m_z m) v).
Definition transpose (m : mat3) : mat3 :=
  M3 (V3 (v_x (m_x m)) (v_x (m_y m)) (v_x (m_z m))) (V3 (v_y (m_x m)) (v_y (m_y m)) (v_y (m_z m))) (V3 (v_z (m_x m)) (v_z (m_y m)) (v_z (m_z m))).
Definition mmul (a b : mat3) : mat3 :=
  let t := transpose b in M3 (mvec t (m_x a)) (mvec t (m_y a)) (mvec t (m_z a)).
(** tf2::Transform::operator* on points and transforms. *)
Definition tpoint (t : tf) (p : vec3) : vec3 := vadd (mvec (t_rot t) p) (t_org t).
Definition tmul (a b : tf) : tf := Tf (mmul (t_rot a) (t_rot b)) (tpoint a (t_org b)).

(** tf_projection.cpp:35-44. *)
Definition projectTranslation (trans target : tf) : tf :=
  tmul target (Tf (t_rot trans) (V3 (v_x (t_org trans)) (v_y (t_org trans)) 0)).

(** Rotation about the vertical axis, by its cosine and sine. *)
Definition rotz (c s : R) : mat3 := M3 (V3 c (- s) 0) (V3 s c 0) (V3 0 0 1).
Section Node.
  (** What tf2::getYaw gives for an x axis that is (within 0.99999) vertical, as cosine and sine. *)
  Variable vertical : mat3 -> R * R.
  (** tf2::Quaternion(tf2::Vector3(0, 0, 1), tf2::getYaw(.)). *)
  Definition yaw_of (m : mat3) : mat3 :=
    let c := v_x (m_x m) in let s := v_x (m_y m) in
    if Rlt_dec (Rabs (v_x (m_z m))) (99999 / 100000)
    then rotz (c / sqrt (c * c + s * s)) (s / sqrt (c * c + s * s))
    else rotz (fst (vertical m)) (snd (vertical m)).

  Record pconf := PConf { p_flat : bool; p_posture : bool; p_align : bool; p_tolerance : Z }.
  (** A published transform: whether it is static, its stamp, and the transform. *)
  Record sent := Sent { s_static : bool; s_stamp : Z; s_tf : tf }.
  (** 120-134; [trans] is the source in the surface's frame. *)
  Definition posture (c : pconf) (trans : tf) : tf :=
    if p_posture c then
      if p_align c then
        (* 122-128: rotates the origin as well *)
        tmul (Tf (mmul (yaw_of (t_rot trans)) (transpose (t_rot trans))) (V3 0 0 0)) trans
      else Tf (yaw_of (t_rot trans)) (t_org trans)
    else trans.
  (** 98-157: [stamp] of the source's transform (0: static). *)
  Definition process (c : pconf) (stamp : Z) (trans target : tf) : sent :=
    let stamp' := (if Z.eqb stamp 0 then stamp else stamp + p_tolerance c)%Z in
    let r := projectTranslation (posture c trans) target in
    let out := if p_flat c then Tf (yaw_of (t_rot r)) (t_org r) else r in
    Sent (Z.eqb stamp' 0) stamp' out.
End Node.
