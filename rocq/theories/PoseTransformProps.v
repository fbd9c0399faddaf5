(** C77: poses in another frame. *)
From Coq Require Import Reals ZArith List Lra.
From Verif Require Import Common TfProjection TfProjectionProps PoseTransform.
Import ListNotations.
Local Open Scope R_scope.

(** ** Specification *)
(** A point fixed to the pose, given in the pose's own coordinates, in the frame of the message. *)
Definition point_of (m : pmsg) (q : vec3) : vec3 := tpoint (p_pose m) q.
(** The variance of the position in the direction [u]. *)
Definition variance (c : mat3) (u : vec3) : R := dot u (mvec c u).
(** The message [o] is the pose [m] seen from the frame [to] through the transform [t], with the covariance as it was sent. *)
Definition answers (to : Z) (o : pmsg) (e : tmsg * pmsg) : Prop :=
  p_frame o = to /\ p_stamp o = t_stamp (fst e) /\ (forall q, point_of o q = tpoint (t_tf (fst e)) (point_of (snd e) q)) /\
  p_cov o = p_cov (snd e) /\ p_cov_rest o = p_cov_rest (snd e).
(** The poses that can be transformed, with their transforms. *)
Fixpoint transformable (es : list (option tmsg * pmsg)) : list (tmsg * pmsg) :=
  match es with
  | [] => []
  | (Some t, m) :: es' => (t, m) :: transformable es'
  | (None, _) :: es' => transformable es'
  end.

(** ** The callback *)
(** Everything fixed to the pose is where the transform takes it: position and orientation are those of the same pose seen from the frame [to]. *)
Theorem C77_callback_moves_the_whole_pose_partial : forall to t m o q,
  In o (cbPose to (Some t) m) ->
  p_frame o = to /\ p_stamp o = t_stamp t /\ point_of o q = tpoint (t_tf t) (point_of m q) /\
  p_cov o = p_cov m /\ p_cov_rest o = p_cov_rest m.
Proof.
  intros to t m o q [<-|[]]. cbn [p_frame p_stamp]. split; [reflexivity|]. split; [reflexivity|]. split; [|split; reflexivity]. unfold point_of, tpoint, tmul. cbn [p_pose t_rot t_org]. rewrite mmul_mvec.
  unfold tpoint. destruct t as [st [r o]], m as [f s [pr po] c e]. cbn [t_tf p_pose t_rot t_org].
  apply v3_eq; unfold vadd, mvec, dot; cbn [v_x v_y v_z m_x m_y m_z]; ring.
Qed.
(** Poses keep their distance, and with it all of the geometry between them. *)
Theorem C77_callback_keeps_distances_partial : forall to t1 t2 m1 m2 o1 o2 q1 q2,
  rotation (t_rot (t_tf t1)) -> t_tf t1 = t_tf t2 -> In o1 (cbPose to (Some t1) m1) -> In o2 (cbPose to (Some t2) m2) ->
  dist (point_of o1 q1) (point_of o2 q2) = dist (point_of m1 q1) (point_of m2 q2).
Proof.
  intros to t1 t2 m1 m2 o1 o2 q1 q2 H E I1 I2.
  destruct (C77_callback_moves_the_whole_pose_partial _ _ _ _ q1 I1) as (_ & _ & -> & _).
  destruct (C77_callback_moves_the_whole_pose_partial _ _ _ _ q2 I2) as (_ & _ & -> & _).
  rewrite <- E. apply tpoint_dist. exact H.
Qed.
(** One message per pose that can be transformed, in the order of the poses; none for the others. *)
Theorem C77_callback_answers_in_order_partial : forall to es,
  length (node_run to true es) = length (filter (fun e => match fst e with Some _ => true | None => false end) es) /\
  forall e1 e2, node_run to true (e1 ++ e2) = node_run to true e1 ++ node_run to true e2.
Proof.
  intros to es. split.
  - unfold node_run. induction es as [|[[t|] m] es IH]; cbn [flat_map filter fst snd cbPose app length]; [reflexivity|f_equal; exact IH|exact IH].
  - intros e1 e2. apply flat_map_app.
Qed.
(** The messages are the answers to the poses that can be transformed, one for each and in their order. *)
Theorem C77_callback_answers_each_pose_partial : forall to es, Forall2 (answers to) (node_run to true es) (transformable es).
Proof.
  intros to es. unfold node_run. induction es as [|[[t|] m] es IH]; cbn [flat_map transformable fst snd]; [constructor| |exact IH].
  change (cbPose to (Some t) m) with [PMsg to (t_stamp t) (tmul (t_tf t) (p_pose m)) (p_cov m) (p_cov_rest m)].
  cbn [app]. constructor; [|exact IH].
  assert (H : forall q, _) by (intros q; exact (C77_callback_moves_the_whole_pose_partial to t m _ q (or_introl eq_refl))).
  unfold answers. cbn [fst snd]. split; [reflexivity|]. split; [reflexivity|]. split; [|split; reflexivity].
  intros q. apply (H q).
Qed.
(** The covariance is copied, although its axes are those of the frame: after a quarter turn the certain direction is reported as the uncertain one. *)
Definition quarter : tmsg := TMsg 0 (Tf (rotz 0 1) (V3 0 0 0)).
Definition narrow : pmsg := PMsg 1 5 (Tf I3 (V3 0 0 0)) (M3 (V3 4 0 0) (V3 0 1 0) (V3 0 0 0)) 0.
Theorem C77_covariance_follows_the_frame_refuted :
  exists to t m o u, rotation (t_rot (t_tf t)) /\ In o (cbPose to (Some t) m) /\
    variance (p_cov o) (mvec (t_rot (t_tf t)) u) <> variance (p_cov m) u.
Proof.
  exists 0%Z, quarter, narrow, (PMsg 0 0 (tmul (t_tf quarter) (p_pose narrow)) (p_cov narrow) 0), (V3 1 0 0).
  split; [apply rotation_rotz; lra|]. split; [left; reflexivity|].
  unfold variance, quarter, narrow, rotz, mvec, dot. cbn [p_cov t_tf t_rot m_x m_y m_z v_x v_y v_z]. lra.
Qed.

(** ** The program *)
(** Whatever is sent to it, it publishes nothing. *)
Theorem C77_program_publishes_transformed_poses_refuted : forall to es, program to es = [].
Proof. reflexivity. Qed.

(** The hypotheses are met. *)
Example quarter_rotation : rotation (t_rot (t_tf quarter)).
Proof. apply rotation_rotz. lra. Qed.
Example quarter_answer : exists o, In o (cbPose 0 (Some quarter) (PMsg 1 5 (Tf I3 (V3 2 0 1)) I3 0)) /\ t_org (p_pose o) = V3 0 2 1.
Proof.
  eexists. split; [left; reflexivity|]. unfold quarter, rotz, tmul, tpoint, vadd, mvec, dot. cbn [p_pose t_tf t_rot t_org m_x m_y m_z v_x v_y v_z]. f_equal; ring.
Qed.
Example two_events : length (node_run 0 true [(Some quarter, narrow); (None, narrow); (Some quarter, narrow)]) = 2%nat.
Proof. reflexivity. Qed.

Example answers_example : let m := PMsg 1 5 (Tf I3 (V3 2 0 1)) I3 7 in
  transformable [(Some quarter, m); (None, narrow); (Some quarter, narrow)] = [(quarter, m); (quarter, narrow)] /\
  length (node_run 0 true [(Some quarter, m); (None, narrow); (Some quarter, narrow)]) = 2%nat.
Proof. split; reflexivity. Qed.
Print Assumptions C77_callback_moves_the_whole_pose_partial.
Print Assumptions C77_callback_keeps_distances_partial.
Print Assumptions C77_callback_answers_in_order_partial.
Print Assumptions C77_callback_answers_each_pose_partial.
Print Assumptions C77_covariance_follows_the_frame_refuted.
Print Assumptions C77_program_publishes_transformed_poses_refuted.
