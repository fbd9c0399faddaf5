(** Model of map_organizer/src/pose_transform.cpp: the callback (53-75) and what the program built from it does (93-101).
    Simplifications: exact reals; orientations are the basis matrices of TfProjection.v; of the covariance the block of the position is a matrix and the rest
    is opaque; a lookup of tf is an argument of each event. *)
From Coq Require Import Reals ZArith List.
From Verif Require Import Common TfProjection.
Import ListNotations.

(** geometry_msgs/PoseWithCovarianceStamped. *)
Record pmsg := PMsg { p_frame : Z; p_stamp : Z; p_pose : tf; p_cov : mat3; p_cov_rest : Z }.
(** geometry_msgs/TransformStamped found by lookupTransform(to_, msg frame, Time(0)): its stamp and the transform. *)
Record tmsg := TMsg { t_stamp : Z; t_tf : tf }.

Section Node.
  (** parameter to_frame *)
  Variable to : Z.
  (** cbPose, 53-75: tf2::doTransform (65) takes the header of the transform, the covariance is copied (66).  [None]: the lookup threw. *)
  Definition cbPose (trans : option tmsg) (msg : pmsg) : list pmsg :=
    match trans with
    | None => []
    | Some t => [PMsg to (t_stamp t) (tmul (t_tf t) (p_pose msg)) (p_cov msg) (p_cov_rest msg)]
    end.
  (** What a program does with the messages sent to it, if it has a node that is subscribed ([true]) or none. *)
  Definition node_run (subscribed : bool) (es : list (option tmsg * pmsg)) : list pmsg :=
    if subscribed then flat_map (fun e => cbPose (fst e) (snd e)) es else [].
  (** main, 93-101.  Line 97, [PoseTransformNode ptn();], declares a function that returns a node.  No node is constructed. *)
  Definition program (es : list (option tmsg * pmsg)) : list pmsg := node_run false es.
End Node.
