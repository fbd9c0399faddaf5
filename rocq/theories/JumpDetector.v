(** Model of planner_cspace/include/planner_cspace/jump_detector.h, in exact real
    arithmetic and in the plane: a tf2::Transform is a rotation (cosine, sine) and a
    translation.  tf2::getYaw is an arbitrary function of the rotation. *)
From Coq Require Import Reals List.
Import ListNotations.
Local Open Scope R_scope.

Record tf := mkTf { t_c : R; t_s : R; t_x : R; t_y : R }.

(** tf2::Transform::operator*, inverse (tf2/LinearMath/Transform.h, a dependency). *)
Definition tmul (a b : tf) : tf :=
  mkTf (t_c a * t_c b - t_s a * t_s b) (t_s a * t_c b + t_c a * t_s b)
       (t_c a * t_x b - t_s a * t_y b + t_x a) (t_s a * t_x b + t_c a * t_y b + t_y a).
Definition tinv (a : tf) : tf :=
  mkTf (t_c a) (- t_s a) (- (t_c a * t_x a + t_s a * t_y a)) (t_s a * t_x a - t_c a * t_y a).
Definition tid : tf := mkTf 1 0 0 0.

Section Detector.
  Variables (yaw_of : R -> R -> R) (pos_jump yaw_jump : R).

  (** jump_detector.h:50-61. *)
  Record jstate := mkJ { j_base : tf; j_map : tf; j_init : bool }.
  (** jump_detector.h:64-70. *)
  Definition jinit : jstate := mkJ tid tid false.

  (** jump_detector.h:84-124; [None]: a lookup threw. *)
  Definition detectJump (st : jstate) (sample : option (tf * tf)) : jstate * bool :=
    match sample with
    | None => (st, false)
    | Some (base, map) =>
        let diff := tmul (tmul (tinv map) (j_map st)) (tmul (tinv (j_base st)) base) in
        let st' := mkJ base map true in
        if negb (j_init st) then (st', false)
        else
          let pos_diff := sqrt (t_x diff * t_x diff + t_y diff * t_y diff) in
          let yaw_diff := yaw_of (t_c diff) (t_s diff) in
          (st', if Rlt_dec pos_jump pos_diff then true
                else if Rlt_dec yaw_jump (Rabs yaw_diff) then true else false)
    end.

  Fixpoint jrun (st : jstate) (l : list (option (tf * tf))) : list bool :=
    match l with
    | [] => []
    | s :: l' => let '(st', b) := detectJump st s in b :: jrun st' l'
    end.
End Detector.
