(** The simulated robot (planner_cspace/src/dummy_robot.cpp): it integrates
    the velocity commands it hears and publishes the odometry of the motion. *)
From Coq Require Import List Reals.
Import ListNotations.
Local Open Scope R_scope.

(** planner_cspace/src/dummy_robot.cpp:47-51 (members x_, y_, yaw_, v_, w_).
    Simplified: reals instead of double and float. *)
Record robot := Robot { rx : R; ry : R; ryaw : R; rv : R; rw : R }.

(** planner_cspace/src/dummy_robot.cpp:133-137 (the fields of the published
    odometry that vary; the transform of lines 121-127 has the same pose).
    Simplified: the quaternion is given by its yaw, so that the heading is not
    reduced modulo a turn. *)
Record odom := Odom { ox : R; oy : R; oyaw : R; ov : R; ow : R }.

(** What reaches the node: a velocity command (cbTwist), a pose to start from
    (cbInit) - [None] when the transform to "odom" is not available, otherwise
    the pose in the frame "odom" - and the passing of one cycle of spin().
    Simplified: the transformation of the pose by tf2 is not modelled, its
    result is given. *)
Inductive event := Twist (v w : R) | Init (p : option (R * R * R)) | Tick.

(** planner_cspace/src/dummy_robot.cpp:108 [const float dt = 0.01].
    Simplified: the exact hundredth. *)
Definition dt : R := / 100.

(** planner_cspace/src/dummy_robot.cpp:90-100 (constructor): the parameters
    initial_x, initial_y, initial_yaw and a robot at rest. *)
Definition start (x y yaw : R) : robot := Robot x y yaw 0 0.

(** planner_cspace/src/dummy_robot.cpp:117-119 (one cycle of spin(): the
    heading is advanced first and the robot moves along the new heading).
    Simplified: exact cosine and sine instead of cosf and sinf. *)
Definition tick (s : robot) : robot :=
  let yaw := ryaw s + rw s * dt in
  Robot (rx s + cos yaw * rv s * dt) (ry s + sin yaw * rv s * dt) yaw (rv s) (rw s).

(** planner_cspace/src/dummy_robot.cpp:129-138 (what is published in a cycle). *)
Definition odom_of (s : robot) : odom :=
  Odom (rx s) (ry s) (ryaw s) (rv s) (rw s).

(** planner_cspace/src/dummy_robot.cpp:60-64 (cbTwist), 65-87 (cbInit: a pose
    that cannot be transformed is ignored), 111-139 (one cycle of spin()). *)
Definition step (s : robot) (e : event) : robot * list odom :=
  match e with
  | Twist v w => (Robot (rx s) (ry s) (ryaw s) v w, [])
  | Init None => (s, [])
  | Init (Some (x, y, yaw)) => (Robot x y yaw 0 0, [])
  | Tick => let s' := tick s in (s', [odom_of s'])
  end.

(** planner_cspace/src/dummy_robot.cpp:106-140 (spin(): the callbacks and the
    cycles in the order in which they happen). *)
Fixpoint run (s : robot) (l : list event) : robot * list odom :=
  match l with
  | [] => (s, [])
  | e :: l' => let (s1, o1) := step s e in
               let (s2, o2) := run s1 l' in (s2, o1 ++ o2)
  end.
