(** Model of the collision test of the two links of planner_2dof_serial_joints: planner_cspace/src/planner_2dof_serial_joints.cpp, class LinkBody
    (95-156) and its use for the cells of the map (461-477, grid2Metric 520-526).
    Simplification: exact reals (the code uses float). *)
From Coq Require Import ZArith Reals.
From Verif Require Import Common Joint2D.
Local Open Scope R_scope.

(** 112-118: radius_[0], radius_[1], length_, origin_ and gain_.th_ (gain_.x_ and gain_.y_ are not used; vmax_ is in JointTraj.v). *)
Record link := Link { k_x : R; k_y : R; k_th : R; k_gain : R; k_len : R; k_rj : R; k_re : R }.
(** 126-133 end: the position of the free end (its th_ is not used). *)
Definition tip (l : link) (th : R) : R * R :=
  (k_x l + cos (k_th l + th * k_gain l) * k_len l, k_y l + sin (k_th l + th * k_gain l) * k_len l).
Definition joint (l : link) : R * R := (k_x l, k_y l).
(** 105-108 dist. *)
Definition dist (a b : R * R) : R := sqrt ((fst b - fst a) * (fst b - fst a) + (snd b - snd a) * (snd b - snd a)).
(** 134-155 isCollide. *)
Definition isCollide (l0 l1 : link) (th0 th1 : R) : bool :=
  if Rlt_dec (dist (tip l0 th0) (tip l1 th1)) (k_re l0 + k_re l1) then true
  else if Rlt_dec (dist (tip l0 th0) (joint l1)) (k_re l0 + k_rj l1) then true
  else if Rlt_dec (dist (tip l1 th1) (joint l0)) (k_re l1 + k_rj l0) then true
  else false.
(** 520-526 grid2Metric of one joint; also the angle of a published value in units of one cell (Joint2D.v). *)
Definition rad (res : Z) (x : R) : R := x * 2 * PI / IZR res.
(** 461-474: the test of one cell. *)
Definition cell_collides (l0 l1 : link) (res : Z) (p : jcell) : bool :=
  isCollide l0 l1 (rad res (IZR (fst p - res))) (rad res (IZR (snd p - res))).
