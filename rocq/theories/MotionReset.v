(** Model of planner_cspace/src/motion_cache.cpp, MotionCache::reset (45-190): which motions are stored for every heading, and the
    band that is kept free of curves at the border of the map (max_range_; grid_astar_model_3dof.cpp:98-103).

    Lengths and angles are exact reals (the code uses float), as are the samples of straight motions (rationals, MotionCache.v).
    The samples of a curve are the values [computed] by the float code; [curve_point] is the point meant by it.
    Sorting the cells of a motion (171-187) and distance_ are left out. *)
From Coq Require Import QArith Reals.
From Verif Require Import Common Hysteresis PathGeom Primitives MotionCache.
Local Open Scope R_scope.

Section Fill.
  Variable C : prim_cfg.                        (* resolutions, number of headings and range *)
  Variables gres ires : R.                      (* grid_enumeration_resolution, interpolation_resolution *)
  Variable computed : Z -> vec -> list posef.   (* 146-148: posf of the steps of a curve *)

  (** 83-84: the displacement in the frame of the start. *)
  Definition motion_of (i : Z) (d : vec) : R * R * R :=
    rotate (IZR (vx d) * pr_lin C, IZR (vy d) * pr_lin C, IZR (vt d) * pr_ang C) (- IZR i * pr_ang C).
  (** 91. *)
  Definition straight_page (i : Z) (d : vec) : bool :=
    let '(_, _, t) := motion_of i d in if Rlt_dec (Rabs (sin t)) (1/10) then true else false.
  (** 88-90. *)
  Definition total_step (d : vec) : Z := lroundR (sqrt (IZR (vx d * vx d + vy d * vy d)) / gres).
  Definition interp_step : Z := Z.max 1 (lroundR (ires / gres)).
  (** 120-148: the point of the curve at a ratio of its steps, in cells. *)
  Definition curve_point (i : Z) (d : vec) (ratio : R) : R * R :=
    let '(mx, my, mt) := motion_of i d in
    let yaw := IZR i * pr_ang C in let yaw_e := IZR (vt d) * pr_ang C in
    let r1 := arc_r1 mx my mt in let r2 := arc_r2 mx mt in
    let dyaw := normalize (yaw_e - yaw) in
    let cx := IZR (vx d) * pr_lin C + r2 * cos (yaw_e + PI / 2) in
    let cy := IZR (vy d) * pr_lin C + r2 * sin (yaw_e + PI / 2) in
    let cx_s := r1 * cos (yaw + PI / 2) in
    let cy_s := r1 * sin (yaw + PI / 2) in
    let r := r1 * (1 - ratio) + r2 * ratio in
    let cx2 := cx_s * (1 - ratio) + cx * ratio in
    let cy2 := cy_s * (1 - ratio) + cy * ratio in
    let cyaw := yaw + ratio * dyaw in
    ((cx2 - r * cos (cyaw + PI / 2)) / pr_lin C, (cy2 - r * sin (cyaw + PI / 2)) / pr_lin C).

  (** 91-117 and 120-167. *)
  Definition page_of (i : Z) (d : vec) : page :=
    build_page (pr_angle C) interp_step d (if straight_page i d then straight_samples i d (total_step d) else computed i d).
  (** 62-72: the displacements that are stored. *)
  Definition stored : list vec :=
    flat_map (fun x => flat_map (fun y =>
      if ((x =? 0) && (y =? 0) || (pr_range C * pr_range C <? x * x + y * y))%Z then []
      else map (fun t => [x; y; t]) (range_excl 0 (pr_angle C))) (range_incl (- pr_range C) (pr_range C))) (range_incl (- pr_range C) (pr_range C)).
  (** cache_; a heading outside of its pages is never looked up (motion_cache.h:76-84). *)
  Definition reset_cache : cache := fun i =>
    if ((0 <=? i) && (i <? pr_angle C))%Z then map (fun d => (d, page_of i d)) stored else [].
  (** 55, 106-107, 189: max_range_, over the cells of the straight motions only. *)
  Definition widen (m c : vec) : vec := [Z.max (vx m) (Z.abs (vx c)); Z.max (vy m) (Z.abs (vy c)); Z.max (vt m) (Z.abs (vt c))].
  Definition max_range : vec :=
    fold_left (fun m i => fold_left (fun m d => if straight_page i d then fold_left widen (pg_motion (page_of i d)) m else m) stored m)
      (range_excl 0 (pr_angle C)) [0; 0; 0]%Z.
End Fill.
