(** Model of how planner_3d derives its working parameters from its configuration and the map: planner_cspace/src/planner_3d.cpp, cbParameter (1399-1499),
    resetGridAstarModel (1365-1397) and the part of cbMap that concerns it (1002-1049); grid_astar_model_3dof.cpp, constructor (50-119) and updateCostParameters (121-131);
    distance_map.cpp, init (198-212).
    Lengths, angles and speeds are real numbers (the code computes the quotients in float or double). *)
From Coq Require Import Reals ZArith List.
From Flocq Require Import Core.
From Verif Require Import Common MotionCache GridMetric StartPredict Hysteresis.
Import ListNotations.
Local Open Scope R_scope.

(** Planner3DConfig, the fields that are converted to cells or handed on; [g_cc] stands for the coefficients that are copied unchanged (1408-1422), [A] for their type. *)
Record config {A : Type} := Config { g_search : R; g_hist : R; g_hist_max : R; g_local : R; g_longcut : R; g_esc : R; g_esc_ratio : R; g_tol_lin : R; g_tol_ang : R;
  g_goal_lin : R; g_goal_ang : R; g_tesc_lin : R; g_tesc_ang : R; g_vel : R; g_ang_vel : R; g_weight_ang : R; g_cc : A }.
Arguments config : clear implicits.
(** 1368-1380. *)
Record cells := Cells { c_range : Z; c_hist : Z; c_hist_max : Z; c_local : Z; c_esc : Z; c_esc_min : Z; c_esc_angle : Z; c_tol_lin : Z; c_tol_ang : Z;
  c_goal_lin : Z; c_goal_ang : Z; c_tesc_lin : Z; c_tesc_ang : Z }.
(** grid_astar_model.h:80-112: map_info_, euclid_cost_coef_, local_range_, cc_ (with angle_resolution_aspect_), range_. *)
Record model {A : Type} := Model { m_map : pmap; m_ec : R * R * R; m_local : Z; m_aspect : R; m_cc : A; m_range : Z }.
Arguments model : clear implicits.
(** DistanceMap::Params (distance_map.h) and goal_; None: goal_ is (-1,-1,-1) and the values are cleared. *)
Record dparams := Dparams { d_ec : R * R * R; d_range : Z; d_local : Z; d_longcut : Z; d_w : Z; d_h : Z; d_res : R }.

Section Node.
  Variable A : Type.
  (** The members: the configuration last received, map_info_, the ranges in cells, ec_, model_, the parameters of the distance map. *)
  Record node := Node { n_cfg : config A; n_map : pmap; n_cells : option cells; n_ec : R * R * R; n_aspect : R; n_model : option (model A); n_dist : option dparams }.

  (** 1002-1005 and 1455-1458. *)
  Definition ec_of (c : config A) : R * R * R := (/ g_vel c, / g_vel c, g_weight_ang c / g_ang_vel c).
  (** 1369-1381; the conversion to int truncates, std::lround rounds half away from zero. *)
  Definition cells_of (c : config A) (M : pmap) : cells :=
    let r := mi_res (pm_info M) in let a := mi_ang (pm_info M) in
    Cells (Ztrunc (g_search c / r)) (lroundR (g_hist c / r)) (lroundR (g_hist_max c / r)) (lroundR (g_local c / r)) (lroundR (g_esc c / r)) (lroundR (g_esc c * g_esc_ratio c / r))
      (pm_a M / 8) (lroundR (g_tol_lin c / r)) (lroundR (g_tol_ang c / a)) (lroundR (g_goal_lin c / r)) (lroundR (g_goal_ang c / a)) (lroundR (g_tesc_lin c / r)) (lroundR (g_tesc_ang c / a)).
  (** 1382. *)
  Definition aspect_of (M : pmap) : R := 2 / tan (mi_ang (pm_info M)).
  (** 1384-1396.  Comparing with range_ before it was ever set, and using model_ before it exists, are undefined. *)
  Definition reset (force : bool) (n : node) : outcome node :=
    let c := cells_of (n_cfg n) (n_map n) in let asp := aspect_of (n_map n) in
    let new := Model A (n_map n) (n_ec n) (c_local c) asp (g_cc (n_cfg n)) (c_range c) in
    if force then Ok (Node (n_cfg n) (n_map n) (Some c) (n_ec n) asp (Some new) (n_dist n))
    else match n_cells n, n_model n with
         | Some c0, Some m0 =>
             Ok (Node (n_cfg n) (n_map n) (Some c) (n_ec n) asp
                   (Some (if (c_range c0 =? c_range c)%Z then Model A (m_map m0) (n_ec n) (c_local c) asp (g_cc (n_cfg n)) (m_range m0) else new)) (n_dist n))
         | _, _ => UB
         end.
  (** 1035-1045 and 1463-1473: the parameters handed to the distance map; init clears it. *)
  Definition init_dist (n : node) : outcome node :=
    match n_cells n with
    | Some c => Ok (Node (n_cfg n) (n_map n) (n_cells n) (n_ec n) (n_aspect n) (n_model n)
        (Some (Dparams (n_ec n) (c_range c) (c_local c) (lroundR (g_longcut (n_cfg n) / mi_res (pm_info (n_map n)))) (pm_w (n_map n)) (pm_h (n_map n)) (mi_res (pm_info (n_map n))))))
    | None => UB
    end.
  Definition Reqb (x y : R) : bool := if Req_EM_T x y then true else false.
  (** 1399-1477. *)
  Definition cb_parameter (c : config A) (n : node) : outcome node :=
    let n := Node c (n_map n) (n_cells n) (ec_of c) (n_aspect n) (n_model n) (n_dist n) in
    if negb (Reqb (mi_res (pm_info (n_map n))) 0) && negb (Reqb (mi_ang (pm_info (n_map n))) 0) then
      do n <- reset false n; init_dist n
    else Ok n.
  (** 1002-1049. *)
  Definition cb_map (M : pmap) (n : node) : outcome node :=
    let changed := negb (Reqb (mi_res (pm_info (n_map n))) (mi_res (pm_info M))) || negb (Reqb (mi_ang (pm_info (n_map n))) (mi_ang (pm_info M))) in
    let n := Node (n_cfg n) M (n_cells n) (ec_of (n_cfg n)) (n_aspect n) (n_model n) (n_dist n) in
    do n <- (if changed then reset true n else Ok n); init_dist n.

  Inductive event := EvConfig (c : config A) | EvMap (M : pmap).
  Definition step (n : node) (e : event) : outcome node := match e with EvConfig c => cb_parameter c n | EvMap M => cb_map M n end.
  (** 1362: setCallback calls cbParameter once, before any map; map_info_ is zero-initialised. *)
  Definition start (c : config A) : outcome node :=
    cb_parameter c (Node c (PMap (mkMI 0 0 0 0) 0 0 0) None (ec_of c) 0 None None).
  Definition run (c : config A) (es : list event) : outcome node := do n <- start c; foldM step es n.
End Node.
Arguments n_cfg {A}. Arguments n_map {A}. Arguments n_cells {A}. Arguments n_ec {A}. Arguments n_aspect {A}. Arguments n_model {A}. Arguments n_dist {A}.
Arguments ec_of {A}. Arguments cells_of {A}. Arguments EvConfig {A}. Arguments EvMap {A}. Arguments run {A}. Arguments step {A}.
Arguments cb_map {A}. Arguments cb_parameter {A}. Arguments reset {A}. Arguments init_dist {A}. Arguments start {A}. Arguments Node {A}. Arguments Model {A}.

(** grid_astar_model_3dof.cpp:97-103: min_boundary_ and max_boundary_; [band] is MotionCache::getMaxRange after reset, which depends on the resolutions, the number of headings
    and the range. *)
Definition lower {A} (band : R -> R -> Z -> Z -> vec) (m : model A) : vec := band (mi_res (pm_info (m_map m))) (mi_ang (pm_info (m_map m))) (pm_a (m_map m)) (m_range m).
Definition upper {A} (band : R -> R -> Z -> Z -> vec) (m : model A) : vec :=
  [pm_w (m_map m) - vx (lower band m); pm_h (m_map m) - vy (lower band m); pm_a (m_map m) - vt (lower band m)]%Z.
