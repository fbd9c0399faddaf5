(** Model of planner_cspace/src/grid_astar_model_3dof.cpp, GridAstarModel3D::cost
    (lines 170-304) and its use as a search model.

    The floating-point cost formulas are arbitrary functions ([numeric]) of the
    quantities they are computed from: only which cells are inspected and when -1
    is returned is fixed. *)
From Verif Require Import Common CyclicVec CostAlg MotionCache.
Local Open Scope Z_scope.

(** The 3-D costmap [cm_]; element type [char], any values. *)
Record costmap := mkCostmap { cm_w : Z; cm_h : Z; cm_a : Z; cm_at : vec -> Z }.

Definition cm_inside (cm : costmap) (p : vec) : bool :=
  (0 <=? vx p) && (vx p <? cm_w cm) && (0 <=? vy p) && (vy p <? cm_h cm) && (0 <=? vt p) && (vt p <? cm_a cm).

(** [cm_[pos]]: reading outside the map is undefined. *)
Definition cm_read (cm : costmap) (p : vec) : outcome Z := if cm_inside cm p then Ok (cm_at cm p) else UB.

Section Cost.
  Context {F : Type} (K : cost_ops F).

  (** grid_astar_model_3dof.cpp:180, 203-209, 214-225, 248-250, 264-269, 296-299:
      the numeric parts. *)
  Record numeric := mkNumeric {
    n_turn : vec -> Z -> F;
    n_straight : vec -> vec -> Z -> Z -> Z -> F;
    n_curve : vec -> vec -> Z -> Z -> Z -> Z -> F
  }.

  Variables (cm cm_hyst : costmap) (hysteresis : bool) (turn_threshold : Z).
  Variables (C : cache) (page_size range : Z) (min_b max_b : vec) (N : numeric).

  (** 185-202: the in-place turn loop.  [n] is the remaining number of steps. *)
  Fixpoint turn_loop (n : nat) (dir : Z) (pos : vec) (sum : Z) : outcome (option Z) :=
    match n with
    | O => Ok (Some sum)
    | S n' =>
        do c <- cm_read cm pos;
        if 99 <? c then Ok None
        else
          let t := vt pos + dir in
          let t' := if t <? 0 then t + cm_a cm else if cm_a cm <=? t then t - cm_a cm else t in
          turn_loop n' dir [vx pos; vy pos; t'] (if turn_threshold <=? c then sum + c else sum)
    end.

  (** 236-247 and 280-295: the loop over the cells of a cached motion. *)
  Fixpoint motion_loop (cur : vec) (m : list vec) (sum sum_turn sum_hyst : Z) : outcome (option (Z * Z * Z)) :=
    match m with
    | [] => Ok (Some (sum, sum_turn, sum_hyst))
    | d :: m' =>
        let pos := [vx cur + vx d; vy cur + vy d; vt d] in
        do c <- cm_read cm pos;
        if 99 <? c then Ok None
        else
          do h <- (if hysteresis then cm_read cm_hyst pos else Ok 0);
          motion_loop cur m' (sum + c) (if turn_threshold <=? c then sum_turn + c else sum_turn) (sum_hyst + h)
    end.

  Definition cost3 (cur next : vec) : outcome F :=
    do c1 <- cm_read cm cur;
    if 99 <? c1 then Ok (fneg1 K)
    else
      do c2 <- cm_read cm next;
      if 99 <? c2 then Ok (fneg1 K)
      else
        do d2 <- cycleElement (vt next - vt cur) (cm_a cm);
        let d := [vx next - vx cur; vy next - vy cur; d2] in
        if (vx d =? 0) && (vy d =? 0) then
          do s <- turn_loop (Z.to_nat (Z.abs d2)) (if d2 <? 0 then -1 else 1) cur 0;
          match s with None => Ok (fneg1 K) | Some sum => Ok (n_turn N d sum) end
        (* 212-213: rot_cache_ is indexed with the displacement plus range_ *)
        else if (range <? Z.abs (vx d)) || (range <? Z.abs (vy d)) then UB
        else if d2 =? 0 then
          do di <- cycleUnsignedElement (vt next) (cm_a cm);
          do pg <- find_yaw C page_size (vt cur) [vx d; vy d; di];
          match pg with
          | None => Ok (fneg1 K)
          | Some pg =>
              do s <- motion_loop cur (pg_motion pg) 0 0 0;
              match s with
              | None => Ok (fneg1 K)
              | Some (sum, _, sum_hyst) => Ok (n_straight N cur d sum sum_hyst (Z.of_nat (length (pg_motion pg))))
              end
          end
        else if (vx cur <? vx min_b) || (vy cur <? vy min_b) || (vx max_b <=? vx cur) || (vy max_b <=? vy cur)
        then Ok (fneg1 K)
        else
          do di <- cycleUnsignedElement (vt next) (cm_a cm);
          do pg <- find_yaw C page_size (vt cur) [vx d; vy d; di];
          match pg with
          | None => Ok (fneg1 K)
          | Some pg =>
              do s <- motion_loop cur (pg_motion pg) 0 0 0;
              match s with
              | None => Ok (fneg1 K)
              | Some (sum, sum_turn, sum_hyst) =>
                  Ok (n_curve N cur d sum sum_turn sum_hyst (Z.of_nat (length (pg_motion pg))))
              end
          end.
End Cost.
