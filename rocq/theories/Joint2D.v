(** Model of the 2-DoF serial joint planner:
    planner_cspace/src/grid_astar_model_2dof_joints.cpp and planner_cspace/src/planner_2dof_serial_joints.cpp.
    Collision checks, sampling and costs use IEEE binary32 as the code does; the published angles are exact rationals in units of one cell
    (2 pi / resolution), see [makePlan]. *)
From Coq Require Import QArith Qround.
From Flocq Require Import Core.Core IEEE754.BinarySingleNaN.
From Verif Require Import Common CyclicVec CostAlg CostF32 MotionCache SafetyLimiter BbfFloat.
Local Open Scope Z_scope.

(** Two joint angles as grid indices ([Astar::Vec]). *)
Definition jcell : Type := (Z * Z)%type.
Definition jeqb (a b : jcell) : bool := (fst a =? fst b) && (snd a =? snd b).

(** [std::lround] of a float (grid_astar_model_2dof_joints.cpp:97-98); unspecified for non-finite values in C++, 0 here (never met, see C20). *)
Definition lround32 (x : f32) : Z :=
  match x with
  | B754_finite s m e _ =>
      let z := cond_Zopp s (Zpos m) in
      if (0 <=? e) then z * 2 ^ e else lround (z # Z.to_pos (2 ^ (- e)))%Q
  | _ => 0
  end.
Definition add32 (a b : f32) : f32 := Bplus (prec_gt_0_ := p32) (prec_lt_emax_ := e32) mode_NE a b.

(** The map covers two turns in both joints (planner_2dof_serial_joints.cpp:409-411); an access outside of it is undefined.
    Simplification: the block structured memory behind it is modelled in GridMap.v. *)
Definition in_joint_map (res : Z) (c : jcell) : bool := (0 <=? fst c) && (fst c <? 2 * res) && (0 <=? snd c) && (snd c <? 2 * res).
Definition read_joint_map (res : Z) (cm : jcell -> Z) (c : jcell) : outcome Z := if in_joint_map res c then Ok (cm c) else UB.

(** grid_astar_model_2dof_joints.cpp:64-73 euclidCost. *)
Definition euclid2 (c0 c1 : f32) (d : jcell) : f32 :=
  add32 (add32 (B754_zero false) (Babs (mul32 c0 (f32_of_Z (fst d))))) (Babs (mul32 c1 (f32_of_Z (snd d)))).

(** grid_astar_model_2dof_joints.cpp:85-88: [const int dist = std::hypot(d0, d1)].  The truncated length; that truncating the correctly rounded
    binary32 hypot gives this for the lengths that occur is proved in Joint2DProofs.v ([truncated_hypot]). *)
Definition travel (d : jcell) : Z := Z.sqrt (fst d * fst d + snd d * snd d).

(** grid_astar_model_2dof_joints.cpp:94-106: the sampled positions before wrapping. *)
Fixpoint samples (n : nat) (v0 v1 dp0 dp1 : f32) : list jcell :=
  match n with
  | O => []
  | S n' => (lround32 v0, lround32 v1) :: samples n' (add32 v0 dp0) (add32 v1 dp1) dp0 dp1
  end.
(** grid_astar_model_2dof_joints.cpp:90-93. *)
Definition sample_cells (cur d : jcell) : list jcell :=
  samples (Z.to_nat (travel d)) (f32_of_Z (fst cur)) (f32_of_Z (snd cur))
    (div32 (f32_of_Z (fst d)) (f32_of_Z (travel d))) (div32 (f32_of_Z (snd d)) (f32_of_Z (travel d))).

(** grid_astar_model_2dof_joints.cpp:97-103: one iteration; [None] is the early return of -1. *)
Definition check_sample (res : Z) (cm : jcell -> Z) (acc : option Z) (p : jcell) : outcome (option Z) :=
  match acc with
  | None => Ok None
  | Some sum =>
      do x <- cycleUnsignedElement (fst p) res;
      do y <- cycleUnsignedElement (snd p) res;
      do c <- read_joint_map res cm (x, y);
      if 99 <? c then Ok None else Ok (Some (sum + c))
  end.

(** grid_astar_model_2dof_joints.cpp:107: [cost += sum * weight / 100.0] (the division and the addition are in double). *)
Definition add_weighted (cost : f32) (sum : Z) (w : f32) : f32 :=
  to32 (add64 (to64 cost) (fdiv (to64 (mul32 (f32_of_Z sum) w)) (f64_of 100 0))).

(** [d.cycle(resolution_, resolution_)]. *)
Definition cycle2 (res : Z) (d : jcell) : outcome jcell :=
  do x <- cycleElement (fst d) res; do y <- cycleElement (snd d) res; Ok (x, y).

(** grid_astar_model_2dof_joints.cpp:74-109 cost.  The comparison of the target with [resolution_ * 2] is unsigned. *)
Definition move_cost (res : Z) (c0 c1 w : f32) (cm : jcell -> Z) (cur next : jcell) : outcome f32 :=
  if (to_u32 (2 * res) <=? to_u32 (fst next)) || (to_u32 (2 * res) <=? to_u32 (snd next)) then Ok (f32_of_Z (-1))
  else
    do d <- cycle2 res (fst next - fst cur, snd next - snd cur);
    do r <- foldM (check_sample res cm) (sample_cells cur d) (Some 0);
    match r with
    | None => Ok (f32_of_Z (-1))
    | Some sum => Ok (add_weighted (euclid2 c0 c1 d) sum w)
    end.

(** grid_astar_model_2dof_joints.cpp:111-116 costEstim: the difference is not wrapped. *)
Definition estimate2 (c0 c1 : f32) (cur goal : jcell) : f32 := euclid2 c0 c1 (fst goal - fst cur, snd goal - snd cur).

(** *** The collision map (planner_2dof_serial_joints.cpp:461-502) *)
(** [collide p] is the geometric test of the two links at the angles of the cell (LinkBody::isCollide, 134-155, modelled in LinkBody.v). *)
Definition joint_cells (res : Z) : list jcell := list_prod (range_excl 0 (2 * res)) (range_excl 0 (2 * res)).
Definition mark (collide : jcell -> bool) (p : jcell) : Z := if collide p then 100 else 0.
(** planner_2dof_serial_joints.cpp:495-496.  [floor(100.0 * (range - dist) / range)]: undefined for [range = 0] (0/0 converted to int).
    The quotient is computed in double; floor of the correctly rounded quotient is the integer quotient for these small integers. *)
Definition falloff (range dist : Z) : outcome Z := if range =? 0 then UB else Ok (100 * (range - dist) / range).
(** planner_2dof_serial_joints.cpp:478-502: raising the cost around one cell. *)
Definition jupd (cm : jcell -> Z) (c : jcell) (v : Z) : jcell -> Z := fun x => if jeqb x c then v else cm x.
Definition raise_at (res range : Z) (p : jcell) (cm : jcell -> Z) (d : jcell) : outcome (jcell -> Z) :=
  let p2 := (fst p + fst d, snd p + snd d) in
  if in_joint_map res p2 then
    do c <- falloff range (Z.max (Z.abs (fst d)) (Z.abs (snd d)));
    if cm p2 <? c then Ok (jupd cm p2 c) else Ok cm
  else Ok cm.
Definition square (range : Z) : list jcell := list_prod (range_incl (- range) range) (range_incl (- range) range).
Definition expand_cell (res range : Z) (cm : jcell -> Z) (p : jcell) : outcome (jcell -> Z) :=
  if cm p =? 100 then foldM (raise_at res range p) (square range) cm else Ok cm.
Definition joint_map (res range : Z) (collide : jcell -> bool) : outcome (jcell -> Z) :=
  foldM (expand_cell res range) (joint_cells res) (mark collide).

(** *** makePlan (planner_2dof_serial_joints.cpp:546-661)
    Angles are in units of one cell; the code computes them in float and double with the factor 2 pi / resolution. *)
Definition jangle : Type := (Q * Q)%type.
(** planner_2dof_serial_joints.cpp:519-545 metric2Grid, grid2Metric. *)
Definition metric2Grid (res : Z) (g : jangle) : jcell := (lround (fst g) + res, lround (snd g) + res).
Definition grid2Metric (res : Z) (t : jcell) : jangle := (inject_Z (fst t - res), inject_Z (snd t - res)).
(** planner_2dof_serial_joints.cpp:623-630: the part of the goal angle below the grid resolution.  [fmod(x, 1)] of a non-negative x is [x - floor x]. *)
Definition lift (res : Z) (g : Q) : Q :=
  if Qle_bool 0 g then g else (g + inject_Z (Qceiling (- g * 4 / inject_Z res) * res))%Q.
Definition residual (res : Z) (g : Q) : Q :=
  let x := (lift res g + (1 # 2))%Q in (x - inject_Z (Qfloor x) - (1 # 2))%Q.
(** planner_2dof_serial_joints.cpp:600-622: the found cells after the first one, each unwrapped relative to the previous one. *)
Fixpoint unwrap (res : Z) (prev : jcell) (l : list jcell) : outcome (list jcell) :=
  match l with
  | [] => Ok []
  | n :: l' =>
      do d <- cycle2 res (fst n - fst prev, snd n - snd prev);
      let n2 := (fst prev + fst d, snd prev + snd d) in
      do t <- unwrap res n2 l';
      Ok (n2 :: t)
  end.
(** [path.back() += ...]. *)
Fixpoint add_to_last (l : list jangle) (r : jangle) : list jangle :=
  match l with
  | [] => []
  | [a] => [((fst a + fst r)%Q, (snd a + snd r)%Q)]
  | a :: l' => a :: add_to_last l' r
  end.
(** [astar] is the result of the path search (AStar.v): the cells from start to goal, or failure.  [None] is a failed plan; otherwise the list of
    angles that are sent to the joints. *)
Definition makePlan (res : Z) (c0 c1 w : f32) (cm : jcell -> Z) (sg eg : jangle) (astar : option (list jcell)) : outcome (option (list jangle)) :=
  let s := metric2Grid res sg in
  let e := metric2Grid res eg in
  do a <- read_joint_map res cm s;
  if a =? 100 then Ok None else
  do b <- read_joint_map res cm e;
  if b =? 100 then Ok None else
  do d <- cycle2 res (fst e - fst s, snd e - snd s);
  do c <- move_cost res c0 c1 w cm s e;
  if Bleb (euclid2 c0 c1 d) c then Ok (Some [sg; eg])
  else match astar with
  | None => Ok None
  | Some path =>
      do l <- unwrap res s (tl path);
      Ok (Some (add_to_last (sg :: map (grid2Metric res) l) (residual res (fst eg), residual res (snd eg))))
  end.
