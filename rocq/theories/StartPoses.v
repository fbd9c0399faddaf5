(** Model of planner_cspace/src/planner_3d.cpp: isPathFinishing (1786-1808) and buildStartPoses (1810-1898), the poses from which a path is searched.
    Coordinates, distances and costs are exact reals (the code uses float and double).  Differences of cells and the squared tolerance are small
    enough for int arithmetic. *)
From Coq Require Import Reals.
From Flocq Require Import Core.
From Verif Require Import Common CyclicVec CostAlg DistMap Overlay SearchAvail GridMetric Path2D PathGeom StartPredict.
Local Open Scope R_scope.

(** isPathFinishing, 1804-1807; the tolerances in cells are chosen before by mode (1788-1803). *)
Definition isPathFinishing (A tol_lin tol_ang : Z) (s e : cell3) : outcome bool :=
  (do t <- cycleElement (snd s - snd e) A;
   let dx := fst (fst s) - fst (fst e) in let dy := snd (fst s) - snd (fst e) in
   Ok ((dx * dx + dy * dy <=? tol_lin * tol_lin) && (Z.abs t <=? tol_ang)))%Z.

Inductive start_status := START_OCCUPIED | FINISHING | NORMAL.
(** ros parameters: keep_a_part_of_previous_path, antialias_start, range_, ec_[0], cc_.weight_costmap_. *)
Record scfg := SCfg { keep : bool; antialias : bool; margin : Z; ec0 : R; weight : R; tol_l : Z; tol_a : Z }.

Section Starts.
  Variables (S : scfg) (C : pcfg) (M : pmap) (cm : cell3 -> Z).
  (** searchAvailablePos with the relocation tolerances (SearchAvail.v, C14): the new cell, or [None]. *)
  Variable search_pos : cell3 -> outcome (option cell3).
  Variables (robot goal : pose2) (previous : list pose2).

  Definition valid_start (c : cell3) : bool := validate3 (pm_w M) (pm_h M) (pm_a M) (margin S) c.
  (** 1846-1871: one candidate at the offset (x, y) of the cell of the robot; [gx], [gy] is the position in cells. *)
  Definition try_cell (gx gy : R) (s : cell3) (acc : list (cell3 * R)) (d : Z * Z) : outcome (list (cell3 * R)) :=
    let p : cell3 := ((fst (fst s) + fst d, snd (fst s) + snd d), snd s)%Z in
    if negb (valid_start p) then Ok acc
    else
      let dx := gx - (IZR (fst (fst p)) + 1/2) in
      let dy := gy - (IZR (snd (fst p)) + 1/2) in
      if Rlt_dec 1 (dx * dx + dy * dy) then Ok acc
      else
        do c <- read_cm M cm p;
        if (99 <? c)%Z then Ok acc
        else Ok (acc ++ [(p, sqrt ((- dx * ec0 S) * (- dx * ec0 S) + (- dy * ec0 S) * (- dy * ec0 S)) + IZR c * weight S / 100)]).
  Definition side (g : R) (c : Z) : Z := if Rlt_dec (g - IZR c) (1/2) then (-1)%Z else 1%Z.
  (** 1847-1878: the poses before relocation. *)
  Definition candidates (gx gy : R) (s : cell3) : outcome (list (cell3 * R)) :=
    if antialias S then
      let dx := side gx (fst (fst s)) in
      let dy := side gy (snd (fst s)) in
      foldM (try_cell gx gy s) [(0, 0); (0, dy); (dx, 0); (dx, dy)]%Z []
    else do c <- read_cm M cm s; Ok (if (c <? 100)%Z then [(s, 0)] else []).
  (** 1892-1897. *)
  Fixpoint any_finishing (l : list (cell3 * R)) (e : cell3) : outcome bool :=
    match l with
    | [] => Ok false
    | c :: l' => do f <- isPathFinishing (pm_a M) (tol_l S) (tol_a S) (fst c) e; if f then Ok true else any_finishing l' e
    end.
  Definition status_of (f : bool) : start_status := if f then FINISHING else NORMAL.
  (** buildStartPoses. *)
  Definition buildStartPoses : outcome (start_status * list (cell3 * R)) :=
    let '(gx, gy, _) := metric2GridF exact exact (pm_info M) (p_x robot) (p_y robot) (p_yaw robot) in
    do s <- pose_cell M robot;
    do e <- pose_cell M goal;
    if negb (valid_start s) then Ok (START_OCCUPIED, [])
    else if keep S && negb (match previous with [] => true | _ => false end) then
      do r <- process C M cm robot previous;
      match r with
      | Some r => do f <- isPathFinishing (pm_a M) (tol_l S) (tol_a S) s e; Ok (status_of f, [(st_cell r, 0)])
      | None => Ok (START_OCCUPIED, [])
      end
    else
      do l <- candidates gx gy s;
      match l with
      | _ :: _ => do f <- any_finishing l e; Ok (status_of f, l)
      | [] =>
          do r <- search_pos s;
          match r with
          | None => Ok (START_OCCUPIED, [])
          | Some q => do f <- any_finishing [(q, 0)] e; Ok (status_of f, [(q, 0)])
          end
      end.
End Starts.
