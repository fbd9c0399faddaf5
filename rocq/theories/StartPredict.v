(** Model of planner_cspace/src/start_pose_predictor.cpp: from which pose of the previous path the next plan starts.
    Coordinates, times and distances are exact reals (the code uses double and float).  Reading a costmap cell outside the map
    is UB. *)
From Coq Require Import Reals.
From Flocq Require Import Core.
From Verif Require Import Common CyclicVec CostAlg DistMap Overlay GridMetric Path2D PathGeom.
Local Open Scope R_scope.

(** start_pose_predictor.h 52-59 Config. *)
Record pcfg := PCfg { prediction : R; switch_back : R; dist_stop : R; lin_vel : R; ang_vel : R }.
(** The map: resolution and origin, and its size in cells. *)
Record pmap := PMap { pm_info : mapinfo; pm_w : Z; pm_h : Z; pm_a : Z }.
Definition eps6 : R := 1 / 1000000.

Section Predict.
  Variables (C : pcfg) (M : pmap) (cm : cell3 -> Z) (robot : pose2).

  Definition cell_inside (c : cell3) : bool :=
    ((0 <=? fst (fst c)) && (fst (fst c) <? pm_w M) && (0 <=? snd (fst c)) && (snd (fst c) <? pm_h M) && (0 <=? snd c) && (snd c <? pm_a M))%Z.
  Definition read_cm (c : cell3) : outcome Z := if cell_inside c then Ok (cm c) else UB.
  (** metric2Grid and cycleUnsigned(map_info_.angle), 147-150, 191-192. *)
  Definition pose_cell (p : pose2) : outcome cell3 :=
    do g <- metric2Grid exact exact (pm_info M) (p_x p) (p_y p) (p_yaw p);
    do t <- cycleUnsignedElement (snd g) (pm_a M);
    Ok (fst g, t).

  (** removeAlreadyPassed, 83-124: what is left of the path, or [None]. *)
  Definition removeAlreadyPassed (l : list pose2) : outcome (option (list pose2)) :=
    do r <- findNearestWithDistance l 0 (length l) (pos robot) 0 eps6;
    match snd r with
    | None => Ok None                                                  (* the largest double *)
    | Some d =>
        if Rlt_dec (dist_stop C) d then Ok None
        else if Nat.eqb (length l) 1 then Ok (Some l)
        else
          do behind <- (if Nat.eqb (fst r) 1 then
                          do p <- at_ l 0;
                          Ok (if Rlt_dec (Rabs (norm2 robot p - d)) eps6 then true else false)
                        else Ok false);
          Ok (Some (if behind then l else skipn (fst r) l))
    end.

  (** getInitialETA, 126-134. *)
  Definition initial_eta (p : pose2) : R := Rmax (Rabs (turn_angle p robot) / ang_vel C) (norm2 p robot / lin_vel C).

  (** isGridCenter, 171-180. *)
  Definition off_integer (x : R) : R := Rabs (x - IZR (Znearest (Z.leb 0) x)).
  Definition isGridCenter (p : pose2) : bool :=
    let '(gx, gy, gt) := metric2GridF exact exact (pm_info M) (p_x p) (p_y p) (p_yaw p) in
    if Rlt_dec (off_integer (gx - 1/2)) (1/1000) then
      if Rlt_dec (off_integer (gy - 1/2)) (1/1000) then
        if Rlt_dec (off_integer gt) (1/1000) then true else false else false else false.

  (** isPathColliding, 182-198, for the poses before the expected start. *)
  Fixpoint isPathColliding (l : list pose2) : outcome bool :=
    match l with
    | [] => Ok false
    | p :: l' =>
        do c <- pose_cell p;
        do v <- read_cm c;
        if (v =? 100)%Z then Ok true else isPathColliding l'
    end.

  (** etas[i]. *)
  Definition eta_at (etas : list R) (i : nat) : outcome R := match nth_error etas i with Some e => Ok e | None => UB end.

  (** getSwitchBack, 200-235: the loop over the local goals. *)
  Fixpoint sb_loop (l : list pose2) (etas : list R) (gs : list nat) : outcome (option nat) :=
    match gs with
    | [] => Ok None
    | g :: gs' =>
        let i := (g - 1)%nat in
        do e <- eta_at etas i;
        do p <- at_ l i;
        if isGridCenter p then
          if Rlt_dec (prediction C) e then
            if Rlt_dec e (switch_back C) then Ok (Some i) else sb_loop l etas gs'
          else sb_loop l etas gs'
        else sb_loop l etas gs'
    end.
  Definition getSwitchBack (l : list pose2) (etas : list R) : outcome (option nat) :=
    match enumerateLocalGoals l true false eps6 0 (length l) with
    | Some (Ok gs) => sb_loop l etas gs
    | Some UB => UB
    | None => UB
    end.

  (** getExpectedPose, 237-251: [n] poses before the last one are left. *)
  Fixpoint ep_loop (l : list pose2) (etas : list R) (n i : nat) : outcome (option nat) :=
    match n with
    | O => Ok None
    | S n' =>
        do e <- eta_at etas i;
        if Rlt_dec (prediction C) e then
          do p <- at_ l i;
          if isGridCenter p then Ok (Some i) else ep_loop l etas n' (S i)
        else ep_loop l etas n' (S i)
    end.
  Definition getExpectedPose (l : list pose2) (etas : list R) : outcome (option nat) := ep_loop l etas (length l - 1) 0.

  (** What process returns and leaves behind: start cell, preserved path and its length; false and a cleared path is [None]. *)
  Record started := Started { st_cell : cell3; st_preserved : list pose2; st_length : R }.
  (** buildResults, 136-169. *)
  Definition buildResults (l : list pose2) (i : nat) : outcome (option started) :=
    do col <- isPathColliding (firstn i l);
    if col then Ok None
    else
      do p <- at_ l i;
      do c <- pose_cell p;
      let l' := firstn (S i) l in
      Ok (Some (Started c (removelast l') (path_length l'))).

  (** process, 42-74. *)
  Definition process (msg : list pose2) : outcome (option started) :=
    let l0 := fromMsg eps6 msg in
    match l0 with
    | [] => Ok None
    | _ :: _ =>
        do r <- removeAlreadyPassed l0;
        match r with
        | None => Ok None
        | Some l =>
            do p <- at_ l 0;
            let ts := etas (lin_vel C) (ang_vel C) (initial_eta p) l in
            do sb <- getSwitchBack l ts;
            match sb with
            | Some i => buildResults l i
            | None =>
                do ep <- getExpectedPose l ts;
                match ep with
                | Some i => buildResults l i
                | None => buildResults l (length l - 1)
                end
            end
        end
    end.
End Predict.
