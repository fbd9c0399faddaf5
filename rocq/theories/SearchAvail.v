(** Model of planner_cspace/src/planner_3d.cpp: searchAvailablePos (498-555) and relocateDiscretePoseIfNeeded (272-304).
    The weighted distance euclidCost is a parameter; the cost arithmetic is as in CostAlg (binary32 is an instance).
    Differences of cells are small enough for int arithmetic. *)
From Verif Require Import Common CyclicVec CostAlg DistMap Overlay.
Local Open Scope Z_scope.

Section SearchAvail.
  Context {F : Type} (K : cost_ops F).
  Variable euclid : cell3 -> F.          (* model_->euclidCost *)
  Variables W H A : Z.                   (* map_info_.width, height, angle *)
  Variable range : Z.                    (* range_ *)
  Variable relocation_acceptable_cost : Z.
  Variable cm : cell3 -> Z.              (* cm_ *)
  Variable cm_rough : cell -> Z.         (* cm_rough_ *)

  (** BlockMemGridmap::validate with a tolerance, blockmem_gridmap.h:259-272, for cm_ and (one orientation) cm_rough_. *)
  Definition validate3 (c : cell3) : bool :=
    (range <=? fst (fst c)) && (fst (fst c) <? W - range) && (range <=? snd (fst c)) && (snd (fst c) <? H - range) &&
    (0 <=? snd c) && (snd c <? A).
  Definition validate2 (c : cell3) : bool :=
    (range <=? fst (fst c)) && (fst (fst c) <? W - range) && (range <=? snd (fst c)) && (snd (fst c) <? H - range) &&
    (0 <=? snd c) && (snd c <? 1).

  (** 511-539: the body of the loops for one difference d. *)
  Definition try_offset (xy_range min_range acceptable : Z) (s : cell3) (best : F * cell3) (d : cell3) : outcome (F * cell3) :=
    let '((dx, dy), dt) := d in
    if (dx =? 0) && (dy =? 0) && (dt =? 0) then Ok best
    else if xy_range * xy_range <? dx * dx + dy * dy then Ok best
    else if dx * dx + dy * dy <? min_range * min_range then Ok best
    else
      let x := fst (fst s) + dx in let y := snd (fst s) + dy in
      if negb ((0 <=? x) && (x <? W) && (0 <=? y) && (y <? H)) then Ok best
      else
        do t <- cycleUnsignedElement (snd s + dt) A;
        let s2 := ((x, y), t) in
        if negb (validate3 s2) then Ok best
        else if acceptable <=? cm s2 then Ok best
        else if fltb K (euclid d) (fst best) then Ok (euclid d, s2) else Ok best.

  (** 507-513: the loops over d, orientation outermost. *)
  Definition offsets (xy_range angle_range : Z) : list cell3 :=
    map (fun '(t, (x, y)) => ((x, y), t))
      (list_prod (range_incl (- angle_range) angle_range) (list_prod (range_incl (- xy_range) xy_range) (range_incl (- xy_range) xy_range))).

  (** 543-555 without the second attempt. *)
  Definition search_once (xy_range angle_range acceptable min_range : Z) (s : cell3) : outcome (option cell3) :=
    do b <- foldM (try_offset xy_range min_range acceptable s) (offsets xy_range angle_range) (fmax K, ((0, 0), 0));
    if feqb K (fst b) (fmax K) then Ok None
    else do t <- cycleUnsignedElement (snd (snd b)) A; Ok (Some (fst (snd b), t)).

  (** searchAvailablePos: result and the pose, which is unchanged on failure. *)
  Definition searchAvailablePos (s : cell3) (xy_range angle_range acceptable0 min_range : Z) : outcome (bool * cell3) :=
    let acceptable := if acceptable0 =? -1 then relocation_acceptable_cost else acceptable0 in
    do r <- search_once xy_range angle_range acceptable min_range s;
    match r with
    | Some q => Ok (true, q)
    | None =>
        if acceptable =? 100 then Ok (false, s)
        else
          do r' <- search_once xy_range angle_range 100 0 s;
          match r' with Some q => Ok (true, q) | None => Ok (false, s) end
    end.

  (** relocateDiscretePoseIfNeeded, 272-304; [rough] selects the costs by cell. *)
  Inductive pose_status := POk | PRelocated | PInRock | POutOfMap.
  Definition relocate (rough : bool) (s0 : cell3) (xy_range angle_range : Z) : outcome (pose_status * cell3) :=
    let s := if rough then (fst s0, 0) else s0 in
    if negb (if rough then validate2 s else validate3 s) then Ok (POutOfMap, s)
    else if (if rough then cm_rough (fst s) else cm s) =? 100 then
      do r <- searchAvailablePos s xy_range angle_range (-1) 0;
      Ok (if fst r then PRelocated else PInRock, snd r)
    else Ok (POk, s).
End SearchAvail.
