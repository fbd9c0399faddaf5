(** Model of planner_cspace/include/planner_cspace/bbf.h and planner_cspace/src/costmap_bbf.cpp with costmap_bbf.h
    (CostmapBBFImpl): the remembered-obstacle costmap.  The filter value and its percentage are parameters here ([filter_ops]);
    the arithmetic of the code (float and double) is in BbfFloat. *)
From Verif Require Import Common DistMap.
Local Open Scope Z_scope.

(** bbf.h:56-94: initial odds MIN_ODDS, [update], lround(getNormalizedProbability() * 100.0). *)
Record filter_ops (T : Type) := FilterOps { f_init : T; f_upd : T -> T -> T; f_pct : T -> Z }.
Arguments f_init {T}. Arguments f_upd {T}. Arguments f_pct {T}.

Section Bbf.
  Context {T : Type} (P : filter_ops T).

  (** costmap_bbf.h:65-71. *)
  Record bbf := Bbf { b_w : Z; b_h : Z; b_odds : cell -> T; b_cost : cell -> Z; b_min : cell; b_max : cell }.
  Definition in_bbf (b : bbf) (c : cell) : bool := (0 <=? fst c) && (fst c <? b_w b) && (0 <=? snd c) && (snd c <? b_h b).

  (** clear, costmap_bbf.h:84-90. *)
  Definition clear (b : bbf) : bbf :=
    Bbf (b_w b) (b_h b) (fun _ => f_init P) (fun _ => 0) (0, 0) (b_w b - 1, b_h b - 1).
  (** reset, 77-83. *)
  Definition reset (w h : Z) : bbf := clear (Bbf w h (fun _ => f_init P) (fun _ => 0) (0, 0) (0, 0)).
  (** getCost, 91-94; undefined outside the map. *)
  Definition getCost (b : bbf) (c : cell) : outcome Z := if in_bbf b c then Ok (b_cost b c) else UB.

  (** updateCostmap, costmap_bbf.cpp:42-53. *)
  Definition updateCostmap (b : bbf) : outcome bbf :=
    do cost <- foldM (fun cost c => if in_bbf b c then Ok (upd cost c (f_pct P (b_odds b c))) else UB)
      (rect_cells (b_min b) (b_max b)) (b_cost b);
    Ok (Bbf (b_w b) (b_h b) (b_odds b) cost (b_w b, b_h b) (-1, -1)).

  (** One cell of remember, costmap_bbf.cpp:76-102.  [cm] is the costmap of the last update (a char per cell).  The squared
      distance is a float in the code, exact for ranges below 2^12 cells. *)
  Definition observe (b : bbf) (cm : cell -> Z) (center : cell) (hit miss : T) (rmin rmax : Z) (odds : cell -> T) (p : cell) : cell -> T :=
    let gp := cadd center p in
    if negb (in_bbf b gp) then odds
    else
      let r := fst p * fst p + snd p * snd p in
      if rmax * rmax <? r then odds
      else
        let c := cm gp in
        if c <? 0 then odds
        else if c =? 100 then (if rmin * rmin <=? r then upd odds gp (f_upd P (odds gp) hit) else odds)
        else upd odds gp (f_upd P (odds gp) miss).

  (** remember, costmap_bbf.cpp:54-104 (the loops run over x first). *)
  Definition remember (b : bbf) (cm : cell -> Z) (center : cell) (hit miss : T) (rmin rmax : Z) : bbf :=
    Bbf (b_w b) (b_h b)
      (fold_left (observe b cm center hit miss rmin rmax) (list_prod (range_incl (- rmax) rmax) (range_incl (- rmax) rmax)) (b_odds b))
      (b_cost b)
      (Z.min (fst (b_min b)) (Z.max 0 (fst center - rmax)), Z.min (snd (b_min b)) (Z.max 0 (snd center - rmax)))
      (Z.max (fst (b_max b)) (Z.min (b_w b - 1) (fst center + rmax)), Z.max (snd (b_max b)) (Z.min (b_h b - 1) (snd center + rmax))).

  (** What the planner does to it (planner_3d.cpp:258, 906-911, 1052, 1086, 1515, 1746). *)
  Inductive bcall := BClear | BRemember (cm : cell -> Z) (center : cell) (hit miss : T) (rmin rmax : Z) | BRefresh.
  Definition bstep (b : bbf) (c : bcall) : outcome bbf :=
    match c with
    | BClear => Ok (clear b)
    | BRemember cm ce hit miss rmin rmax => Ok (remember b cm ce hit miss rmin rmax)
    | BRefresh => updateCostmap b
    end.
  Definition brun (w h : Z) (cs : list bcall) : outcome bbf := foldM bstep cs (reset w h).
End Bbf.
