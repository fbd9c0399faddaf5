(** Model of the hysteresis map of planner_3d (planner_cspace/src/planner_3d.cpp): the map that makes the planner prefer the
    path planned last.  Coordinates and distances are exact reals (the code uses float); the hash map of the cells near the
    path (2033, 2050) is a list, possibly with repetitions: each cell is written with a value that depends on the cell only. *)
From Coq Require Import Reals.
From Flocq Require Import Core.
From Verif Require Import Common.
Local Open Scope R_scope.

Definition hcell := (Z * Z * Z)%type.
Definition hvec := (R * R * R)%type.
Definition hcell_dec : forall a b : hcell, {a = b} + {a <> b}.
Proof. repeat decide equality. Defined.

(** cyclic_vec.h 61-64: std::lround. *)
Definition lroundR : R -> Z := Znearest (Z.leb 0).
Definition hxy (p : hvec) : R * R := (fst (fst p), snd (fst p)).

(** cyclic_vec.h 172-178, 186-196: cross2d, dot2d, len, distLine2d, distLinestrip2d of a point [c]. *)
Definition sub2 (a b : R * R) : R * R := (fst a - fst b, snd a - snd b).
Definition dot2 (a b : R * R) : R := fst a * fst b + snd a * snd b.
Definition len2 (a : R * R) : R := sqrt (fst a * fst a + snd a * snd a).
Definition dist_line (a b c : R * R) : R :=
  (fst (sub2 b a) * snd (sub2 c a) - snd (sub2 b a) * fst (sub2 c a)) / len2 (sub2 b a).
Definition dist_linestrip (a b c : R * R) : R :=
  if Rle_dec (dot2 (sub2 b a) (sub2 c a)) 0 then len2 (sub2 c a)
  else if Rle_dec (dot2 (sub2 a b) (sub2 c b)) 0 then len2 (sub2 c b)
  else Rabs (dist_line a b c).

(** Parameters: [hc_range] is range_, the two distances are in metres, [hc_res] is the resolution of the map. *)
Record hcfg := HCfg { hc_range : Z; hc_max_m : R; hc_expand_m : R; hc_res : R; hc_w : Z; hc_h : Z; hc_angle : Z }.
(** 2034-2036. *)
Definition max_dist (C : hcfg) : R := hc_max_m C / hc_res C.
Definition expand_dist (C : hcfg) : R := hc_expand_m C / hc_res C.
Definition path_range (C : hcfg) : Z := Ztrunc (IZR (hc_range C) + max_dist C + expand_dist C + 5).

(** cyclic_vec.h cycleUnsigned; the same steps are at 2064-2069. *)
Definition cycle_yaw (A y : Z) : Z := (let y := Z.rem y A in if y <? 0 then y + A else y)%Z.
(** 2037-2052: the cells around the path; [p + d] rounds [p] first. *)
Definition in_grid (C : hcfg) (x y : Z) : bool := ((0 <=? x) && (x <? hc_w C) && (0 <=? y) && (y <? hc_h C))%Z.
Definition near_point (C : hcfg) (p : hvec) : list hcell :=
  let r := range_incl (- path_range C) (path_range C) in
  flat_map (fun dx => flat_map (fun dy =>
    let x := (lroundR (fst (fst p)) + dx)%Z in
    let y := (lroundR (snd (fst p)) + dy)%Z in
    if in_grid C x y then [(x, y, cycle_yaw (hc_angle C) (lroundR (snd p)))] else []) r) r.
Definition path_points (C : hcfg) (path : list hvec) : list hcell := flat_map (near_point C) path.

(** 2057-2079: the smallest distance to a piece of the path one end of which has the heading of the cell; [None] is the
    largest float. *)
Definition min_opt (d : R) (m : option R) : option R :=
  match m with None => Some d | Some x => Some (if Rlt_dec d x then d else x) end.
Fixpoint d_min_loop (C : hcfg) (p : hcell) (prev : hvec) (path : list hvec) (m : option R) : option R :=
  match path with
  | [] => m
  | q :: path' =>
      let yaw := cycle_yaw (hc_angle C) (lroundR (snd q)) in
      let yaw_prev := cycle_yaw (hc_angle C) (lroundR (snd prev)) in
      let m' := if ((yaw =? snd p) || (yaw_prev =? snd p))%Z
                then min_opt (dist_linestrip (hxy prev) (hxy q) (IZR (fst (fst p)), IZR (snd (fst p)))) m else m in
      d_min_loop C p q path' m'
  end.
Definition d_min (C : hcfg) (path : list hvec) (p : hcell) : option R :=
  match path with [] => None | q :: path' => d_min_loop C p q path' None end.
(** 2080-2081. *)
Definition hyst_value (C : hcfg) (m : option R) : Z :=
  let top := expand_dist C + max_dist C in
  let d := Rmax (expand_dist C) (match m with None => top | Some d => Rmin top d end) in
  lroundR ((d - expand_dist C) * 100 / max_dist C).

(** The fields of the planner: cm_hyst_, hyst_updated_cells_, has_hysteresis_map_ (138, 178-179). *)
Record hstate := HState { hy_map : hcell -> Z; hy_cells : list hcell; hy_has : bool }.
Definition hset (m : hcell -> Z) (p : hcell) (v : Z) : hcell -> Z := fun q => if hcell_dec q p then v else m q.
(** 654-661 clearHysteresis. *)
Definition clear_map (s : hstate) : hcell -> Z := fold_left (fun m p => hset m p 100%Z) (hy_cells s) (hy_map s).

Inductive hevent :=
| HMap                                  (** cbMap *)
| HGoal                                 (** createCostEstimCache(true) *)
| HOverlay (cells : list (hcell * Z))   (** cbMapUpdate: the cells of the message and their costs *)
| HPlan (path : list hvec).             (** makePlan(..., hyst = true) that found the path *)
Definition hstep (C : hcfg) (s : hstate) (e : hevent) : hstate :=
  match e with
  | HMap => HState (fun _ => 100%Z) [] false                                                        (* 1076-1078 *)
  | HGoal => HState (clear_map s) [] false                                                         (* 579-580 *)
  | HOverlay cells =>                                                                             (* 839-861, 891-896 *)
      if existsb (fun pc => (snd pc =? 100) && (hy_map s (fst pc) =? 0))%Z cells && hy_has s
      then HState (clear_map s) [] false else s
  | HPlan path =>                                                                                 (* 2054-2084 *)
      let pts := path_points C path in
      HState (fold_left (fun m p => hset m p (hyst_value C (d_min C path p))) pts (clear_map s)) pts true
  end.
Definition hrun (C : hcfg) (es : list hevent) (s : hstate) : hstate := fold_left (hstep C) es s.
(** After the first map. *)
Definition hinit : hstate := HState (fun _ => 100%Z) [] false.
(** 1982: what the cost function sees. *)
Definition hyst_used (s : hstate) : bool := hy_has s.
