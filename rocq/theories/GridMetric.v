(** Model of planner_cspace/include/planner_cspace/planner_3d/grid_metric_converter.h.
    [r32]/[r64] are the roundings to float/double of each operation; exact arithmetic
    is the instance where they are the identity. *)
From Coq Require Import Reals.
From Flocq Require Import Core.
From Verif Require Import Common.
Local Open Scope R_scope.

(** costmap_cspace_msgs/MapMetaData3D: float32 resolutions, float64 origin. *)
Record mapinfo := mkMI { mi_res : R; mi_ang : R; mi_ox : R; mi_oy : R }.

Section Convert.
  Variables r32 r64 : R -> R.

  (** 48-60 grid2Metric for [T = int]: [x + 0.5] is an exact double for every int;
      [yaw * angular_resolution] is int * float, a float product. *)
  Definition grid2Metric (m : mapinfo) (x y yaw : Z) : R * R * R :=
    (r32 (r64 (r64 ((IZR x + 1/2) * mi_res m) + mi_ox m)),
     r32 (r64 (r64 ((IZR y + 1/2) * mi_res m) + mi_oy m)),
     r32 (r32 (IZR yaw) * mi_ang m)).

  (** static_cast<int>(double): UB when out of range. *)
  Definition to_int (z : Z) : outcome Z :=
    if ((- 2 ^ 31 <=? z) && (z <? 2 ^ 31))%Z then Ok z else UB.

  (** 61-69 metric2Grid to int; std::lround rounds halves away from zero, its long
      result is narrowed to int. *)
  Definition metric2Grid (m : mapinfo) (gx gy gyaw : R) : outcome (Z * Z * Z) :=
    do x <- to_int (Zfloor (r64 (r64 (gx - mi_ox m) / mi_res m)));
    do y <- to_int (Zfloor (r64 (r64 (gy - mi_oy m) / mi_res m)));
    Ok (x, y, Znearest (Z.leb 0) (r32 (gyaw / mi_ang m))).

  (** 70-78 metric2Grid to float. *)
  Definition metric2GridF (m : mapinfo) (gx gy gyaw : R) : R * R * R :=
    (r32 (r64 (r64 (gx - mi_ox m) / mi_res m)), r32 (r64 (r64 (gy - mi_oy m) / mi_res m)),
     r32 (gyaw / mi_ang m)).
  (** 48-60 grid2Metric for [T = float]. *)
  Definition grid2MetricF (m : mapinfo) (x y yaw : R) : R * R * R :=
    (r32 (r64 (r64 (r64 (x + 1/2) * mi_res m) + mi_ox m)),
     r32 (r64 (r64 (r64 (y + 1/2) * mi_res m) + mi_oy m)), r32 (yaw * mi_ang m)).
End Convert.

(** IEEE round-to-nearest-even, without the overflow threshold. *)
Definition rnd32 : R -> R := round radix2 (FLT_exp (-149) 24) ZnearestE.
Definition rnd64 : R -> R := round radix2 (FLT_exp (-1074) 53) ZnearestE.
Definition exact : R -> R := fun x => x.
