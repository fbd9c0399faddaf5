(** Model of the moves of the 3D planner: planner_cspace/src/rotation_cache.cpp (55-94) and
    planner_cspace/src/motion_primitive_builder.cpp (44-161).  Lengths and angles are exact reals (the code uses float).
    Of the pages of the rotation cache only the entry that is read is computed; reading outside of a page is UB. *)
From Coq Require Import Reals.
From Flocq Require Import Core.
From Verif Require Import Common Hysteresis PathGeom.
Local Open Scope R_scope.

(** map_info.linear_resolution, angular_resolution, angle, the range and the two parameters of CostCoeff that are used. *)
Record prim_cfg := PrimCfg { pr_lin : R; pr_ang : R; pr_angle : Z; pr_range : Z; pr_aspect : R; pr_min_radius : R }.
(** A move: displacement in cells and change of the heading in steps. *)
Definition prim := (Z * Z * Z)%type.

(** cyclic_vec.h 65-71 normalizeFloatAngle. *)
Definition normalize (a : R) : R := if Rlt_dec PI a then a - 2 * PI else if Rlt_dec a (- PI) then a + 2 * PI else a.
(** cyclic_vec.h 268-278 rotate. *)
Definition rotate (v : R * R * R) (ang : R) : R * R * R :=
  let '(x, y, t) := v in (cos ang * x - sin ang * y, sin ang * x + cos ang * y, normalize (t + ang)).

Section Primitives.
  Variable C : prim_cfg.

  (** rotation_cache.cpp 60: headings in the cache. *)
  Definition cached : Z := lroundR (PI * 2 / pr_ang C).
  (** rotation_cache.cpp 70-81, rotation_cache.h getMotion: the displacement in the frame of the start heading [i]; [d] is the
      address in the page. *)
  Definition getMotion (i : Z) (d : prim) : outcome (R * R * R) :=
    let '(dx, dy, t) := d in
    if ((0 <=? i) && (i <? cached) && (0 <=? dx) && (dx <=? pr_range C * 2) && (0 <=? dy) && (dy <=? pr_range C * 2) && (0 <=? t) && (t <? cached))%Z
    then Ok (rotate (IZR (dx - pr_range C) * pr_lin C, IZR (dy - pr_range C) * pr_lin C, IZR t * pr_ang C) (- IZR i * pr_ang C))
    else UB.
  (** rotation_cache.cpp 83-89; used only where the sine is not zero. *)
  Definition radiuses (v : R * R * R) : R * R := let '(x, y, t) := v in (arc_r1 x y t, arc_r2 x t).

  Definition eps : R := 1 / 1000000.
  Definition isz (x : R) : bool := (lroundR (x * (1 / pr_lin C)) =? 0)%Z.
  Definition ltb (a b : R) : bool := if Rlt_dec a b then true else false.
  Definition leb (a b : R) : bool := if Rle_dec a b then true else false.

  (** motion_primitive_builder.cpp 77-157: is the move in the list of the heading [i]. *)
  Definition keep (i : Z) (p : prim) : outcome bool :=
    let '(dx, dy, t) := p in
    if ((dx =? 0) && (dy =? 0))%Z then Ok (negb (t =? 0)%Z)                               (* 77-86 *)
    else
      let next := (let n := i + t in if pr_angle C <=? n then n - pr_angle C else n)%Z in   (* 87-91 *)
      do m <- getMotion i (dx + pr_range C, dy + pr_range C, next)%Z;
      let '(mx, my, mt) := m in
      if isz mx && negb (isz my) then Ok false                                         (* 96-100 *)
      else if leb (2 * PI / 4 - eps) (Rabs mt) then Ok false                           (* 102-108 *)
      else if (t =? 0)%Z then
        if isz mx then Ok false                                                        (* 113-117 *)
        else if Req_EM_T my 0 then Ok true                                             (* the aspect is infinite *)
        else Ok (negb (ltb (Rabs (mx / my)) (pr_aspect C)))                            (* 118-123 *)
      else if ltb (Rabs my) (pr_lin C / 2) then Ok false                               (* 129-133 *)
      else if ltb (mx * my * mt) 0 then Ok false                                       (* 134-137 *)
      else if (dx * dx + dy * dy <? 3 * 3)%Z then Ok false                             (* 138-141 *)
      else
        let '(r1, r2) := radiuses m in
        if leb (pr_lin C * (3/2)) (Rabs (r1 - r2)) then Ok false                       (* 145-149 *)
        else Ok (negb (ltb (Rabs ((r1 + r2) / 2)) (pr_min_radius C))).                 (* 150-154 *)

  (** 55-69: the displacements that are tried. *)
  Definition search_list : list prim :=
    flat_map (fun dx => flat_map (fun dy =>
      if (pr_range C * pr_range C <? dx * dx + dy * dy)%Z then []
      else map (fun t => (dx, dy, t)) (range_excl 0 (pr_angle C))) (range_incl (- pr_range C) (pr_range C))) (range_incl (- pr_range C) (pr_range C)).
  (** The moves of one heading, and of all headings (71-160). *)
  Definition moves (i : Z) : outcome (list prim) :=
    foldM (fun l p => do b <- keep i p; Ok (if b then l ++ [p] else l)) search_list [].
  Definition build : outcome (list (list prim)) :=
    foldM (fun ls i => do l <- moves i; Ok (ls ++ [l])) (range_excl 0 (pr_angle C)) [].
End Primitives.
