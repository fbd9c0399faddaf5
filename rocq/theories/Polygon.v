(** Model of the footprint polygon and of the inflation template built from it
    (/repo/costmap_cspace/include/costmap_cspace/polygon.h, costmap_3d_layer/footprint.h).
    Coordinates are real numbers; the float rounding of the code is not modelled. *)
From Coq Require Import Reals Lra.
From Verif Require Import Common.
Local Open Scope R_scope.

Definition Rleb (a b : R) : bool := if Rle_dec a b then true else false.
Definition Rltb (a b : R) : bool := if Rlt_dec a b then true else false.

(** Vec, polygon.h:44-88. *)
Record vec2 := V2 { vx : R; vy : R }.
Definition vsub (a b : vec2) : vec2 := V2 (vx a - vx b) (vy a - vy b).
Definition cross (a b : vec2) : R := vx a * vy b - vy a * vx b.
Definition dot (a b : vec2) : R := vx a * vx b + vy a * vy b.
(** Vec::dist, 75-78: hypot. *)
Definition vdist (a b : vec2) : R := sqrt ((vx a - vx b) * (vx a - vx b) + (vy a - vy b) * (vy a - vy b)).
(** Vec::dist_line, 79-82. *)
Definition dist_line (p a b : vec2) : R := cross (vsub b a) (vsub p a) / vdist b a.
(** Vec::dist_linestrip, 83-90. *)
Definition dist_linestrip (p a b : vec2) : R :=
  if Rleb (dot (vsub b a) (vsub p a)) 0 then vdist p a
  else if Rleb (dot (vsub a b) (vsub p b)) 0 then vdist p b
  else Rabs (dist_line p a b).

(** Polygon(xml), 100-124: the vertices with the first one repeated at the end; fewer than three are refused (None). *)
Definition polygon_of (points : list vec2) : option (list vec2) :=
  match points with
  | v0 :: _ :: _ :: _ => Some (points ++ [v0])
  | _ => None
  end.

(** Polygon::radius, 143-153: the initial value is 0. *)
Definition radius (v : list vec2) : R :=
  fold_left (fun r p => let d := sqrt (vx p * vx p + vy p * vy p) in if Rltb r d then d else r) v 0.
(** Polygon::move, 154-164. *)
Definition move1 (x y yaw : R) (p : vec2) : vec2 :=
  V2 (cos yaw * vx p - sin yaw * vy p + x) (sin yaw * vx p + cos yaw * vy p + y).
Definition move (x y yaw : R) (v : list vec2) : list vec2 := map (move1 x y yaw) v.

(** Consecutive pairs v[i], v[i+1] for i < size - 1. *)
Fixpoint edges (v : list vec2) : list (vec2 * vec2) :=
  match v with
  | a :: (b :: _) as v' => (a, b) :: edges v'
  | _ => []
  end.
(** Body of the loop of Polygon::inside, 170-180 (also safety_limiter.cpp:677-688). *)
Definition crossing (a : vec2) (e : vec2 * vec2) : bool :=
  let (v1, v2) := e in
  if (Rleb (vy v1) (vy a) && Rltb (vy a) (vy v2)) || (Rleb (vy v2) (vy a) && Rltb (vy a) (vy v1))
  then Rltb (vx a) (vx v1 + (vx v2 - vx v1) * (vy a - vy v1) / (vy v2 - vy v1))
  else false.
(** Polygon::inside, 165-183.  An empty polygon would run the loop to [size_t(-1)]. *)
Definition inside (v : list vec2) (a : vec2) : outcome bool :=
  match v with [] => UB | _ => Ok (Nat.odd (length (filter (crossing a) (edges v)))) end.
(** Polygon::dist, 184-196: starts from the largest float, [fmax]. *)
Definition FLT_MAX : R := IZR ((2 ^ 24 - 1) * 2 ^ 104).
Definition pdist (v : list vec2) (a : vec2) : outcome R :=
  match v with [] => UB | _ =>
    Ok (fold_left (fun d e => let d' := dist_linestrip a (fst e) (snd e) in if Rltb d' d then d' else d) (edges v) FLT_MAX) end.

(** ** The template, footprint.h:142-193 *)
Record params := Params { expand : R; spread : R; min_cost : Z; lin_res : R; ang_res : R }.
(** std::ceil and the conversion to int of a non-negative value (range not modelled). *)
Definition ceil (r : R) : Z := (- Int_part (- r))%Z.
(** Conversion of a non-negative float to char: truncation. *)
Definition trunc_pos (r : R) : Z := Int_part r.
(** 147-148. *)
Definition range_max (c : params) (fp : list vec2) : Z := ceil ((radius fp + expand c + spread c) / lin_res c).
(** 157-190, one cell. *)
Definition template_cell (c : params) (fp : list vec2) (x y yaw : Z) : outcome Z :=
  let f := move (IZR x * lin_res c) (IZR y * lin_res c) (IZR yaw * ang_res c) fp in
  do i <- inside f (V2 0 0);
  do v <- (if i then Ok 100%Z else
    do d <- pdist f (V2 0 0);
    Ok (if Rltb d (expand c) then 100%Z
        else if Rltb d (expand c + spread c)
        then trunc_pos (100 - (d - expand c) * (100 - IZR (min_cost c)) / spread c)
        else if Rltb (Rabs (expand c + spread c - d)) (lin_res c / 100) then min_cost c
        else 0%Z));
  Ok (if (if Req_EM_T (radius fp) 0 then true else false) && (x =? 0)%Z && (y =? 0)%Z then 100%Z else v).
