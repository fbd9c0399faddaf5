(** Specification for 3-DoF motions: which grid poses a motion passes, and what
    it means that a continuous pose lies in a grid pose's cell. *)
From Coq Require Import QArith Qabs.
From Verif Require Import Common CyclicVecSpec MotionCache Cost3D.
Local Open Scope Z_scope.

(** Inside the map and not blocked (costs above 99 block). *)
Definition free (cm : costmap) (p : vec) : Prop :=
  0 <= vx p < cm_w cm /\ 0 <= vy p < cm_h cm /\ 0 <= vt p < cm_a cm /\ cm_at cm p <= 99.

(** The grid poses a motion from [cur] to [next] passes: both ends; for a turn on
    the spot, every yaw of the shorter arc; otherwise the cells of the cached motion
    for this start yaw and displacement. *)
Inductive swept (C : cache) (page_size : Z) (cm : costmap) (cur next : vec) : vec -> Prop :=
| sw_start : swept C page_size cm cur next cur
| sw_end : swept C page_size cm cur next next
| sw_turn d k : vx next = vx cur -> vy next = vy cur ->
    same_direction (cm_a cm) d (vt next - vt cur) -> signed_range (cm_a cm) d ->
    (0 <= k <= d \/ d <= k <= 0) ->
    swept C page_size cm cur next [vx cur; vy cur; (vt cur + k) mod cm_a cm]
| sw_move pg m : ~ (vx next = vx cur /\ vy next = vy cur) ->
    assoc [vx next - vx cur; vy next - vy cur; vt next mod cm_a cm] (C (vt cur mod page_size)) = Some pg ->
    In m (pg_motion pg) ->
    swept C page_size cm cur next [vx cur + vx m; vy cur + vy m; vt m].

(** A continuous pose lies in (the closed square and yaw sector of) a grid pose. *)
Definition in_cell (angle : Z) (p : posef) (c : vec) : Prop :=
  (Qabs (px p - inject_Z (vx c)) <= 1 # 2)%Q /\
  (Qabs (py p - inject_Z (vy c)) <= 1 # 2)%Q /\
  exists n, (Qabs (pt p - inject_Z n) <= 1 # 2)%Q /\ vt c = n mod angle.

(** [l1] is a subsequence of [l2]. *)
Inductive subseq {A} : list A -> list A -> Prop :=
| sub_nil l : subseq [] l
| sub_take a l1 l2 : subseq l1 l2 -> subseq (a :: l1) (a :: l2)
| sub_skip a l1 l2 : subseq l1 l2 -> subseq l1 (a :: l2).

(** What a motion cache must satisfy for the displacements the planner tries ([tried yaw d]: from heading [yaw] by [d], whose
    last component is the heading at the end): yaws are canonical, cells of a motion that keeps its yaw lie in the rectangle spanned
    by the displacement, the others (all if there is a single
    heading, since [cycle] turns 0 into -1 then) within [band] of the start.  MotionResetProps.v proves it of the cache the code fills. *)
Definition cache_ok (tried : Z -> vec -> Prop) (C : cache) (angle page_size : Z) (band : vec) : Prop :=
  forall yaw d pg m, 0 <= yaw < page_size -> tried yaw d -> assoc d (C yaw) = Some pg -> In m (pg_motion pg) ->
    0 <= vt m < angle /\
    (vt d = yaw -> (0 <= vx m <= vx d \/ vx d <= vx m <= 0) /\ (0 <= vy m <= vy d \/ vy d <= vy m <= 0)) /\
    (vt d <> yaw \/ angle = 1 -> - vx band <= vx m <= vx band /\ - vy band <= vy m <= vy band).
