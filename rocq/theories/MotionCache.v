(** Model of planner_cspace/src/motion_cache.cpp and motion_cache.h.

    A grid displacement is a vector [x; y; yaw].  Sample positions along a motion
    are rational triples: every finite float is rational, so [build_page] covers
    whatever the trigonometric code computes. *)
From Coq Require Import QArith Qround Qabs.
From Verif Require Import Common CyclicVec.
Local Open Scope Z_scope.

Definition vec := list Z.
Definition veq (a b : vec) : bool := if list_eq_dec Z.eq_dec a b then true else false.
Definition vx (v : vec) : Z := nth 0 v 0.
Definition vy (v : vec) : Z := nth 1 v 0.
Definition vt (v : vec) : Z := nth 2 v 0.

Record posef := mkPosef { px : Q; py : Q; pt : Q }.

(** cyclic_vec.h:61-64 [std::lround]: round half away from zero. *)
Definition lround (q : Q) : Z :=
  if Qle_bool 0 q then Qfloor (q + (1 # 2))%Q else - Qfloor (- q + (1 # 2))%Q.

(** motion_cache.cpp:99-101 (and 147-151): conversion to a grid pose and
    [cycleUnsigned(angle)]. *)
Definition to_cell (angle : Z) (p : posef) : vec :=
  [lround (px p); lround (py p); lround (pt p) mod angle].

(** motion_cache.h:47-69 Page. *)
Record page := mkPage { pg_motion : list vec; pg_interp : list posef }.

(** motion_cache.cpp:80-81, 93-114 and 139-164: the loop over the samples of one motion
    towards [d]; [registered] holds [d] and every cell already listed.  The sort at
    171-187 only permutes [pg_motion] and is not modelled, nor is [distance_]. *)
Fixpoint build_loop (angle istep : Z) (d : vec) (samples : list posef) (step : Z)
    (registered motion : list vec) (interp : list posef) : page :=
  match samples with
  | [] => mkPage motion interp
  | p :: rest =>
      let pos := to_cell angle p in
      let fresh := negb (veq pos d) && negb (existsb (veq pos) registered) in
      build_loop angle istep d rest (step + 1)
        (if fresh then pos :: registered else registered)
        (if fresh then motion ++ [pos] else motion)
        (if Z.rem step istep =? 0 then interp ++ [p] else interp)
  end.
Definition build_page (angle istep : Z) (d : vec) (samples : list posef) : page :=
  build_loop angle istep d samples 0 [d] [] [].

(** motion_cache.cpp:93-99, straight motions: the samples, in exact arithmetic
    (the code computes [d * resolution * ratio / resolution] in float). *)
Definition straight_samples (syaw : Z) (d : vec) (total : Z) : list posef :=
  map (fun s => mkPosef (inject_Z (vx d) * (s # Z.to_pos total))%Q (inject_Z (vy d) * (s # Z.to_pos total))%Q (inject_Z syaw))
      (range_excl 0 total).

(** A cache: per start yaw, a finite map from displacement to page
    (motion_cache.h:118-119, [cache_] and [page_size_]). *)
Definition cache := Z -> list (vec * page).

Fixpoint assoc (k : vec) (l : list (vec * page)) : option page :=
  match l with
  | [] => None
  | (a, b) :: l' => if veq a k then Some b else assoc k l'
  end.

(** motion_cache.h:76-84 [find(start_yaw, goal)]; [None] is the end iterator.  (The
    end iterators of different pages compare equal in libstdc++; the comparison at
    motion_cache.cpp:213 of iterators of two containers relies on that.) *)
Definition page_index (page_size yaw : Z) : outcome Z :=
  if page_size =? 0 then UB
  else let i := c_rem yaw page_size in Ok (if i <? 0 then i + page_size else i).
Definition find_yaw (C : cache) (page_size yaw : Z) (goal : vec) : outcome (option page) :=
  do i <- page_index page_size yaw; Ok (assoc goal (C i)).

(** motion_cache.h:85-92 [find(from, to)]. *)
Definition find_from (C : cache) (page_size : Z) (from to : vec) : outcome (option page) :=
  find_yaw C page_size (vt from) [vx to - vx from; vy to - vy from; vt to].

Definition lift (v : vec) : posef := mkPosef (inject_Z (vx v)) (inject_Z (vy v)) (inject_Z (vt v)).
Definition shift (v : vec) (p : posef) : posef :=
  mkPosef (inject_Z (vx v) + px p)%Q (inject_Z (vy v) + py p)%Q (pt p).

(** motion_cache.cpp:192-229 [interpolatePath]. *)
Definition segment (C : cache) (page_size : Z) (a b : vec) : outcome (list posef) :=
  if (vx a =? vx b) && (vy a =? vy b) then Ok [lift a]
  else
    do m <- find_from C page_size a b;
    match m with
    | None => Ok [lift a]
    | Some pg => Ok (map (shift a) (pg_interp pg))
    end.
Fixpoint interp_loop (C : cache) (page_size : Z) (prev : vec) (rest : list vec) : outcome (list posef) :=
  match rest with
  | [] => Ok [lift prev]
  | q :: rest' =>
      do s <- segment C page_size prev q;
      do r <- interp_loop C page_size q rest';
      Ok (s ++ r)
  end.
Definition interpolatePath (C : cache) (page_size : Z) (path : list vec) : outcome (list posef) :=
  match path with
  | [] => Ok []
  | p :: rest => interp_loop C page_size p rest
  end.
