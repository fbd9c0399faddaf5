(** Model of the geometric queries of trajectory_tracker/include/trajectory_tracker/path2d.h
    (findNearestWithDistance, remainedDistance, getCurvature) and of eigen_line.h and average.h.
    Coordinates and intermediate results are exact reals (the code mixes double and float).
    Iterators are indices; dereferencing outside the vector is UB. *)
From Coq Require Import Reals.
From Verif Require Import Common Path2D.
Local Open Scope R_scope.

(** Eigen::Vector2d. *)
Definition vec := (R * R)%type.
Definition pos (p : pose2) : vec := (p_x p, p_y p).
Definition vsub (a b : vec) : vec := (fst a - fst b, snd a - snd b).
Definition dot (a b : vec) : R := fst a * fst b + snd a * snd b.
Definition nrm (a : vec) : R := sqrt (dot a a).
(** eigen_line.h 53-56 cross2. *)
Definition cross2 (a b : vec) : R := fst a * snd b - snd a * fst b.
(** eigen_line.h 40-51 curv3p. *)
Definition curv3p (a b c : vec) : R :=
  2 * (fst a * snd b + fst b * snd c + fst c * snd a - fst a * snd c - fst b * snd a - fst c * snd b) /
  sqrt (dot (vsub b a) (vsub b a) * dot (vsub b c) (vsub b c) * dot (vsub c a) (vsub c a)).
(** eigen_line.h 58-64 lineDistance. *)
Definition lineDistance (a b c : vec) : R := cross2 (vsub b a) (vsub c a) / nrm (vsub b a).
(** eigen_line.h 69-79 lineStripDistanceSigned. *)
Definition lineStripDistanceSigned (a b c : vec) : R :=
  if Rle_dec (dot (vsub b a) (vsub c a)) 0 then - nrm (vsub c a)
  else if Rle_dec (dot (vsub a b) (vsub c b)) 0 then nrm (vsub c b)
  else Rabs (lineDistance a b c).

Section Path.
  Variable l : list pose2.

  (** path2d.h 199-222: [n] iterations are left ([it + 1 == end] iff [n = 1]); [it_prev]
      is always [it - 1]. *)
  Fixpoint fn_loop (target : vec) (max_range eps : R) (n it nearest : nat) (min_dist searched : R) : outcome (nat * R) :=
    match n with
    | O => Ok (nearest, min_dist)
    | S n' =>
        do p <- at_ l it;
        do q <- at_ l (it - 1);
        let searched := searched + nrm (vsub (pos p) (pos q)) in
        if (if Rlt_dec 0 max_range then if Rlt_dec max_range searched then true else false else false)
        then Ok (nearest, min_dist)                                            (* 203-204 *)
        else
          let d := lineStripDistanceSigned (pos q) (pos p) target in
          let d_compare := if Rlt_dec 0 d then d else - d - eps in              (* 211 *)
          if (if Rle_dec d_compare min_dist then true else
              match n' with O => if Rle_dec (Rabs d) (min_dist + eps) then true else false | S _ => false end)
          then fn_loop target max_range eps n' (S it) it (Rabs d) searched      (* 216-220 *)
          else fn_loop target max_range eps n' (S it) nearest min_dist searched
    end.
  (** path2d.h 180-225 findNearestWithDistance on [begin, end); the distance is [None] for the
      largest double. *)
  Definition findNearestWithDistance (b e : nat) (target : vec) (max_range eps : R) : outcome (nat * option R) :=
    if Nat.eqb b e then
      if Nat.eqb e (length l) then Ok (e, None)
      else do p <- at_ l e; Ok (e, Some (nrm (vsub (pos p) target)))
    else
      do p <- at_ l b;
      do r <- fn_loop target max_range eps (e - S b) (S b) b (nrm (vsub (pos p) target) + eps) 0;
      Ok (fst r, Some (snd r)).

  (** path2d.h 252-257: [n] poses are left. *)
  Fixpoint rd_loop (n it : nat) (remain : R) : outcome R :=
    match n with
    | O => Ok remain
    | S n' =>
        do q <- at_ l (it - 1);
        do p <- at_ l it;
        rd_loop n' (S it) (remain + nrm (vsub (pos q) (pos p)))
    end.
  (** path2d.h 226-259 remainedDistance.  Forming the iterator [end - 2] of a single pose path (234) is
      taken as harmless. *)
  Definition remainedDistance (b nearest e : nat) (target_on_line : vec) : outcome R :=
    do pn <- at_ l nearest;
    let remain := nrm (vsub (pos pn) target_on_line) in
    if Nat.leb e (nearest + 1) then
      if Nat.ltb e (b + 2) then Ok 0
      else
        do last <- at_ l (e - 1);
        do pre <- at_ l (e - 2);
        if Rle_dec 0 (dot (vsub (pos last) (pos pre)) (vsub (pos last) target_on_line))
        then Ok remain else Ok (- remain)
    else rd_loop (e - S nearest) (S nearest) remain.

  (** path2d.h 269-286: curvature of the arc from the first to the second of two poses.  [x], [y], [yaw]:
      the second pose relative to the first.  rotate (97-110) also brings the yaw to one turn, which
      sine and cosine do not see.  The same expressions are in rotation_cache.cpp 81-86. *)
  Definition arc_r1 (x y yaw : R) : R := y + x * cos yaw / sin yaw.
  Definition arc_r2 (x yaw : R) : R :=
    let m := sqrt (x * x + (x * cos yaw / sin yaw) * (x * cos yaw / sin yaw)) in
    if Rlt_dec (x * sin yaw) 0 then - m else m.
  Definition two_pose_curvature (p q : pose2) : R :=
    let dx := p_x q - p_x p in
    let dy := p_y q - p_y p in
    let x := cos (- p_yaw p) * dx - sin (- p_yaw p) * dy in
    let y := sin (- p_yaw p) * dx + cos (- p_yaw p) * dy in
    let yaw := p_yaw q - p_yaw p in
    if Rlt_dec (Rabs (sin yaw)) (1 / 1000000) then 0
    else 1 / ((arc_r1 x y yaw + arc_r2 x yaw) / 2).

  (** path2d.h 288-300 with average.h 42-52: sum and number of the curvatures taken so far. *)
  Fixpoint curv_loop (target : vec) (range2 : R) (n it : nat) (sum : R) (num : nat) : outcome (R * nat) :=
    match n with
    | O => Ok (sum, num)
    | S n' =>
        do a <- at_ l (it - 2);
        do p <- at_ l (it - 1);
        do q <- at_ l it;
        let sum := sum + curv3p (pos a) (pos p) (pos q) in
        if Rlt_dec range2 (dot (vsub (pos q) target) (vsub (pos q) target)) then Ok (sum, S num)
        else curv_loop target range2 n' (S it) sum (S num)
    end.
  (** path2d.h 260-303 getCurvature on [begin, end). *)
  Definition getCurvature (b e : nat) (target : vec) (max_range : R) : outcome R :=
    if Nat.leb (e - b) 1 then Ok 0
    else if Nat.eqb (e - b) 2 then
      do p <- at_ l b;
      do q <- at_ l (b + 1);
      Ok (two_pose_curvature p q)
    else
      do r <- curv_loop target (max_range * max_range) (e - (b + 2)) (b + 2) 0 0;
      Ok (match snd r with O => 0 | S _ => fst r / INR (snd r) end).
End Path.
