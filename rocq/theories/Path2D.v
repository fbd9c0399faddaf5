(** Model of trajectory_tracker/include/trajectory_tracker/path2d.h and eigen_line.h.
    Coordinates are exact reals (the code mixes double positions with float
    intermediate results).  A NaN velocity is [None].  Iterators are indices; reading
    outside the vector or forming an iterator past end() is UB. *)
From Coq Require Import Reals.
From Verif Require Import Common.
Local Open Scope R_scope.

(** path2d.h 51-60 Pose2D. *)
Record pose2 := mkP2 { p_x : R; p_y : R; p_yaw : R; p_vel : option R }.

Definition sq (a b : pose2) : R := (p_x a - p_x b) * (p_x a - p_x b) + (p_y a - p_y b) * (p_y a - p_y b).
Definition norm2 (a b : pose2) : R := sqrt (sq a b).

(** *** fromMsg, 306-339.  State: the vector built so far and the pending turn end. *)
Definition fm_step (eps : R) (st : list pose2 * option pose2) (next : pose2) : list pose2 * option pose2 :=
  let '(out, turning) := st in
  match rev out with
  | [] => ([next], turning)                                   (* 314-318 *)
  | back :: _ =>
      if Rle_dec (eps * eps) (sq back next)                   (* 319 *)
      then (out ++ match turning with Some e => [e] | None => [] end ++ [next], None)
      else (out, Some (mkP2 (p_x back) (p_y back) (p_yaw next) (p_vel next)))  (* 330-332 *)
  end.
Definition fromMsg (eps : R) (poses : list pose2) : list pose2 :=
  let '(out, turning) := fold_left (fm_step eps) poses ([], None) in
  out ++ match turning with Some e => [e] | None => [] end.   (* 335-338 *)
(** 342-351 toMsg keeps position, yaw and velocity of each pose (the quaternion
    round trip of the yaw is not modelled). *)
Definition toMsg (p : list pose2) : list pose2 := p.

(** *** findLocalGoal, 134-170.  [None] stands for [end]. *)
Definition at_ (l : list pose2) (i : nat) : outcome pose2 :=
  match nth_error l i with Some p => Ok p | None => UB end.

(** 157-160: direction of travel along the segment, relative to the heading; the code
    divides by the segment length, which does not change the sign. *)
Definition sign_vel (prev p : pose2) : R :=
  (p_x p - p_x prev) * cos (p_yaw p) + (p_y p - p_y prev) * sin (p_yaw p).

Section LocalGoals.
  Variables (l : list pose2) (allow_switch_back allow_in_place_turn : bool) (epsilon : R).

  (** 143-168: [n] iterations are left. *)
  Fixpoint flg_loop (n : nat) (it it_prev : nat) (sign_prev : R) : outcome (option nat) :=
    match n with
    | O => Ok None
    | S n' =>
        do p <- at_ l it;
        do q <- at_ l it_prev;
        if Rlt_dec (sq p q) epsilon then
          if allow_in_place_turn then Ok (Some it)
          else flg_loop n' (S it) it 0
        else if allow_switch_back then
          let s := sign_vel q p in
          if Rlt_dec (sign_prev * s) 0 then Ok (Some it)
          else flg_loop n' (S it) it s
        else flg_loop n' (S it) it sign_prev
    end.
  Definition findLocalGoal (begin_ end_ : nat) : outcome (option nat) :=
    if (length l <=? begin_)%nat then UB     (* begin + 1 is past end() *)
    else flg_loop (end_ - S begin_) (S begin_) begin_ 0.

  (** 353-372 enumerateLocalGoals; [fuel] bounds the while loop, [None] = out of fuel. *)
  Fixpoint elg_loop (fuel : nat) (it_search_begin end_ : nat) : option (outcome (list nat)) :=
    match fuel with
    | O => None
    | S f =>
        match findLocalGoal it_search_begin end_ with
        | UB => Some UB
        | Ok None => Some (Ok [])
        | Ok (Some g) =>
            match elg_loop f g end_ with
            | None => None
            | Some UB => Some UB
            | Some (Ok r) => Some (Ok (g :: r))
            end
        end
    end.
  Definition enumerateLocalGoals (begin_ end_ : nat) : option (outcome (list nat)) :=
    elg_loop (S (end_ - begin_)) begin_ end_.
End LocalGoals.

(** *** getEstimatedTimeOfArrivals, 374-408 (on the whole vector). *)
Definition turn_angle (a b : pose2) : R :=
  let d := Rabs (p_yaw a - p_yaw b) in if Rlt_dec PI d then 2 * PI - d else d.
Fixpoint eta_loop (lin ang elapsed : R) (prev : pose2) (l : list pose2) : list R :=
  match l with
  | [] => []
  | p :: l' =>
      let dist := norm2 prev p in
      let e := if Rlt_dec (1 / 1000000) dist then elapsed + dist / lin
               else elapsed + turn_angle prev p / ang in
      e :: eta_loop lin ang e p l'
  end.
Definition etas (lin ang initial : R) (l : list pose2) : list R :=
  match l with [] => [] | p :: l' => initial :: eta_loop lin ang initial p l' end.

(** *** length, 127-133. *)
Fixpoint len_loop (prev : pose2) (l : list pose2) : R :=
  match l with [] => 0 | p :: l' => norm2 prev p + len_loop p l' end.
Definition path_length (l : list pose2) : R :=
  match l with [] => 0 | p :: l' => len_loop p l' end.
