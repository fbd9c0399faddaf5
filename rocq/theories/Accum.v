(** Model of PointcloudAccumulator (/repo/costmap_cspace/include/costmap_cspace/pointcloud_accumulator.h).
    Times are integers (nanoseconds); a cloud is any value. *)
From Verif Require Import Common.
Local Open Scope Z_scope.

Section Accum.
  Context {T : Type}.
  (** class Points, 42-53: a cloud with its time stamp. *)
  Record points := Points { cloud : T; stamp : Z }.

  (** Condition of line 79. *)
  Definition expired (hold now : Z) (p : points) : bool := stamp p + hold <? now.

  (** The loop of push, 77-85.  [erase] returns the next iterator and [continue] then runs [++it]:
      the element after an erased one is stepped over; stepping over the end is undefined behaviour. *)
  Fixpoint expire (hold now : Z) (l : list points) : outcome (list points) :=
    match l with
    | [] => Ok []
    | p :: l' =>
        if expired hold now p then
          match l' with
          | [] => UB
          | p' :: l'' => do r <- expire hold now l''; Ok (p' :: r)
          end
        else Ok (p :: l')
    end.
  (** push, 75-87. *)
  Definition push (hold : Z) (l : list points) (p : points) : outcome (list points) :=
    do r <- expire hold (stamp p) l; Ok (r ++ [p]).
  (** A sequence of pushes to a new accumulator (reset/clear, 64-73). *)
  Definition pushes (hold : Z) (ps : list points) : outcome (list points) := foldM (push hold) ps [].
End Accum.
Arguments points : clear implicits.
