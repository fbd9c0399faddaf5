(** Model of the velocity and acceleration limiter of the trajectory tracker
    (/repo/trajectory_tracker/include/trajectory_tracker/basic_control.h) in
    IEEE binary32, the C++ [float].

    Simplification: every operation is rounded once (no fused multiply-add, no
    extended intermediate precision). *)
From Coq Require Import ZArith List Bool Reals.
From Flocq Require Import Core.Core IEEE754.BinarySingleNaN.
From Verif Require Import CostF32.
Import ListNotations.

Definition sadd (a b : f32) : f32 := Bplus (prec_gt_0_ := p32) (prec_lt_emax_ := e32) mode_NE a b.
Definition ssub (a b : f32) : f32 := Bminus (prec_gt_0_ := p32) (prec_lt_emax_ := e32) mode_NE a b.
Definition smul (a b : f32) : f32 := Bmult (prec_gt_0_ := p32) (prec_lt_emax_ := e32) mode_NE a b.
Definition sneg (a : f32) : f32 := Bopp a.
Definition slt (a b : f32) : bool := Bltb a b.
Definition sle (a b : f32) : bool := Bleb a b.
Definition s0 : f32 := B754_zero false.

(** [clip], basic_control.h:43-51. *)
Definition clip (v mx : f32) : f32 :=
  if slt mx v then mx else if slt v (sneg mx) then sneg mx else v.

(** [VelAccLimitter::set], basic_control.h:78-92; [p] is [val_prev_].  The
    result is both the returned value and the new [val_prev_]. *)
Definition lim_set (p v vel acc dt : f32) : f32 :=
  let v1 := clip v vel in
  let hi := sadd p (smul dt acc) in
  let lo := ssub p (smul dt acc) in
  let v2 := if slt hi v1 then hi else if slt v1 lo then lo else v1 in
  if is_finite v2 then v2 else s0.

(** [VelAccLimitter::increment], 73-77. *)
Definition lim_increment (p v vel acc dt : f32) : f32 := lim_set p (sadd p v) vel acc dt.

(** Calls on one limiter object, and the stored value after a sequence of them;
    the constructor (68-71) and [clear] (97-100) store 0. *)
Inductive lim_op :=
| OpSet (v vel acc dt : f32)
| OpIncrement (v vel acc dt : f32)
| OpClear.
Definition lim_step (p : f32) (o : lim_op) : f32 :=
  match o with
  | OpSet v vel acc dt => lim_set p v vel acc dt
  | OpIncrement v vel acc dt => lim_increment p v vel acc dt
  | OpClear => s0
  end.
Definition lim_run (os : list lim_op) : f32 := fold_left lim_step os s0.
