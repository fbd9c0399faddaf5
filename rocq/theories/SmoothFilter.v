(** Model of trajectory_tracker/include/trajectory_tracker/filter.h in exact real
    arithmetic (the code uses float; the finiteness asserts are not modelled). *)
From Coq Require Import Reals List.
Import ListNotations.
Local Open Scope R_scope.

(** filter.h:40-44. *)
Inductive ftype := HPF | LPF.
(** filter.h:46-52. *)
Record fil := mkFil { f_k0 : R; f_k1 : R; f_k2 : R; f_k3 : R; f_x : R; f_out : R; f_angle : bool }.

(** filter.h:55-79, the constructor. *)
Definition make (ty : ftype) (tc out0 : R) (angle : bool) : fil :=
  let k3 := -1 / (1 + 2 * tc) in
  let k1 := (1 - 2 * tc) * k3 in
  match ty with
  | LPF => let k2 := - k3 in
           mkFil (- k1 - 1) k1 k2 k3 ((1 - k2) * out0 / k3) out0 angle
  | HPF => let k2 := - k3 * 2 * tc in
           mkFil (2 * tc * (- k1 + 1)) k1 k2 k3 ((1 - k2) * out0 / k3) out0 angle
  end.

(** filter.h:80-84. *)
Definition fset (f : fil) (out0 : R) : fil :=
  mkFil (f_k0 f) (f_k1 f) (f_k2 f) (f_k3 f) ((1 - f_k2 f) * out0 / f_k3 f) out0 (f_angle f).

(** filter.h:85-100.  [rem] is C's remainder(., 2 pi). *)
Definition fin (rem : R -> R) (f : fil) (i : R) : fil :=
  let u := if f_angle f then f_out f + rem (i - f_out f) else i in
  let x := f_k0 f * u + f_k1 f * f_x f in
  mkFil (f_k0 f) (f_k1 f) (f_k2 f) (f_k3 f) x (f_k2 f * u + f_k3 f * x) (f_angle f).

Definition frun (rem : R -> R) (f : fil) (is : list R) : fil := fold_left (fin rem) is f.
