(** Independent specification for cyclic coordinates: what "denotes the same
    direction" and "canonical" mean, with no reference to the code. *)
From Coq Require Import List ZArith Arith.
Import ListNotations.
Local Open Scope Z_scope.

(** Two integers denote the same direction of a circle cut in [res] sectors. *)
Definition same_direction (res a b : Z) : Prop := exists k, a = b + k * res.

(** The documented half-open intervals. *)
Definition signed_range (res x : Z) : Prop := - ((res + 1) / 2) <= x < res / 2.
Definition unsigned_range (res x : Z) : Prop := 0 <= x < res.

(** A vector is inside a map of size [sz] in its first [nc] coordinates. *)
Definition inside_first (nc : nat) (v sz : list Z) : Prop :=
  forall i a s, (i < nc)%nat -> nth_error v i = Some a -> nth_error sz i = Some s -> 0 <= a < s.

(** 32-bit signed integers. *)
Definition int32 (z : Z) : Prop := - 2 ^ 31 <= z < 2 ^ 31.

(** [w] is [v] with the first [nc] components kept and every other component
    replaced by the representative in [rng] of the same direction. *)
Definition canon (rng : Z -> Z -> Prop) (nc : nat) (v res w : list Z) : Prop :=
  length w = length v /\
  forall i e r x, nth_error v i = Some e -> nth_error res i = Some r -> nth_error w i = Some x ->
    if (i <? nc)%nat then x = e else same_direction r x e /\ rng r x.
