(** C01: normalisation of cyclic coordinates.  Statements only use
    [CyclicVecSpec] and the model functions. *)
From Verif Require Import Common CyclicVec CyclicVecSpec CyclicVecProofs.
Local Open Scope Z_scope.

(** Signed form: the result is the unique integer of the documented interval
    that denotes the same direction. *)
Theorem C01_signed_canonical : forall e res x, 0 < res ->
  cycleElement e res = Ok x <-> (same_direction res x e /\ signed_range res x).
Proof. exact cycleElement_iff. Qed.

Theorem C01_unsigned_canonical : forall e res x, 0 < res ->
  cycleUnsignedElement e res = Ok x <-> (same_direction res x e /\ unsigned_range res x).
Proof. exact cycleUnsignedElement_iff. Qed.

(** The normalisation is total for every positive resolution. *)
Theorem C01_total : forall e res, 0 < res ->
  (exists x, cycleElement e res = Ok x) /\ (exists x, cycleUnsignedElement e res = Ok x).
Proof.
  intros e res H.
  destruct (cycleElement_spec e res H) as (x & E & _).
  destruct (cycleUnsignedElement_spec e res H) as (y & F & _).
  split; [exists x|exists y]; assumption.
Qed.

Theorem C01_idempotent : forall e res x, 0 < res ->
  (cycleElement e res = Ok x -> cycleElement x res = Ok x) /\
  (cycleUnsignedElement e res = Ok x -> cycleUnsignedElement x res = Ok x).
Proof.
  intros e res x H. split; [apply cycleElement_idem|apply cycleUnsignedElement_idem]; exact H.
Qed.

(** Two values normalise to the same value iff they denote the same direction. *)
Theorem C01_separates : forall a b res, 0 < res ->
  (cycleElement a res = cycleElement b res <-> same_direction res a b) /\
  (cycleUnsignedElement a res = cycleUnsignedElement b res <-> same_direction res a b).
Proof.
  intros a b res H. split; [apply cycleElement_complete|apply cycleUnsignedElement_complete]; exact H.
Qed.

(** Whole vectors: the first [nc] components are untouched, the others are
    replaced by their canonical representative. *)
Theorem C01_vector : forall nc v res w, length v = length res ->
  (forall i r, (nc <= i)%nat -> nth_error res i = Some r -> 0 < r) ->
  (cycle nc v res = Ok w <->
   length w = length v /\
   forall i e r x, nth_error v i = Some e -> nth_error res i = Some r -> nth_error w i = Some x ->
     if (i <? nc)%nat then x = e else same_direction r x e /\ signed_range r x)
  /\
  (cycleUnsigned nc v res = Ok w <->
   length w = length v /\
   forall i e r x, nth_error v i = Some e -> nth_error res i = Some r -> nth_error w i = Some x ->
     if (i <? nc)%nat then x = e else same_direction r x e /\ unsigned_range r x).
Proof. intros. split; [apply cycle_iff|apply cycleUnsigned_iff]; assumption. Qed.

(** Resolution 0 is undefined behaviour (division by zero): the hypothesis
    [0 < res] of the theorems above cannot be dropped. *)
Theorem C01_zero_resolution_refuted : exists e, cycleElement e 0 = UB /\ cycleUnsignedElement e 0 = UB.
Proof. exists 0. split; reflexivity. Qed.

(** The fast bounds test [isExceeded] is exact on 32-bit values. *)
Theorem C01_isExceeded_exact : forall nc v sz, length v = length sz ->
  Forall int32 v -> Forall (fun s => int32 s /\ 0 <= s) sz ->
  (isExceeded nc v sz = false <-> inside_first nc v sz).
Proof. exact isExceeded_false_iff. Qed.

(** Non-vacuity. *)
Example C01_ex1 : cycleElement 9 16 = Ok (-7) /\ cycleElement (-9) 16 = Ok 7
  /\ cycleElement 8 16 = Ok (-8) /\ cycleElement (-8) 16 = Ok (-8) /\ cycleElement 1 3 = Ok (-2).
Proof. repeat split. Qed.
Example C01_ex2 : cycleUnsigned 2 [-5; 70; -33] [10; 10; 16] = Ok [-5; 70; 15].
Proof. reflexivity. Qed.
Example C01_ex3 : isExceeded 2 [-1; 3; 99] [10; 10; 16] = true /\ isExceeded 2 [9; 3; 99] [10; 10; 16] = false.
Proof. split; reflexivity. Qed.

Print Assumptions C01_signed_canonical.
Print Assumptions C01_unsigned_canonical.
Print Assumptions C01_total.
Print Assumptions C01_idempotent.
Print Assumptions C01_separates.
Print Assumptions C01_vector.
Print Assumptions C01_zero_resolution_refuted.
Print Assumptions C01_isExceeded_exact.
