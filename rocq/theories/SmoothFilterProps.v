(** Property C49: the smoothing filter. *)
From Coq Require Import Reals Lra Lia List Psatz.
From Verif Require Import SmoothFilter.
Import ListNotations.
Local Open Scope R_scope.

(** The decay factor of one step. *)
Definition decay (tc : R) : R := (2 * tc - 1) / (2 * tc + 1).
Lemma decay_bound tc : 0 < tc -> Rabs (decay tc) < 1.
Proof.
  intros H. unfold decay. apply Rabs_def1.
  - apply (Rmult_lt_reg_r (2 * tc + 1)); [lra|]. unfold Rdiv. rewrite Rmult_assoc, Rinv_l by lra. lra.
  - apply (Rmult_lt_reg_r (2 * tc + 1)); [lra|]. unfold Rdiv. rewrite Rmult_assoc, Rinv_l by lra. lra.
Qed.

Lemma frun_snoc rem f l a : frun rem f (l ++ [a]) = fin rem (frun rem f l) a.
Proof. unfold frun. rewrite fold_left_app. reflexivity. Qed.
Lemma repeat_snoc {A} (a : A) n : repeat a (S n) = repeat a n ++ [a].
Proof. induction n; [reflexivity|]. simpl. f_equal. exact IHn. Qed.

Lemma const_run rem f c n : f_angle f = false -> f_k1 f <> 1 ->
  let xs := f_k0 f * c / (1 - f_k1 f) in
  let g := frun rem f (repeat c n) in
  f_x g = xs + f_k1 f ^ n * (f_x f - xs) /\
  f_k0 g = f_k0 f /\ f_k1 g = f_k1 f /\ f_k2 g = f_k2 f /\ f_k3 g = f_k3 f /\ f_angle g = false /\
  (n <> O -> f_out g = f_k2 f * c + f_k3 f * f_x g).
Proof.
  intros Ha Hk. cbv zeta. induction n as [|n IH].
  - simpl. repeat split; try assumption; [ring|congruence].
  - rewrite repeat_snoc, frun_snoc. destruct IH as (I1 & I2 & I3 & I4 & I5 & I6 & _).
    set (g := frun rem f (repeat c n)) in *. unfold fin. rewrite I6. cbn [f_x f_k0 f_k1 f_k2 f_k3 f_out f_angle].
    rewrite I2, I3, I4, I5, I1. repeat split. simpl pow. field. lra.
Qed.

(** A constant input, from any initial output: after [n >= 1] steps the deviation
    from the input is exactly the initial deviation times
    2T/(1+2T) * ((2T-1)/(2T+1))^n, so it converges geometrically for every T > 0 ... *)
Theorem C49_lpf_converges rem tc out0 c n : 0 < tc -> (1 <= n)%nat ->
  f_out (frun rem (make LPF tc out0 false) (repeat c n)) - c =
  decay tc ^ n * (2 * tc / (1 + 2 * tc)) * (out0 - c).
Proof.
  intros Ht Hn. set (f := make LPF tc out0 false).
  assert (H1 : f_k1 f = decay tc) by (unfold f, make, decay; simpl; field; lra).
  assert (Hk : f_k1 f <> 1).
  { rewrite H1. pose proof (decay_bound tc Ht) as H. intros E. rewrite E, Rabs_R1 in H. lra. }
  destruct (const_run rem f c n eq_refl Hk) as (I1 & I2 & I3 & I4 & I5 & I6 & I7).
  rewrite I7 by lia. rewrite I1, H1. unfold f, make. cbn [f_k0 f_k1 f_k2 f_k3 f_x].
  set (q := decay tc ^ n). clearbody q.
  replace (1 - decay tc) with (2 / (2 * tc + 1)) by (unfold decay; field; lra).
  field. repeat split; lra.
Qed.

(** ... and a constant input equal to the initial value is passed unchanged. *)
Theorem C49_lpf_unit_gain rem tc c n : 0 < tc -> f_out (frun rem (make LPF tc c false) (repeat c n)) = c.
Proof.
  intros Ht. destruct n as [|n]; [reflexivity|].
  pose proof (C49_lpf_converges rem tc c c (S n) Ht ltac:(lia)) as H.
  replace (c - c) with 0 in H by ring. rewrite Rmult_0_r in H. lra.
Qed.

(** Convergence in the limit sense. *)
Theorem C49_lpf_limit rem tc out0 c : 0 < tc -> forall eps, 0 < eps ->
  exists N, forall n, (N <= n)%nat ->
    Rabs (f_out (frun rem (make LPF tc out0 false) (repeat c n)) - c) < eps.
Proof.
  intros Ht eps He. set (B := Rabs (2 * tc / (1 + 2 * tc) * (out0 - c)) + 1).
  assert (HB : 0 < B) by (unfold B; pose proof (Rabs_pos (2 * tc / (1 + 2 * tc) * (out0 - c))); lra).
  destruct (pow_lt_1_zero (decay tc) (decay_bound tc Ht) (eps / B) (Rdiv_lt_0_compat _ _ He HB)) as [N HN].
  exists (S N). intros n Hn. rewrite C49_lpf_converges by (try lia; exact Ht).
  rewrite Rmult_assoc, Rabs_mult. specialize (HN n ltac:(lia)).
  apply Rle_lt_trans with (Rabs (decay tc ^ n) * B).
  - apply Rmult_le_compat_l; [apply Rabs_pos|]. unfold B. lra.
  - apply (Rmult_lt_reg_r (/ B)); [apply Rinv_0_lt_compat; exact HB|]. rewrite Rmult_assoc, Rinv_r by lra. unfold Rdiv in HN. lra.
Qed.

(** The high-pass filter removes a constant input, geometrically. *)
Theorem C49_hpf_removes_constant rem tc out0 c n : 0 < tc -> (1 <= n)%nat ->
  f_out (frun rem (make HPF tc out0 false) (repeat c n)) = decay tc ^ n * ((out0 + 2 * tc * c) / (1 + 2 * tc)).
Proof.
  intros Ht Hn. set (f := make HPF tc out0 false).
  assert (H1 : f_k1 f = decay tc) by (unfold f, make, decay; simpl; field; lra).
  assert (Hk : f_k1 f <> 1).
  { rewrite H1. pose proof (decay_bound tc Ht) as H. intros E. rewrite E, Rabs_R1 in H. lra. }
  destruct (const_run rem f c n eq_refl Hk) as (I1 & I2 & I3 & I4 & I5 & I6 & I7).
  rewrite I7 by lia. rewrite I1, H1. unfold f, make. cbn [f_k0 f_k1 f_k2 f_k3 f_x].
  set (q := decay tc ^ n). clearbody q.
  replace (1 - decay tc) with (2 / (2 * tc + 1)) by (unfold decay; field; lra).
  field. repeat split; lra.
Qed.

(** Monotone response: the low-pass output never leaves the interval spanned by the
    initial value and the input, when T >= 1/2 (no ringing). *)
Theorem C49_lpf_no_overshoot rem tc out0 c n : 1/2 <= tc ->
  Rmin out0 c <= f_out (frun rem (make LPF tc out0 false) (repeat c n)) <= Rmax out0 c.
Proof.
  intros Ht. destruct n as [|n].
  - simpl. split; [apply Rmin_l|apply Rmax_l].
  - pose proof (C49_lpf_converges rem tc out0 c (S n) ltac:(lra) ltac:(lia)) as H.
    assert (D0 : 0 <= decay tc).
    { unfold decay. apply Rmult_le_pos; [lra|]. left. apply Rinv_0_lt_compat. lra. }
    assert (D1 : decay tc <= 1).
    { pose proof (decay_bound tc ltac:(lra)) as HD. apply Rabs_def2 in HD. lra. }
    assert (Q0 : 0 <= decay tc ^ S n) by (apply pow_le; exact D0).
    assert (Q1 : decay tc ^ S n <= 1).
    { rewrite <- (pow1 (S n)). apply pow_incr. lra. }
    assert (G0 : 0 <= 2 * tc / (1 + 2 * tc)).
    { apply Rmult_le_pos; [lra|]. left. apply Rinv_0_lt_compat. lra. }
    assert (G1 : 2 * tc / (1 + 2 * tc) <= 1).
    { apply (Rmult_le_reg_r (1 + 2 * tc)); [lra|]. unfold Rdiv. rewrite Rmult_assoc, Rinv_l by lra. lra. }
    set (g := decay tc ^ S n * (2 * tc / (1 + 2 * tc))) in *.
    assert (0 <= g <= 1) by (unfold g; split; [apply Rmult_le_pos; assumption|nra]). clearbody g.
    unfold Rmin, Rmax. destruct (Rle_dec out0 c); split; nra.
Qed.

(** Angle mode: whatever number of whole turns the input is away, the value actually
    filtered differs from the previous output by at most half a turn and denotes the
    same direction.  [rem] is any function with the contract of C's remainder. *)
Definition is_remainder (P : R) (rem : R -> R) : Prop :=
  forall x, Rabs (rem x) <= P / 2 /\ exists k : Z, rem x = x - IZR k * P.
Theorem C49_angle_takes_short_way P rem f i : is_remainder P rem -> f_angle f = true ->
  exists u, Rabs (u - f_out f) <= P / 2 /\ (exists k : Z, u = i + IZR k * P) /\
    forall f', f' = mkFil (f_k0 f) (f_k1 f) (f_k2 f) (f_k3 f) (f_x f) (f_out f) false ->
      f_out (fin rem f i) = f_out (fin rem f' u) /\ f_x (fin rem f i) = f_x (fin rem f' u).
Proof.
  intros HR Ha. exists (f_out f + rem (i - f_out f)). destruct (HR (i - f_out f)) as [H1 [k H2]].
  split; [replace (f_out f + rem (i - f_out f) - f_out f) with (rem (i - f_out f)) by ring; exact H1|].
  split; [exists (- k)%Z; rewrite H2, opp_IZR; ring|].
  intros f' ->. unfold fin. rewrite Ha. simpl. auto.
Qed.

(** Setting the output discards the history: the filter behaves from then on as a new one with that initial output. *)
Theorem C49_set_restarts rem ty tc out0 out1 angle is :
  fset (frun rem (make ty tc out0 angle) is) out1 = make ty tc out1 angle.
Proof.
  assert (G : forall l f, f_k0 (frun rem f l) = f_k0 f /\ f_k1 (frun rem f l) = f_k1 f /\ f_k2 (frun rem f l) = f_k2 f /\ f_k3 (frun rem f l) = f_k3 f /\ f_angle (frun rem f l) = f_angle f).
  { induction l as [|i l IH]; intros f; [repeat split|]. unfold frun in *. cbn [fold_left]. exact (IH (fin rem f i)). }
  destruct (G is (make ty tc out0 angle)) as (A & B & C & D & E). unfold fset. rewrite A, B, C, D, E. destruct ty; reflexivity.
Qed.

Example C49_ex : f_out (frun (fun x => x) (make LPF 2 0 false) [5; 5]) = 5 - 36 / 25 * 1.
Proof.
  pose proof (C49_lpf_converges (fun x => x) 2 0 5 2 ltac:(lra) ltac:(lia)) as H. unfold decay in H.
  change (repeat 5 2) with [5; 5] in H. simpl pow in H. lra.
Qed.
Example C49_ex_remainder : is_remainder 2 (fun x => x - IZR (up (x / 2 - 1 / 2)) * 2).
Proof.
  intros x. split; [|eauto]. destruct (archimed (x / 2 - 1 / 2)) as [H1 H2]. apply Rabs_le. lra.
Qed.

Print Assumptions C49_lpf_converges.
Print Assumptions C49_lpf_unit_gain.
Print Assumptions C49_lpf_limit.
Print Assumptions C49_hpf_removes_constant.
Print Assumptions C49_lpf_no_overshoot.
Print Assumptions C49_angle_takes_short_way.
Print Assumptions C49_set_restarts.
