(** C37: the velocity/acceleration limiter. *)
From Coq Require Import ZArith List Bool Reals Lra Lia Psatz.
From Flocq Require Import Core.Core IEEE754.BinarySingleNaN.
From Verif Require Import FloatLib CostF32 BasicControl.
Import ListNotations.
Local Open Scope R_scope.

(** Specification vocabulary: [is_finite], [is_nan], float comparison
    ([sle a b]: both are numbers and [a <= b]) and [B2R], the value. *)

Definition nonneg32 (a : f32) : Prop := sle s0 a = true.

Lemma key_sneg (x : f32) : key (sneg x) = - key x.
Proof.
  unfold sneg. destruct (is_finite x) eqn:F.
  - rewrite !finite_key; [apply B2R_Bopp|assumption|rewrite is_finite_Bopp; assumption].
  - destruct x as [|[]| |]; try discriminate; simpl; lra.
Qed.
Lemma nan_sneg (x : f32) : nan (sneg x) = nan x.
Proof. destruct x; reflexivity. Qed.

Lemma finite_nan (x : f32) : is_finite x = true -> nan x = false.
Proof. destruct x; try discriminate; reflexivity. Qed.

Lemma nonneg32_key a : nonneg32 a -> nan a = false /\ 0 <= key a.
Proof. intros H. apply leb_true in H. destruct H as (_ & N & H). split; [exact N|exact H]. Qed.

(** Adding/subtracting a non-negative number to a finite one, as ordered keys. *)
Lemma sadd_key p a : is_finite p = true -> nonneg32 a ->
  nan (sadd p a) = false /\ key p <= key (sadd p a).
Proof.
  intros Fp Ha. apply nonneg32_key in Ha. destruct Ha as [Na Ha].
  destruct (is_finite a) eqn:Fa.
  - destruct (plus_key 24 128 p32 e32 p a Fp Fa) as [N K]. unfold sadd. split; [exact N|]. rewrite K.
    rewrite <- (clampM_id 128 (key p)) at 1 by apply key_bounds. apply clampM_mono.
    rewrite <- (rnd_key 24 128 p Fp) at 1. apply (rnd_mono 24 128 p32). lra.
  - pose proof (M_pos 128). pose proof (key_bounds 24 128 p).
    destruct a as [|[]| |]; try discriminate; [simpl in Ha; lra|].
    destruct p as [| | |]; try discriminate; simpl in *; split; auto; lra.
Qed.
Lemma ssub_key p a : is_finite p = true -> nonneg32 a ->
  nan (ssub p a) = false /\ key (ssub p a) <= key p.
Proof.
  intros Fp Ha. apply nonneg32_key in Ha. destruct Ha as [Na Ha].
  destruct (is_finite a) eqn:Fa.
  - destruct (minus_key 24 128 p32 e32 p a Fp Fa) as [N K]. unfold ssub. split; [exact N|]. rewrite K.
    rewrite <- (clampM_id 128 (key p)) at 2 by apply key_bounds. apply clampM_mono.
    rewrite <- (rnd_key 24 128 p Fp) at 2. apply (rnd_mono 24 128 p32). lra.
  - pose proof (M_pos 128). pose proof (key_bounds 24 128 p).
    destruct a as [|[]| |]; try discriminate; [simpl in Ha; lra|].
    destruct p as [| | |]; try discriminate; simpl in *; split; auto; lra.
Qed.

(** [clip] with a non-negative finite limit. *)
Lemma clip_key v mx : nan v = false -> is_finite mx = true -> 0 <= key mx ->
  is_finite (clip v mx) = true /\ - key mx <= key (clip v mx) <= key mx /\
  (- key mx <= key v <= key mx -> clip v mx = v).
Proof.
  intros Nv Fm Hm. unfold clip. pose proof (key_sneg mx) as Ks.
  destruct (slt mx v) eqn:A.
  - apply ltb_true in A. split; [exact Fm|]. split; lra.
  - apply ltb_false in A. destruct A as [A|[A|A]]; [rewrite (finite_nan _ Fm) in A; discriminate|congruence|].
    destruct (slt v (sneg mx)) eqn:B.
    + apply ltb_true in B. split; [unfold sneg; rewrite is_finite_Bopp; exact Fm|]. lra.
    + apply ltb_false in B. destruct B as [B|[B|B]]; [congruence| |].
      { rewrite nan_sneg, (finite_nan _ Fm) in B. discriminate. }
      split; [|split; [lra|reflexivity]].
      apply (finite_iff 24 128 v Nv). pose proof (finite_lt 24 128 mx Fm). rewrite <- finite_key in H by exact Fm. lra.
Qed.

(** The shape of [lim_set]: clamp the clipped target into [lo, hi]. *)
Lemma lim_set_key p v vel acc dt : is_finite p = true -> nan v = false -> is_finite vel = true -> nonneg32 vel ->
  nonneg32 (smul dt acc) ->
  let o := lim_set p v vel acc dt in
  let lo := ssub p (smul dt acc) in
  let hi := sadd p (smul dt acc) in
  is_finite o = true /\ key lo <= key o <= key hi /\
  (key lo <= key (clip v vel) <= key hi -> o = clip v vel) /\
  (key hi < key (clip v vel) -> o = hi) /\ (key (clip v vel) < key lo -> o = lo).
Proof.
  intros Fp Nv Fvel Hvel Ha o lo hi.
  destruct (sadd_key p _ Fp Ha) as [Nh Hh]. destruct (ssub_key p _ Fp Ha) as [Nl Hl]. fold hi in Nh, Hh. fold lo in Nl, Hl.
  apply nonneg32_key in Hvel. destruct Hvel as [_ Hvel].
  destruct (clip_key v vel Nv Fvel Hvel) as (Fc & Hc & _).
  pose proof (finite_lt 24 128 (clip v vel) Fc) as Hb. rewrite <- finite_key in Hb by exact Fc.
  pose proof (finite_lt 24 128 p Fp) as Hp. rewrite <- finite_key in Hp by exact Fp.
  unfold o, lim_set. fold lo hi.
  destruct (slt hi (clip v vel)) eqn:A.
  - apply ltb_true in A. destruct A as (_ & _ & A).
    assert (F : is_finite hi = true) by (apply (finite_iff 24 128 hi Nh); lra). rewrite F.
    repeat split; try exact F; try lra; try reflexivity; intros; lra.
  - apply ltb_false in A. destruct A as [A|[A|A]]; [congruence|rewrite (finite_nan _ Fc) in A; discriminate|].
    destruct (slt (clip v vel) lo) eqn:B.
    + apply ltb_true in B. destruct B as (_ & _ & B).
      assert (F : is_finite lo = true) by (apply (finite_iff 24 128 lo Nl); lra). rewrite F.
      repeat split; try exact F; try lra; try reflexivity; intros; lra.
    + apply ltb_false in B. destruct B as [B|[B|B]]; [rewrite (finite_nan _ Fc) in B; discriminate|congruence|].
      rewrite Fc. repeat split; try exact Fc; try lra; try reflexivity; intros; lra.
Qed.

(** * C37 *)

(** The limiter never returns NaN or an infinity, whatever it is given and
    whatever happened before. *)
Theorem C37_output_is_finite os : is_finite (lim_run os) = true.
Proof.
  unfold lim_run. assert (H : is_finite s0 = true) by reflexivity. revert H. generalize s0.
  induction os as [|o os IH]; intros p Hp; [exact Hp|]. cbn [fold_left]. apply IH.
  assert (G : forall q v vel acc dt, is_finite (lim_set q v vel acc dt) = true).
  { intros. unfold lim_set. match goal with |- is_finite (if is_finite ?x then _ else _) = true => destruct (is_finite x) eqn:E end;
      [exact E|reflexivity]. }
  destruct o; cbn [lim_step]; [apply G|apply G|reflexivity].
Qed.

(** One update with a target that is a number (possibly infinite), a finite
    non-negative velocity limit and a non-negative [dt*acc]: the output is
    within [prev - dt*acc, prev + dt*acc] (as rounded) of the previous output
    [prev], whatever calls led to it, ... *)
Theorem C37_change_is_bounded os v vel acc dt :
  is_nan v = false -> is_finite vel = true -> nonneg32 vel -> nonneg32 (smul dt acc) ->
  let prev := lim_run os in
  let out := lim_run (os ++ [OpSet v vel acc dt]) in
  sle (ssub prev (smul dt acc)) out = true /\ sle out (sadd prev (smul dt acc)) = true.
Proof.
  intros Nv Fvel Hvel Ha prev out. pose proof (C37_output_is_finite os) as Fp. fold prev in Fp.
  assert (E : out = lim_set prev v vel acc dt) by (unfold out, lim_run; rewrite fold_left_app; reflexivity).
  destruct (lim_set_key prev v vel acc dt Fp Nv Fvel Hvel Ha) as (F & B & _). rewrite E.
  destruct (sadd_key prev _ Fp Ha) as [Nh _]. destruct (ssub_key prev _ Fp Ha) as [Nl _].
  split; apply leb_true; split; auto using finite_nan; split; auto using finite_nan; apply B.
Qed.

(** ... its magnitude exceeds neither the velocity limit nor the previous
    magnitude, so it stays within the limit once it is there, ... *)
Theorem C37_velocity_limit_is_kept os v vel acc dt :
  is_nan v = false -> is_finite vel = true -> nonneg32 vel -> nonneg32 (smul dt acc) ->
  let prev := lim_run os in
  let out := lim_run (os ++ [OpSet v vel acc dt]) in
  Rabs (B2R out) <= Rmax (Rabs (B2R prev)) (B2R vel).
Proof.
  intros Nv Fvel Hvel Ha prev out. pose proof (C37_output_is_finite os) as Fp. fold prev in Fp.
  assert (E : out = lim_set prev v vel acc dt) by (unfold out, lim_run; rewrite fold_left_app; reflexivity).
  destruct (lim_set_key prev v vel acc dt Fp Nv Fvel Hvel Ha) as (F & B & C1 & C2 & C3). rewrite E.
  destruct (sadd_key prev _ Fp Ha) as [Nh Hh]. destruct (ssub_key prev _ Fp Ha) as [Nl Hl].
  pose proof (nonneg32_key _ Hvel) as [_ Hv].
  destruct (clip_key v vel Nv Fvel Hv) as (Fc & Hc & _).
  cbv zeta in *. set (o := lim_set prev v vel acc dt) in *.
  rewrite <- !finite_key by assumption.
  set (lo := ssub prev (smul dt acc)) in *. set (hi := sadd prev (smul dt acc)) in *.
  pose proof (Rmax_l (Rabs (key prev)) (key vel)) as M1. pose proof (Rmax_r (Rabs (key prev)) (key vel)) as M2.
  pose proof (Rle_abs (key prev)) as A1. pose proof (Rle_abs (- key prev)) as A2. rewrite Rabs_Ropp in A2.
  apply Rabs_le.
  destruct (Rlt_or_le (key hi) (key (clip v vel))) as [L|L].
  - rewrite (C2 L). lra.
  - destruct (Rlt_or_le (key (clip v vel)) (key lo)) as [L2|L2].
    + rewrite (C3 L2). lra.
    + rewrite C1 by lra. lra.
Qed.

(** ... and a target within the velocity limit and within reach is set
    exactly. *)
Theorem C37_target_in_reach_is_set os v vel acc dt :
  is_finite vel = true -> nonneg32 vel -> nonneg32 (smul dt acc) ->
  let prev := lim_run os in
  sle (sneg vel) v = true -> sle v vel = true ->
  sle (ssub prev (smul dt acc)) v = true -> sle v (sadd prev (smul dt acc)) = true ->
  lim_run (os ++ [OpSet v vel acc dt]) = v.
Proof.
  intros Fvel Hvel Ha prev L1 L2 L3 L4. pose proof (C37_output_is_finite os) as Fp. fold prev in Fp.
  unfold lim_run. rewrite fold_left_app. cbn [fold_left lim_step]. fold (lim_run os). fold prev.
  apply leb_true in L1, L2, L3, L4. destruct L1 as (_ & Nv & L1), L2 as (_ & _ & L2), L3 as (_ & _ & L3), L4 as (_ & _ & L4).
  rewrite key_sneg in L1.
  pose proof (nonneg32_key _ Hvel) as [_ Hv].
  destruct (clip_key v vel Nv Fvel Hv) as (_ & _ & C). specialize (C ltac:(lra)).
  destruct (lim_set_key prev v vel acc dt Fp Nv Fvel Hvel Ha) as (_ & _ & K & _). rewrite C in K. apply K. lra.
Qed.

(** [increment] is [set] to the previous value plus the increment. *)
Theorem C37_increment_is_limited os v vel acc dt :
  is_nan v = false -> is_finite v = true -> is_finite vel = true -> nonneg32 vel -> nonneg32 (smul dt acc) ->
  let prev := lim_run os in
  let out := lim_run (os ++ [OpIncrement v vel acc dt]) in
  sle (ssub prev (smul dt acc)) out = true /\ sle out (sadd prev (smul dt acc)) = true /\
  Rabs (B2R out) <= Rmax (Rabs (B2R prev)) (B2R vel).
Proof.
  intros _ Fv Fvel Hvel Ha prev out.
  assert (E : out = lim_run (os ++ [OpSet (sadd prev v) vel acc dt])).
  { unfold out, lim_run. rewrite !fold_left_app. reflexivity. }
  pose proof (C37_output_is_finite os) as Fp. fold prev in Fp.
  assert (N : is_nan (sadd prev v) = false) by (apply (plus_key 24 128 p32 e32 prev v Fp Fv)).
  destruct (C37_change_is_bounded os (sadd prev v) vel acc dt N Fvel Hvel Ha) as [H1 H2].
  pose proof (C37_velocity_limit_is_kept os (sadd prev v) vel acc dt N Fvel Hvel Ha) as H3.
  cbv zeta in *. fold prev in H1, H2, H3. rewrite E. auto.
Qed.

(** A target that is not a number stops at once. *)
Theorem C37_nan_target_stops os vel acc dt : lim_run (os ++ [OpSet B754_nan vel acc dt]) = s0.
Proof.
  assert (G : forall x : f32, slt x B754_nan = false).
  { intros x. apply ltb_false. right. left. reflexivity. }
  assert (G2 : forall x : f32, slt B754_nan x = false).
  { intros x. apply ltb_false. left. reflexivity. }
  assert (C : clip B754_nan vel = B754_nan) by (unfold clip; rewrite G, G2; reflexivity).
  unfold lim_run. rewrite fold_left_app. cbn [fold_left lim_step]. unfold lim_set. rewrite C, G, G2. reflexivity.
Qed.

(** * The hypotheses are met *)
Definition fl (m e : Z) : f32 := binary_normalize 24 128 p32 e32 mode_NE m e false.

Example C37_example :
  let vel := fl 1 0 in let acc := fl 2 0 in let dt := fl 1 (-4) in
  is_finite vel = true /\ nonneg32 vel /\ nonneg32 (smul dt acc) /\
  Beqb (lim_run [OpSet (B754_infinity false) vel acc dt]) (fl 1 (-3)) = true /\
  Beqb (lim_run [OpSet (fl 1 (-4)) vel acc dt]) (fl 1 (-4)) = true /\
  Beqb (lim_run [OpIncrement (fl 1 3) vel acc dt; OpIncrement (fl 1 3) vel acc dt]) (fl 1 (-2)) = true.
Proof. cbv zeta. repeat split; vm_compute; reflexivity. Qed.

(** * Findings *)

(** A NaN target (e.g. from a path with coincident points) makes the output
    jump to zero from any speed, i.e. by more than [dt*acc]. *)
Theorem C37_change_is_bounded_for_nan_refuted : ~ (forall os v vel acc dt,
  is_finite vel = true -> nonneg32 vel -> nonneg32 (smul dt acc) ->
  let prev := lim_run os in
  sle (ssub prev (smul dt acc)) (lim_run (os ++ [OpSet v vel acc dt])) = true).
Proof.
  intros H.
  specialize (H [OpSet (fl 1 0) (fl 1 0) (fl 1 0) (fl 1 0)] B754_nan (fl 1 0) (fl 1 0) (fl 1 (-4))).
  specialize (H eq_refl ltac:(vm_compute; reflexivity) ltac:(vm_compute; reflexivity)). cbv zeta in H.
  vm_compute in H. discriminate H.
Qed.

(** With a negative time step (odometry time stamps going backwards) the output
    leaves the velocity limit. *)
Theorem C37_negative_time_step_refuted : ~ (forall os v vel acc dt,
  is_finite v = true -> is_finite vel = true -> is_finite acc = true -> is_finite dt = true ->
  nonneg32 vel -> nonneg32 acc ->
  sle (sneg vel) (lim_run os) = true -> sle (lim_run os) vel = true ->
  sle (sneg vel) (lim_run (os ++ [OpSet v vel acc dt])) = true).
Proof.
  intros H.
  specialize (H [OpSet (fl (-1) 0) (fl 1 0) (fl 1 0) (fl 1 0)] (fl 1 0) (fl 1 0) (fl 1 0) (fl (-1) 0)).
  specialize (H eq_refl eq_refl eq_refl eq_refl).
  do 4 specialize (H ltac:(vm_compute; reflexivity)).
  vm_compute in H. discriminate H.
Qed.

Print Assumptions C37_output_is_finite.
Print Assumptions C37_change_is_bounded.
Print Assumptions C37_velocity_limit_is_kept.
