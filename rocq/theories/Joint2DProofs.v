From Coq Require Import Reals Lra Psatz ZifyBool QArith Qround Qabs Qreals.
From Flocq Require Import Core.Core Core.Raux IEEE754.BinarySingleNaN.
From Verif Require Import Common CyclicVec CyclicVecSpec CyclicVecProofs CostAlg CostF32 FloatLib MotionCache Motion3DProofs SafetyLimiter BbfFloat Joint2D.
Local Open Scope R_scope.

Notation rnd32 := (round radix2 (SpecFloat.fexp 24 128) ZnearestE).
Lemma ve32 : Valid_exp (SpecFloat.fexp 24 128).
Proof. exact (fexp_correct 24 128 p32). Qed.

(** *** Rounding *)
Lemma rnd32_err (k : Z) x : (-100 <= k)%Z -> Rabs x < bpow radix2 k -> Rabs (rnd32 x - x) <= / 2 * bpow radix2 (k - 24).
Proof.
  intros Hk Hx. pose proof ve32 as V. destruct (Req_dec x 0) as [->|N].
  - rewrite round_0 by typeclasses eauto. rewrite Rminus_0_r, Rabs_R0. pose proof (bpow_gt_0 radix2 (k - 24)). lra.
  - eapply Rle_trans; [apply error_le_half_ulp; exact V|]. apply Rmult_le_compat_l; [lra|].
    rewrite ulp_neq_0 by exact N. apply bpow_le. unfold cexp, SpecFloat.fexp.
    pose proof (mag_le_bpow radix2 x k N Hx). unfold SpecFloat.emin. lia.
Qed.

Lemma bpow_12 : bpow radix2 12 = 4096. Proof. reflexivity. Qed.

Lemma format_ratio (m : Z) (k : Z) : (Z.abs m < 2 ^ 24)%Z -> (-100 <= k)%Z -> generic_format radix2 (SpecFloat.fexp 24 128) (IZR m * bpow radix2 k).
Proof.
  intros Hm Hk. pose proof ve32 as V. change (SpecFloat.fexp 24 128) with (FLT_exp (-149) 24).
  apply generic_format_FLT. exists (Float radix2 m k); [reflexivity|exact Hm|simpl; lia].
Qed.

Lemma f32_of_Z_exact z : (Z.abs z < 2 ^ 24)%Z -> is_finite (f32_of_Z z) = true /\ B2R (f32_of_Z z) = IZR z.
Proof.
  intros H. unfold f32_of_Z. pose proof (binary_normalize_correct 24 128 p32 e32 mode_NE z 0 false) as Q. cbv zeta in Q.
  assert (E : rnd32 (F2R (Float radix2 z 0)) = IZR z).
  { pose proof ve32 as V. rewrite F2R_0_exp || idtac. unfold F2R. cbn [Fnum Fexp]. rewrite <- (Rmult_1_r (IZR z)) at 2.
    apply round_generic; [typeclasses eauto|]. apply (format_ratio z 0); [exact H|lia]. }
  simpl round_mode in Q. rewrite E in Q. rewrite Rlt_bool_true in Q.
  - destruct Q as (Q1 & Q2 & _). auto.
  - rewrite <- abs_IZR. apply Rlt_trans with (IZR (2 ^ 24)); [apply IZR_lt; exact H|].
    change (IZR (2 ^ 24)) with (bpow radix2 24). apply bpow_lt. lia.
Qed.

(** Truncating the correctly rounded length gives the integer square root: [const int dist = std::hypot(...)]. *)
Lemma truncated_hypot n : (0 <= n <= 2 ^ 20)%Z -> Zfloor (rnd32 (sqrt (IZR n))) = Z.sqrt n.
Proof.
  intros [H0 H1]. pose proof ve32 as V. set (k := Z.sqrt n).
  pose proof (Z.sqrt_spec n H0) as S. cbv zeta in S. fold k in S. pose proof (Z.sqrt_nonneg n) as K0. fold k in K0.
  change (2 ^ 20)%Z with (1024 * 1024)%Z in H1. assert (K1 : (k <= 1024)%Z) by (apply Z.square_le_simpl_nonneg; lia).
  assert (P : 0 <= IZR n) by (apply IZR_le; exact H0).
  assert (Q : sqrt (IZR n) * sqrt (IZR n) = IZR n) by (apply sqrt_sqrt; exact P). pose proof (sqrt_pos (IZR n)) as Sp.
  assert (Kr : 0 <= IZR k <= 1024) by (split; apply IZR_le; lia).
  apply Zfloor_imp. split.
  - rewrite <- (round_generic radix2 (SpecFloat.fexp 24 128) ZnearestE (IZR k)).
    + apply round_le; try typeclasses eauto. assert (IZR k * IZR k <= IZR n) by (rewrite <- mult_IZR; apply IZR_le; lia). nra.
    + rewrite <- (Rmult_1_r (IZR k)). apply (format_ratio k 0); lia.
  - apply Rle_lt_trans with (IZR ((k + 1) * 4096 - 1) * bpow radix2 (-12)).
    + rewrite <- (round_generic radix2 (SpecFloat.fexp 24 128) ZnearestE (IZR ((k + 1) * 4096 - 1) * bpow radix2 (-12))).
      * apply round_le; try typeclasses eauto. change (bpow radix2 (-12)) with (/ 4096). rewrite minus_IZR, mult_IZR, plus_IZR.
        assert (IZR n <= (IZR k + 1) * (IZR k + 1) - 1). { rewrite <- (plus_IZR k 1), <- mult_IZR, <- minus_IZR. apply IZR_le. lia. }
        set (t := (IZR k + 1) - / 4096). replace (((IZR k + 1) * 4096 - 1) * / 4096) with t by (unfold t; field).
        destruct (Rle_or_lt (sqrt (IZR n)) t) as [L|L]; [exact L|exfalso].
        assert (T0 : 0 < t) by (unfold t; lra).
        assert (t * t < sqrt (IZR n) * sqrt (IZR n)) by nra.
        assert (t * t = (IZR k + 1) * (IZR k + 1) - (IZR k + 1) * / 2048 + / 4096 * / 4096) by (unfold t; field). lra.
      * apply format_ratio; lia.
    + change (bpow radix2 (-12)) with (/ 4096). rewrite minus_IZR, mult_IZR. lra.
Qed.

(** *** One axis of the sampling *)
Fixpoint axis (i : nat) (v dp : f32) : f32 := match i with O => v | S i' => axis i' (add32 v dp) dp end.
Lemma axis_S i : forall v dp, axis (S i) v dp = add32 (axis i v dp) dp.
Proof. induction i as [|i IH]; intros v dp; [reflexivity|]. change (axis (S (S i)) v dp) with (axis (S i) (add32 v dp) dp). rewrite IH. reflexivity. Qed.

Lemma samples_nth n : forall v0 v1 d0 d1 i, (i < n)%nat -> nth_error (samples n v0 v1 d0 d1) i = Some (lround32 (axis i v0 d0), lround32 (axis i v1 d1)).
Proof.
  induction n as [|n IH]; intros v0 v1 d0 d1 i H; [lia|]. destruct i as [|i]; [reflexivity|]. cbn [samples nth_error axis]. apply IH. lia.
Qed.
Lemma samples_length n : forall v0 v1 d0 d1, length (samples n v0 v1 d0 d1) = n.
Proof. induction n as [|n IH]; intros; [reflexivity|]. cbn [samples length]. rewrite IH. reflexivity. Qed.

Lemma add32_real a b : is_finite a = true -> is_finite b = true -> Rabs (B2R a + B2R b) < 4096 ->
  is_finite (add32 a b) = true /\ B2R (add32 a b) = rnd32 (B2R a + B2R b) /\ Rabs (B2R (add32 a b) - (B2R a + B2R b)) <= / 8192.
Proof.
  intros Fa Fb H. rewrite <- bpow_12 in H. pose proof (rnd32_err 12 _ ltac:(lia) H) as E.
  change (bpow radix2 (12 - 24)) with (/ 4096) in E.
  pose proof (Bplus_correct 24 128 p32 e32 mode_NE a b Fa Fb) as Q. simpl round_mode in Q. rewrite Rlt_bool_true in Q.
  - destruct Q as (Q1 & Q2 & _). unfold add32. rewrite Q1. split; [exact Q2|]. split; [reflexivity|]. lra.
  - apply Rlt_trans with 5000; [|change 5000 with (IZR 5000)].
    + rewrite bpow_12 in H. apply Rabs_def2 in H. apply Rabs_le_inv in E. apply Rabs_def1; lra.
    + apply Rlt_trans with (bpow radix2 13); [change (bpow radix2 13) with 8192; lra|]. apply bpow_lt. lia.
Qed.

Lemma dp_real d n : (Z.abs d <= n)%Z -> (1 <= n <= 1000)%Z ->
  let dp := div32 (f32_of_Z d) (f32_of_Z n) in
  is_finite dp = true /\ Rabs (B2R dp - IZR d / IZR n) <= / 8388608 /\ (Z.abs d = n -> B2R dp = IZR d / IZR n).
Proof.
  intros Hd Hn dp. pose proof ve32 as V. destruct (f32_of_Z_exact d) as [Fd Ed]; [lia|]. destruct (f32_of_Z_exact n) as [Fn En]; [lia|].
  assert (N0 : 1 <= IZR n) by (apply IZR_le; lia).
  assert (Q0 : -1 <= IZR d / IZR n <= 1).
  { apply quot_between; [lra|]. rewrite <- opp_IZR || idtac. assert (- IZR n <= IZR d <= IZR n); [|lra]. rewrite <- opp_IZR. split; apply IZR_le; lia. }
  pose proof (Bdiv_correct 24 128 p32 e32 mode_NE (f32_of_Z d) (f32_of_Z n)) as Q. rewrite En, Ed in Q. simpl round_mode in Q.
  assert (E : Rabs (rnd32 (IZR d / IZR n) - IZR d / IZR n) <= / 8388608).
  { eapply Rle_trans; [apply (rnd32_err 1); [lia|change (bpow radix2 1) with 2; apply Rabs_def1; lra]|].
    change (bpow radix2 (1 - 24)) with (/ 8388608). lra. }
  specialize (Q ltac:(lra)). rewrite Rlt_bool_true in Q.
  - destruct Q as (Q1 & Q2 & _). fold (div32 (f32_of_Z d) (f32_of_Z n)) in Q1, Q2. fold dp in Q1, Q2. rewrite Q1, Q2, Fd. split; [reflexivity|]. split; [exact E|].
    intros Ad. apply round_generic; [typeclasses eauto|].
    assert (X : IZR d / IZR n = 1 \/ IZR d / IZR n = -1).
    { assert (d = n \/ d = - n)%Z by lia. destruct H as [->| ->]; [left; field; lra|right; rewrite opp_IZR; field; lra]. }
    destruct X as [-> | ->]; [rewrite <- (Rmult_1_r 1); apply (format_ratio 1 0); lia|rewrite <- (Rmult_1_r (-1)); apply (format_ratio (-1) 0); lia].
  - apply Rlt_trans with 2; [apply Rabs_le_inv in E; apply Rabs_def1; lra|]. change 2 with (bpow radix2 1). apply bpow_lt. lia.
Qed.

Section Axis.
  Variables c d n : Z.
  Hypothesis Hc : (0 <= c < 2048)%Z.
  Hypothesis Hd : (Z.abs d <= 512)%Z.
  Hypothesis Hdn : (Z.abs d <= n)%Z.
  Hypothesis Hn : (1 <= n <= 724)%Z.
  Let dp := div32 (f32_of_Z d) (f32_of_Z n).
  Let v (i : nat) := axis i (f32_of_Z c) dp.
  Definition ideal (c d n : Z) (i : nat) : R := IZR c + IZR (Z.of_nat i) * (IZR d / IZR n).

  Lemma ideal_bound (i : nat) : (Z.of_nat i <= n)%Z -> -512 <= ideal c d n i <= 2560.
  Proof.
    intros Hi. unfold ideal. assert (N0 : 1 <= IZR n) by (apply IZR_le; lia).
    replace (IZR (Z.of_nat i) * (IZR d / IZR n)) with (IZR d * (IZR (Z.of_nat i) / IZR n)) by (field; lra).
    assert (0 <= IZR (Z.of_nat i) / IZR n <= 1).
    { apply quot_between; [lra|]. assert (0 <= IZR (Z.of_nat i) <= IZR n) by (split; apply IZR_le; lia). lra. }
    assert (-512 <= IZR d <= 512) by (split; apply IZR_le; lia). assert (0 <= IZR c <= 2048) by (split; apply IZR_le; lia).
    set (t := IZR (Z.of_nat i) / IZR n) in *. nra.
  Qed.

  Lemma v_real (i : nat) : (Z.of_nat i <= n)%Z -> is_finite (v i) = true /\ Rabs (B2R (v i) - ideal c d n i) <= IZR (Z.of_nat i) * / 8000.
  Proof.
    destruct (dp_real d n Hdn ltac:(lia)) as (Fp & Ep & _). fold dp in Fp, Ep. apply Rabs_le_inv in Ep.
    induction i as [|i IH]; intros Hi.
    - destruct (f32_of_Z_exact c) as [Fc Ec]; [lia|]. unfold v. cbn [axis]. rewrite Ec. split; [exact Fc|]. unfold ideal. cbn [Z.of_nat].
      replace (IZR c - (IZR c + 0 * (IZR d / IZR n))) with 0 by lra. rewrite Rabs_R0. lra.
    - destruct (IH ltac:(lia)) as [Fi Ei]. pose proof (ideal_bound i ltac:(lia)) as Bi. apply Rabs_le_inv in Ei.
      assert (Ii : 0 <= IZR (Z.of_nat i) <= 724) by (split; apply IZR_le; lia).
      assert (Q0 : -1 <= IZR d / IZR n <= 1).
      { assert (1 <= IZR n) by (apply IZR_le; lia). apply quot_between; [lra|]. assert (- IZR n <= IZR d <= IZR n); [|lra]. rewrite <- opp_IZR. split; apply IZR_le; lia. }
      assert (B : Rabs (B2R (v i) + B2R dp) < 4096) by (apply Rabs_def1; lra).
      destruct (add32_real (v i) dp Fi Fp B) as (F' & _ & E'). unfold v. rewrite axis_S. fold (v i). split; [exact F'|].
      apply Rabs_le_inv in E'. unfold ideal in *. rewrite Nat2Z.inj_succ. unfold Z.succ. rewrite plus_IZR. apply Rabs_le. lra.
  Qed.

  (** If the axis moves one cell per sample all values are whole numbers. *)
  Lemma v_whole (i : nat) : Z.abs d = n -> (Z.of_nat i <= n)%Z -> exists z, (Z.abs z < 2 ^ 24)%Z /\ is_finite (v i) = true /\ B2R (v i) = IZR z /\ z = (c + Z.of_nat i * (d / n))%Z.
  Proof.
    intros Ad. destruct (dp_real d n Hdn ltac:(lia)) as (Fp & _ & Ep). specialize (Ep Ad). fold dp in Fp, Ep. pose proof ve32 as V.
    assert (X : exists s, (s = 1 \/ s = -1)%Z /\ (d / n = s)%Z /\ IZR d / IZR n = IZR s).
    { assert (1 <= IZR n) by (apply IZR_le; lia). assert (d = n \/ d = - n)%Z by lia. destruct H0 as [->| ->].
      - exists 1%Z. split; [auto|]. split; [apply Z.div_same; lia|field; lra].
      - exists (-1)%Z. split; [auto|]. split; [rewrite Z.div_opp_l_z by (try apply Z.mod_same; lia); rewrite Z.div_same by lia; reflexivity|rewrite opp_IZR; field; lra]. }
    destruct X as [s (Hs & Ds & Es)]. rewrite Es in Ep. rewrite Ds.
    induction i as [|i IH]; intros Hi.
    - exists c. destruct (f32_of_Z_exact c) as [Fc Ec]; [lia|]. unfold v. cbn [axis]. split; [lia|]. split; [exact Fc|]. split; [exact Ec|lia].
    - destruct (IH ltac:(lia)) as [z (Hz & Fz & Ez & Dz)]. exists (z + s)%Z. split; [destruct Hs; lia|].
      assert (Zb : (-1000 <= z <= 3000)%Z) by (destruct Hs; nia).
      assert (Zr : -1000 <= IZR z <= 3000) by (split; apply IZR_le; lia).
      assert (Sr : -1 <= IZR s <= 1) by (split; apply IZR_le; destruct Hs; lia).
      destruct (add32_real (v i) dp Fz Fp) as (F' & R' & _); [rewrite Ez, Ep; apply Rabs_def1; lra|].
      unfold v. rewrite axis_S. fold (v i). split; [exact F'|]. split; [|lia]. rewrite R', Ez, Ep, <- plus_IZR.
      apply round_generic; [typeclasses eauto|]. rewrite <- (Rmult_1_r (IZR (z + s))). apply (format_ratio (z + s) 0); destruct Hs; lia.
  Qed.
End Axis.

(** *** Rounding to cells *)
Lemma lround32_real (x : f32) : is_finite x = true -> exists q : Q, Q2R q = B2R x /\ lround32 x = lround q.
Proof.
  destruct x as [s| | |s m e H]; try discriminate; intros _.
  - exists 0%Q. split; [unfold Q2R; simpl; lra|reflexivity].
  - simpl. unfold F2R. simpl Fnum. simpl Fexp. destruct (Z.leb_spec 0 e) as [L|L].
    + exists (inject_Z (cond_Zopp s (Zpos m) * 2 ^ e)). split; [|rewrite lround_Z; reflexivity].
      unfold Q2R, inject_Z. simpl Qnum. simpl Qden. rewrite mult_IZR. rewrite <- (IZR_Zpower radix2 e L).
      change (Zpower radix2 e) with (2 ^ e)%Z. lra.
    + exists (cond_Zopp s (Zpos m) # Z.to_pos (2 ^ (- e)))%Q. split; [|reflexivity].
      unfold Q2R. simpl Qnum. simpl Qden. rewrite Z2Pos.id by (apply Z.pow_pos_nonneg; lia).
      change (2 ^ (- e))%Z with (Zpower radix2 (- e)). rewrite (IZR_Zpower radix2) by lia.
      rewrite bpow_opp, Rinv_inv. reflexivity.
Qed.

Lemma lround_le q k : (q < inject_Z k + (1 # 2))%Q -> (lround q <= k)%Z.
Proof.
  intros H. unfold lround. destruct (Qle_bool 0 q) eqn:E.
  - assert (Qfloor (q + (1 # 2)) < k + 1)%Z; [|lia]. apply Qfloor_lt_Z || idtac.
    pose proof (Qfloor_le (q + (1 # 2))) as F. apply Zlt_Qlt || idtac. rewrite Zlt_Qlt. rewrite inject_Z_plus. change (inject_Z 1) with 1%Q. lra.
  - assert (- k - 1 < Qfloor (- q + (1 # 2)))%Z; [|lia].
    pose proof (Qlt_floor (- q + (1 # 2))) as F. assert (- k < Qfloor (- q + (1 # 2)) + 1)%Z; [|lia].
    rewrite Zlt_Qlt. rewrite inject_Z_opp. lra.
Qed.
Lemma lround_ge q k : (inject_Z k - (1 # 2) < q)%Q -> (k <= lround q)%Z.
Proof.
  intros H. unfold lround. destruct (Qle_bool 0 q) eqn:E.
  - pose proof (Qlt_floor (q + (1 # 2))) as F. assert (k < Qfloor (q + (1 # 2)) + 1)%Z; [|lia]. rewrite Zlt_Qlt. lra.
  - pose proof (Qfloor_le (- q + (1 # 2))) as F. assert (Qfloor (- q + (1 # 2)) < - k + 1)%Z; [|lia].
    rewrite Zlt_Qlt. rewrite inject_Z_plus, inject_Z_opp. change (inject_Z 1) with 1%Q. lra.
Qed.
Lemma Q2R_Z k : Q2R (inject_Z k) = IZR k.
Proof. unfold Q2R, inject_Z. cbn [Qnum Qden]. lra. Qed.
Lemma Q2R_half : Q2R (1 # 2) = / 2.
Proof. unfold Q2R. cbn [Qnum Qden]. lra. Qed.

Lemma lround32_near x : is_finite x = true -> Rabs (IZR (lround32 x) - B2R x) <= / 2.
Proof.
  intros F. destruct (lround32_real x F) as (q & E & ->). rewrite <- E. pose proof (lround_near q) as H. apply Qabs_Qle_condition in H.
  destruct H as [H1 H2]. apply Qle_Rle in H1, H2. unfold Qminus in *. rewrite ?Q2R_opp, ?Q2R_plus, ?Q2R_opp, Q2R_Z, Q2R_half in *. apply Rabs_le. lra.
Qed.
Lemma lround32_within x k : is_finite x = true -> IZR k - 3 / 2 < B2R x < IZR k + 3 / 2 -> (Z.abs (lround32 x - k) <= 1)%Z.
Proof.
  intros F H. destruct (lround32_real x F) as (q & E & ->). rewrite <- E in H.
  assert (lround q <= k + 1)%Z.
  { apply lround_le. apply Rlt_Qlt. rewrite Q2R_plus, Q2R_Z, Q2R_half, plus_IZR. lra. }
  assert (k - 1 <= lround q)%Z.
  { apply lround_ge. apply Rlt_Qlt. unfold Qminus. rewrite Q2R_plus, Q2R_opp, Q2R_Z, Q2R_half, minus_IZR. lra. }
  lia.
Qed.
(** Values less than one apart round to the same or to neighbouring cells. *)
Lemma lround32_step x y : is_finite x = true -> is_finite y = true -> Rabs (B2R y - B2R x) < 1 -> (Z.abs (lround32 y - lround32 x) <= 1)%Z.
Proof.
  intros Fx Fy H. apply lround32_within; [exact Fy|]. pose proof (lround32_near x Fx) as N. apply Rabs_le_inv in N. apply Rabs_def2 in H. lra.
Qed.
Lemma lround32_whole x z : is_finite x = true -> B2R x = IZR z -> lround32 x = z.
Proof.
  intros F E. pose proof (lround32_near x F) as N. rewrite E, <- minus_IZR in N. apply Rabs_le_inv in N.
  assert (-1 < lround32 x - z < 1)%Z; [|lia]. split; apply lt_IZR; lra.
Qed.

Section Axis2.
  Variables c d n : Z.
  Hypothesis Hc : (0 <= c < 2048)%Z.
  Hypothesis Hd : (Z.abs d <= 512)%Z.
  Hypothesis Hdn : (Z.abs d <= n)%Z.
  Hypothesis Hn : (1 <= n <= 724)%Z.
  Let dp := div32 (f32_of_Z d) (f32_of_Z n).
  Let p (i : nat) := lround32 (axis i (f32_of_Z c) dp).

  Lemma axis_close i : (Z.of_nat i < n)%Z -> Rabs (IZR (p i) - ideal c d n i) <= 6 / 10.
  Proof.
    intros Hi. destruct (v_real c d n Hc Hd Hdn Hn i ltac:(lia)) as [F E]. pose proof (lround32_near _ F) as N.
    assert (0 <= IZR (Z.of_nat i) <= 724) by (split; apply IZR_le; lia).
    unfold p, dp. apply Rabs_le_inv in E, N. apply Rabs_le. lra.
  Qed.
  Lemma axis_first : p 0 = c.
  Proof. unfold p. cbn [axis]. destruct (f32_of_Z_exact c) as [F E]; [lia|]. apply lround32_whole; assumption. Qed.
  Lemma axis_last : (Z.abs (p (Z.to_nat (n - 1)) - (c + d)) <= 1)%Z.
  Proof.
    set (i := Z.to_nat (n - 1)). assert (Ei : Z.of_nat i = (n - 1)%Z) by lia.
    destruct (v_real c d n Hc Hd Hdn Hn i ltac:(lia)) as [F E]. unfold p, dp. apply lround32_within; [exact F|].
    unfold ideal in E. rewrite Ei, minus_IZR in E. rewrite plus_IZR.
    assert (N0 : 1 <= IZR n <= 724) by (split; apply IZR_le; lia).
    assert (Q0 : -1 <= IZR d / IZR n <= 1).
    { apply quot_between; [lra|]. assert (- IZR n <= IZR d <= IZR n); [|lra]. rewrite <- opp_IZR. split; apply IZR_le; lia. }
    assert (X : (IZR n - 1) * (IZR d / IZR n) = IZR d - IZR d / IZR n) by (field; lra). rewrite X in E. apply Rabs_le_inv in E. lra.
  Qed.
  Lemma axis_step i : (Z.of_nat i + 1 < n)%Z -> (Z.abs (p (S i) - p i) <= 1)%Z.
  Proof.
    intros Hi. destruct (Z.eq_dec (Z.abs d) n) as [A|A].
    - destruct (v_whole c d n Hc Hd Hdn Hn i A ltac:(lia)) as [z (Hz & Fz & Ez & Dz)].
      destruct (v_whole c d n Hc Hd Hdn Hn (S i) A ltac:(lia)) as [z' (Hz' & Fz' & Ez' & Dz')].
      unfold p, dp. rewrite (lround32_whole _ _ Fz Ez), (lround32_whole _ _ Fz' Ez').
      assert (X : (d / n = 1 \/ d / n = -1)%Z).
      { assert (d = n \/ d = - n)%Z by lia. destruct H as [->| ->]; [left; apply Z.div_same; lia|right].
        rewrite Z.div_opp_l_z by (try apply Z.mod_same; lia). rewrite Z.div_same by lia. reflexivity. }
      destruct X as [X|X]; rewrite X in *; lia.
    - destruct (v_real c d n Hc Hd Hdn Hn i ltac:(lia)) as [F E]. destruct (v_real c d n Hc Hd Hdn Hn (S i) ltac:(lia)) as [F' _].
      destruct (dp_real d n Hdn ltac:(lia)) as (Fp & Ep & _).
      unfold p, dp. apply lround32_step; [exact F|exact F'|].
      pose proof (ideal_bound c d n Hc Hd Hn i ltac:(lia)) as Bi.
      assert (Ii : 0 <= IZR (Z.of_nat i) <= 724) by (split; apply IZR_le; lia).
      assert (N0 : 1 <= IZR n <= 724) by (split; apply IZR_le; lia).
      assert (Q0 : -1 + / 724 <= IZR d / IZR n <= 1 - / 724).
      { assert (- (IZR n - 1) <= IZR d <= IZR n - 1). { rewrite <- minus_IZR, <- opp_IZR. split; apply IZR_le; lia. }
        apply quot_between; [lra|]. assert (/ 724 * IZR n <= 1) by lra. lra. }
      apply Rabs_le_inv in E, Ep.
      rewrite axis_S. destruct (add32_real _ _ F Fp) as (_ & _ & E'); [apply Rabs_def1; lra|].
      apply Rabs_le_inv in E'. apply Rabs_def1; lra.
  Qed.
End Axis2.

(** *** Length of a move *)
Lemma travel_facts (d : jcell) : (Z.abs (fst d) <= 512)%Z -> (Z.abs (snd d) <= 512)%Z ->
  (0 <= travel d <= 724 /\ Z.abs (fst d) <= travel d /\ Z.abs (snd d) <= travel d)%Z.
Proof.
  intros H0 H1. unfold travel. set (n := (fst d * fst d + snd d * snd d)%Z).
  assert (N0 : (0 <= n)%Z) by (unfold n; nia). pose proof (Z.sqrt_spec n N0) as S. cbv zeta in S. pose proof (Z.sqrt_nonneg n) as K. set (k := Z.sqrt n) in *.
  assert (A0 : (Z.abs (fst d) * Z.abs (fst d) = fst d * fst d)%Z) by (rewrite <- Z.abs_mul; apply Z.abs_eq; nia).
  assert (A1 : (Z.abs (snd d) * Z.abs (snd d) = snd d * snd d)%Z) by (rewrite <- Z.abs_mul; apply Z.abs_eq; nia).
  assert (N1 : (n <= 524288)%Z) by (unfold n; nia).
  split; [split; [exact K|]|split].
  - assert (k < 725)%Z; [|lia]. apply Z.square_lt_simpl_nonneg; lia.
  - assert (Z.abs (fst d) < Z.succ k)%Z; [|lia]. apply Z.square_lt_simpl_nonneg; [lia|]. unfold n in S. nia.
  - assert (Z.abs (snd d) < Z.succ k)%Z; [|lia]. apply Z.square_lt_simpl_nonneg; [lia|]. unfold n in S. nia.
Qed.
Lemma travel_zero (d : jcell) : (Z.abs (fst d) <= 512)%Z -> (Z.abs (snd d) <= 512)%Z -> travel d = 0%Z -> d = (0%Z, 0%Z).
Proof. intros A B E. destruct (travel_facts d A B) as (_ & X & Y). destruct d as [x y]. cbn [fst snd] in *. f_equal; lia. Qed.

(** *** Costs *)
Record coef_ok (x : f32) : Prop := { coef_fin : is_finite x = true; coef_pos : 0 <= B2R x <= 1000000 }.

Lemma to64_exact (x : f32) : is_finite x = true -> is_finite (to64 x) = true /\ B2R (to64 x) = B2R x.
Proof.
  intros F. destruct x as [s| | |s m e H]; try discriminate; [split; reflexivity|].
  set (x := B754_finite s m e H) in *. pose proof (fexp_correct 53 1024 p64) as V64.
  pose proof (binary_normalize_correct 53 1024 p64 e64 mode_NE (cond_Zopp s (Zpos m)) e s) as Q. cbv zeta in Q.
  change (F2R (Float radix2 (cond_Zopp s (Zpos m)) e)) with (B2R x) in Q. simpl round_mode in Q.
  assert (G : generic_format radix2 (SpecFloat.fexp 53 1024) (B2R x)).
  { apply (generic_inclusion_mag radix2 (SpecFloat.fexp 24 128)); [|apply generic_format_B2R].
    intros _. unfold SpecFloat.fexp, SpecFloat.emin. lia. }
  rewrite (round_generic radix2 (SpecFloat.fexp 53 1024) ZnearestE (B2R x) G) in Q.
  rewrite Rlt_bool_true in Q.
  - destruct Q as (Q1 & Q2 & _). unfold to64, conv. fold x. cbv beta. split; [exact Q2|exact Q1].
  - pose proof (finite_lt 24 128 x F) as L. assert (bpow radix2 128 < bpow radix2 1024) by (apply bpow_lt; lia). apply Rabs_def1; lra.
Qed.

Definition bound32 (k : Z) : f32 := f32_of 1 k.
Lemma zero32 : is_finite (B754_zero false : f32) = true /\ B2R (B754_zero false : f32) = 0. Proof. split; reflexivity. Qed.
Lemma pow32 k : In k [30; 31; 32; 40; 41]%Z -> is_finite (f32_of 1 k) = true /\ B2R (f32_of 1 k) = bpow radix2 k.
Proof.
  intros H. pose proof ve32 as V. unfold f32_of. pose proof (binary_normalize_correct 24 128 p32 e32 mode_NE 1 k false) as Q. cbv zeta in Q.
  unfold F2R in Q. cbn [Fnum Fexp] in Q. rewrite Rmult_1_l in Q. simpl round_mode in Q.
  rewrite (round_generic radix2 (SpecFloat.fexp 24 128) ZnearestE (bpow radix2 k)) in Q.
  - rewrite Rlt_bool_true in Q.
    + destruct Q as (Q1 & Q2 & _). auto.
    + rewrite Rabs_pos_eq by apply bpow_ge_0. apply bpow_lt. cbn [In] in H. lia.
  - rewrite <- (Rmult_1_l (bpow radix2 k)). apply (format_ratio 1 k); cbn [In] in H; lia.
Qed.
Lemma opp32 (x : f32) : is_finite x = true -> is_finite (Bopp x) = true /\ B2R (Bopp x) = - B2R x.
Proof. intros F. rewrite is_finite_Bopp, B2R_Bopp. auto. Qed.

Lemma term_real c z : coef_ok c -> (Z.abs z <= 512)%Z -> is_finite (Babs (mul32 c (f32_of_Z z))) = true /\ 0 <= B2R (Babs (mul32 c (f32_of_Z z))) <= bpow radix2 30.
Proof.
  intros [Fc Hc] Hz. destruct (f32_of_Z_exact z) as [Fz Ez]; [lia|]. destruct (pow32 30) as [Fh Eh]; [cbn [In]; auto|]. destruct (opp32 _ Fh) as [Fl El].
  assert (Zr : -512 <= IZR z <= 512) by (split; apply IZR_le; lia).
  destruct (mult_between 24 128 p32 e32 (Bopp (f32_of 1 30)) (f32_of 1 30) Fl Fh c (f32_of_Z z) Fc Fz) as [Fm Hm].
  { rewrite El, Eh, Ez. change (bpow radix2 30) with 1073741824. nra. }
  fold (mul32 c (f32_of_Z z)) in Fm, Hm. rewrite El, Eh in Hm.
  rewrite is_finite_Babs, B2R_Babs. split; [exact Fm|]. split; [apply Rabs_pos|]. apply Rabs_le. exact Hm.
Qed.

Lemma euclid2_real c0 c1 d : coef_ok c0 -> coef_ok c1 -> (Z.abs (fst d) <= 512)%Z -> (Z.abs (snd d) <= 512)%Z ->
  is_finite (euclid2 c0 c1 d) = true /\ 0 <= B2R (euclid2 c0 c1 d) <= bpow radix2 32.
Proof.
  intros H0 H1 D0 D1. destruct (term_real c0 (fst d) H0 D0) as [F0 E0]. destruct (term_real c1 (snd d) H1 D1) as [F1 E1].
  unfold euclid2. set (a := Babs (mul32 c0 (f32_of_Z (fst d)))) in *. set (b := Babs (mul32 c1 (f32_of_Z (snd d)))) in *. clearbody a b.
  destruct zero32 as [Fz Ez]. destruct (pow32 31) as [Fh Eh]; [cbn [In]; auto|]. destruct (pow32 32) as [Fk Ek]; [cbn [In]; auto|].
  destruct (plus_between 24 128 p32 e32 (B754_zero false) (f32_of 1 31) Fz Fh (B754_zero false) a Fz F0) as (Fs & _ & Hs).
  { rewrite Ez, Eh. change (bpow radix2 30) with 1073741824 in *. change (bpow radix2 31) with 2147483648. lra. }
  fold (add32 (B754_zero false) a) in Fs, Hs. rewrite Ez, Eh in Hs. set (s := add32 (B754_zero false) a) in *. clearbody s.
  destruct (plus_between 24 128 p32 e32 (B754_zero false) (f32_of 1 32) Fz Fk s b Fs F1) as (Ft & _ & Ht).
  { rewrite Ez, Ek. change (bpow radix2 30) with 1073741824 in *. change (bpow radix2 31) with 2147483648 in *. change (bpow radix2 32) with 4294967296. lra. }
  fold (add32 s b) in Ft, Ht. rewrite Ez, Ek in Ht. auto.
Qed.

Lemma to32_ge (x : f64) (a b : f32) : is_finite x = true -> is_finite a = true -> is_finite b = true -> B2R a <= B2R x <= B2R b ->
  is_finite (to32 x) = true /\ B2R a <= B2R (to32 x) <= B2R b.
Proof. intros Fx Fa Fb H. exact (conv_between 24 128 p32 e32 a b Fa Fb x Fx H). Qed.

Lemma add_weighted_real cost sum w : is_finite cost = true -> 0 <= B2R cost <= bpow radix2 32 -> (0 <= sum <= 100000)%Z -> coef_ok w ->
  is_finite (add_weighted cost sum w) = true /\ B2R cost <= B2R (add_weighted cost sum w).
Proof.
  intros Fc Hc Hs [Fw Hw]. unfold add_weighted.
  destruct (f32_of_Z_exact sum) as [Fs Es]; [lia|]. assert (Sr : 0 <= IZR sum <= 100000) by (split; apply IZR_le; lia).
  destruct zero32 as [Fz Ez]. destruct (pow32 40) as [Fh Eh]; [cbn [In]; auto 10|]. destruct (pow32 41) as [Fk Ek]; [cbn [In]; auto 10|].
  destruct (mult_between 24 128 p32 e32 (B754_zero false) (f32_of 1 40) Fz Fh (f32_of_Z sum) w Fs Fw) as [Fm Hm].
  { rewrite Ez, Eh, Es. change (bpow radix2 40) with 1099511627776. nra. }
  fold (mul32 (f32_of_Z sum) w) in Fm, Hm. rewrite Ez, Eh in Hm. set (m := mul32 (f32_of_Z sum) w) in *. clearbody m.
  destruct (to64_exact m Fm) as [Fm6 Em]. destruct (to64_exact cost Fc) as [Fc6 Ec].
  destruct (to64_exact _ Fz) as [Fz6 Ez6]. destruct (to64_exact _ Fh) as [Fh6 Eh6]. destruct (to64_exact _ Fk) as [Fk6 Ek6].
  value (f64_of 100 0). destruct V as [F100 V100].
  destruct (div_between 53 1024 p64 e64 (to64 (B754_zero false)) (to64 (f32_of 1 40)) Fz6 Fh6 (to64 m) (f64_of 100 0) Fm6) as [Fq Hq].
  { rewrite V100. lra. }
  { rewrite Em, Ez6, Eh6, Ez, Eh, V100. set (K := bpow radix2 40) in *. lra. }
  fold (fdiv (to64 m) (f64_of 100 0)) in Fq, Hq. rewrite Ez6, Eh6, Ez, Eh in Hq. set (q := fdiv (to64 m) (f64_of 100 0)) in *. clearbody q.
  destruct (plus_between 53 1024 p64 e64 (to64 cost) (to64 (f32_of 1 41)) Fc6 Fk6 (to64 cost) q Fc6 Fq) as (Ft & _ & Ht).
  { rewrite Ec, Ek6, Ek. change (bpow radix2 40) with 1099511627776 in *. change (bpow radix2 41) with 2199023255552. change (bpow radix2 32) with 4294967296 in *. lra. }
  fold (add64 (to64 cost) q) in Ft, Ht. rewrite Ec, Ek6 in Ht.
  destruct (to32_ge (add64 (to64 cost) q) cost (f32_of 1 41) Ft Fc Fk Ht) as [R1 R2]. split; [exact R1|apply R2].
Qed.

Lemma finite_leb (a b : f32) : is_finite a = true -> is_finite b = true -> (Bleb a b = true <-> B2R a <= B2R b).
Proof.
  intros Fa Fb. rewrite leb_true, !finite_key by assumption. assert (nan a = false) by (destruct a; try discriminate; reflexivity).
  assert (nan b = false) by (destruct b; try discriminate; reflexivity). tauto.
Qed.
Lemma finite_ltb (a b : f32) : is_finite a = true -> is_finite b = true -> (Bltb a b = true <-> B2R a < B2R b).
Proof.
  intros Fa Fb. rewrite ltb_true, !finite_key by assumption. assert (nan a = false) by (destruct a; try discriminate; reflexivity).
  assert (nan b = false) by (destruct b; try discriminate; reflexivity). tauto.
Qed.

(** *** The check of the samples *)
Definition wrapped (res : Z) (p : jcell) : jcell := ((fst p mod res)%Z, (snd p mod res)%Z).
Local Open Scope Z_scope.

Lemma cycleU_mod e res : 0 < res -> cycleUnsignedElement e res = Ok (e mod res).
Proof.
  intros H. destruct (cycleUnsignedElement_spec e res H) as [x (E & [k D] & R)]. rewrite E. f_equal.
  subst x. unfold unsigned_range in R. rewrite <- (Z.mod_small (e + k * res) res) by lia. rewrite Z.mod_add by lia. reflexivity.
Qed.
Lemma wrapped_in_map res p : 0 < res -> in_joint_map res (wrapped res p) = true.
Proof.
  intros H. unfold in_joint_map, wrapped. cbn [fst snd]. pose proof (Z.mod_pos_bound (fst p) res H). pose proof (Z.mod_pos_bound (snd p) res H). lia.
Qed.
Lemma check_sample_run res cm sum p : 0 < res ->
  check_sample res cm (Some sum) p = Ok (if 99 <? cm (wrapped res p) then None else Some (sum + cm (wrapped res p))).
Proof.
  intros H. unfold check_sample. rewrite !cycleU_mod by exact H. cbn [bind].
  change (read_joint_map res cm (fst p mod res, snd p mod res)) with (read_joint_map res cm (wrapped res p)).
  unfold read_joint_map. rewrite (wrapped_in_map res p H). cbn [bind]. destruct (99 <? cm (wrapped res p)); reflexivity.
Qed.
Lemma check_samples_run res cm : 0 < res -> (forall p, 0 <= cm (wrapped res p)) -> forall l sum, 0 <= sum ->
  exists r, foldM (check_sample res cm) l (Some sum) = Ok r /\
    match r with
    | None => exists p, In p l /\ 99 < cm (wrapped res p)
    | Some s => (forall p, In p l -> cm (wrapped res p) <= 99) /\ 0 <= s <= sum + 99 * Z.of_nat (length l)
    end.
Proof.
  intros H Hcm. induction l as [|p l IH]; intros sum Hs.
  - exists (Some sum). split; [reflexivity|]. split; [intros p []|]. cbn [length]. lia.
  - cbn [foldM]. rewrite check_sample_run by exact H. cbn [bind]. destruct (Z.ltb_spec 99 (cm (wrapped res p))) as [L|L].
    + exists None. split; [clear; induction l as [|a l IHl]; [reflexivity|exact IHl]|]. exists p. split; [left; reflexivity|exact L].
    + pose proof (Hcm p) as P0. destruct (IH (sum + cm (wrapped res p)) ltac:(lia)) as [r [E P]]. exists r. split; [exact E|].
      destruct r as [s|].
      * destruct P as [A B]. split; [intros q [<-|I]; [exact L|apply A; exact I]|]. cbn [length]. lia.
      * destruct P as [q [I Q]]. exists q. split; [right; exact I|exact Q].
Qed.

Lemma cycle2_run res d : 0 < res -> exists d', cycle2 res d = Ok d' /\ same_direction res (fst d') (fst d) /\ same_direction res (snd d') (snd d) /\
  signed_range res (fst d') /\ signed_range res (snd d').
Proof.
  intros H. unfold cycle2. destruct (cycleElement_spec (fst d) res H) as [x (E1 & S1 & R1)]. destruct (cycleElement_spec (snd d) res H) as [y (E2 & S2 & R2)].
  rewrite E1. cbn [bind]. rewrite E2. cbn [bind]. exists (x, y). cbn [fst snd]. auto.
Qed.
Lemma cycle2_unique res d d' : 0 < res -> same_direction res (fst d') (fst d) -> same_direction res (snd d') (snd d) ->
  signed_range res (fst d') -> signed_range res (snd d') -> cycle2 res d = Ok d' \/ res mod 2 = 1.
Proof.
  intros H S1 S2 R1 R2. destruct (Z.eq_dec (res mod 2) 1) as [O|O]; [right; exact O|left].
  destruct (cycle2_run res d H) as [d2 (E & T1 & T2 & Q1 & Q2)]. rewrite E. f_equal.
  unfold signed_range in *. assert (Hh : (res + 1) / 2 + res / 2 = res). { pose proof (Z.mod_pos_bound res 2 ltac:(lia)). pose proof (Z.div_mod res 2 ltac:(lia)). assert (res mod 2 = 0) by lia.
    replace (res + 1) with (1 + (res / 2) * 2) by lia. rewrite Z.div_add by lia. change (1 / 2) with 0. lia. }
  destruct d' as [a b], d2 as [a2 b2], d as [x y]. cbn [fst snd] in *. destruct S1 as [k1 S1], S2 as [k2 S2], T1 as [k3 T1], T2 as [k4 T2].
  f_equal; [assert (k1 = k3) by nia|assert (k2 = k4) by nia]; subst; reflexivity.
Qed.

(** *** The collision map *)
Definition apart (p q : jcell) : Z := Z.max (Z.abs (fst q - fst p)) (Z.abs (snd q - snd p)).
Definition fall (range : Z) (p q : jcell) : Z := 100 * (range - apart p q) / range.

Lemma fall_100 range p q : 1 <= range -> (fall range p q = 100 <-> p = q).
Proof.
  intros H. unfold fall. split.
  - intros E. destruct (Z.eq_dec (apart p q) 0) as [Z0|Z0].
    + unfold apart in Z0. destruct p, q. cbn [fst snd] in *. f_equal; lia.
    + assert (0 < apart p q) by (unfold apart in *; lia). exfalso. assert (100 * (range - apart p q) / range < 100); [|lia]. apply Z.div_lt_upper_bound; lia.
  - intros <-. unfold apart. rewrite !Z.sub_diag. cbn [Z.abs Z.max]. change (Z.max 0 0) with 0. rewrite Z.sub_0_r. apply Z.div_mul. lia.
Qed.
Lemma fall_le range p q : 1 <= range -> fall range p q <= 100.
Proof.
  intros H. unfold fall. assert (0 <= apart p q) by (unfold apart; lia). apply Z.div_le_upper_bound; lia.
Qed.
Lemma jeqb_eq a b : jeqb a b = true <-> a = b.
Proof. destruct a, b. unfold jeqb. cbn [fst snd]. split; [intros H; f_equal; lia|intros E; injection E; lia]. Qed.

Section Map.
  Variables res range : Z.
  Hypothesis Hrange : 1 <= range.
  Definition jshift (p d : jcell) : jcell := (fst p + fst d, snd p + snd d).

  Lemma raise_run p cm d : exists cm', raise_at res range p cm d = Ok cm' /\ (forall x, cm x <= cm' x) /\
    (in_joint_map res (jshift p d) = true -> fall range p (jshift p d) <= cm' (jshift p d)) /\
    (forall x, cm' x = cm x \/ (x = jshift p d /\ in_joint_map res x = true /\ cm' x = fall range p x)).
  Proof.
    unfold raise_at. fold (jshift p d). destruct (in_joint_map res (jshift p d)) eqn:I.
    - unfold falloff. destruct (Z.eqb_spec range 0) as [|_]; [lia|]. cbn [bind].
      assert (E : 100 * (range - Z.max (Z.abs (fst d)) (Z.abs (snd d))) / range = fall range p (jshift p d)).
      { unfold fall, apart, jshift. cbn [fst snd]. repeat f_equal; lia. }
      rewrite E. change (cm (fst p + fst d, snd p + snd d)) with (cm (jshift p d)). destruct (Z.ltb_spec (cm (jshift p d)) (fall range p (jshift p d))) as [L|L].
      + exists (jupd cm (jshift p d) (fall range p (jshift p d))). split; [reflexivity|]. unfold jupd. split; [|split].
        * intros x. destruct (jeqb x (jshift p d)) eqn:B; [apply jeqb_eq in B; subst; lia|lia].
        * intros _. assert (B : jeqb (jshift p d) (jshift p d) = true) by (apply jeqb_eq; reflexivity). rewrite B. lia.
        * intros x. destruct (jeqb x (jshift p d)) eqn:B; [|left; reflexivity]. apply jeqb_eq in B. subst. auto.
      + exists cm. split; [reflexivity|]. split; [intros; lia|]. split; [intros _; exact L|]. auto.
    - exists cm. split; [reflexivity|]. split; [intros; lia|]. split; [discriminate|]. auto.
  Qed.
  Lemma raises_run p : forall l cm, exists cm', foldM (raise_at res range p) l cm = Ok cm' /\ (forall x, cm x <= cm' x) /\
    (forall d, In d l -> in_joint_map res (jshift p d) = true -> fall range p (jshift p d) <= cm' (jshift p d)) /\
    (forall x, cm' x = cm x \/ (exists d, In d l /\ x = jshift p d /\ in_joint_map res x = true /\ cm' x = fall range p x)).
  Proof.
    induction l as [|d l IH]; intros cm.
    - exists cm. split; [reflexivity|]. split; [intros; lia|]. split; [intros d []|]. auto.
    - cbn [foldM]. destruct (raise_run p cm d) as [c1 (E1 & M1 & C1 & V1)]. rewrite E1. cbn [bind].
      destruct (IH c1) as [c2 (E2 & M2 & C2 & V2)]. exists c2. split; [exact E2|]. split; [intros x; specialize (M1 x); specialize (M2 x); lia|]. split.
      + intros d' [<-|I] B; [|apply C2; assumption]. specialize (C1 B). specialize (M2 (jshift p d)). lia.
      + intros x. destruct (V2 x) as [A|(d' & I & X)]; [|right; exists d'; split; [right; exact I|exact X]].
        rewrite A. destruct (V1 x) as [B|X]; [left; exact B|]. right. exists d. split; [left; reflexivity|exact X].
  Qed.

  Variable collide : jcell -> bool.
  Definition map_inv (done : list jcell) (cm : jcell -> Z) : Prop :=
    (forall x, mark collide x <= cm x) /\
    (forall q x, In q done -> in_joint_map res q = true -> collide q = true -> apart q x <= range -> in_joint_map res x = true -> fall range q x <= cm x) /\
    (forall x, cm x = mark collide x \/ exists q, in_joint_map res q = true /\ collide q = true /\ apart q x <= range /\ in_joint_map res x = true /\ cm x = fall range q x).

  Lemma map_inv_100 done cm x : map_inv done cm -> (cm x = 100 <-> collide x = true).
  Proof.
    intros (A & _ & C). split.
    - intros E. destruct (C x) as [B|(q & _ & Q & _ & _ & B)].
      + unfold mark in B. destruct (collide x); [reflexivity|lia].
      + rewrite B in E. apply fall_100 in E; [|exact Hrange]. congruence.
    - intros E. specialize (A x). unfold mark in A. rewrite E in A. destruct (C x) as [B|(q & _ & _ & _ & _ & B)].
      + rewrite B. unfold mark. rewrite E. reflexivity.
      + pose proof (fall_le range q x Hrange). lia.
  Qed.

  Lemma expand_inv done cm p : In p (joint_cells res) -> map_inv done cm -> exists cm', expand_cell res range cm p = Ok cm' /\ map_inv (done ++ [p]) cm'.
  Proof.
    intros Ip I. pose proof (map_inv_100 done cm p I) as H100. destruct I as (A & B & C). unfold expand_cell.
    assert (Pin : in_joint_map res p = true).
    { unfold joint_cells in Ip. destruct p as [x y]. apply in_prod_iff in Ip. rewrite !in_range_excl in Ip. unfold in_joint_map. cbn [fst snd]. lia. }
    destruct (Z.eqb_spec (cm p) 100) as [E|E].
    - apply H100 in E. destruct (raises_run p (square range) cm) as [c2 (E2 & M2 & C2 & V2)]. exists c2. split; [exact E2|].
      assert (SQ : forall x, apart p x <= range <-> exists d, In d (square range) /\ x = jshift p d).
      { intros x. unfold square. split.
        - intros H. exists (fst x - fst p, snd x - snd p). split; [|destruct x; unfold jshift; cbn [fst snd]; f_equal; lia].
          apply in_prod_iff. rewrite !in_range_incl. unfold apart in H. lia.
        - intros [d [I ->]]. destruct d as [a b]. apply in_prod_iff in I. rewrite !in_range_incl in I. unfold apart, jshift. cbn [fst snd]. lia. }
      split; [intros x; specialize (A x); specialize (M2 x); lia|]. split.
      + intros q x Iq Q1 Q2 Q3 Q4. apply in_app_or in Iq. destruct Iq as [Iq|[<-|[]]].
        * specialize (B q x Iq Q1 Q2 Q3 Q4). specialize (M2 x). lia.
        * apply SQ in Q3. destruct Q3 as [d [I ->]]. apply C2; assumption.
      + intros x. destruct (V2 x) as [Q|(d & I & X & In' & V)]; [rewrite Q; apply C|]. right. exists p.
        split; [exact Pin|]. split; [exact E|]. split; [apply SQ; exists d; auto|]. split; [exact In'|exact V].
    - exists cm. split; [reflexivity|]. split; [exact A|]. split; [|exact C].
      intros q x Iq Q1 Q2. apply in_app_or in Iq. destruct Iq as [Iq|[<-|[]]]; [apply B; assumption|]. apply H100 in Q2. contradiction.
  Qed.
  Lemma expands_inv : forall l done cm, incl l (joint_cells res) -> map_inv done cm -> exists cm', foldM (expand_cell res range) l cm = Ok cm' /\ map_inv (done ++ l) cm'.
  Proof.
    induction l as [|p l IH]; intros done cm Il I.
    - exists cm. rewrite app_nil_r. auto.
    - cbn [foldM]. destruct (expand_inv done cm p (Il p (or_introl eq_refl)) I) as [c1 [E1 I1]]. rewrite E1. cbn [bind].
      destruct (IH (done ++ [p]) c1 (fun a H => Il a (or_intror H)) I1) as [c2 [E2 I2]]. exists c2. split; [exact E2|]. rewrite <- app_assoc in I2. exact I2.
  Qed.
  Lemma joint_map_run : exists cm, joint_map res range collide = Ok cm /\ map_inv (joint_cells res) cm.
  Proof.
    unfold joint_map. apply (expands_inv (joint_cells res) []); [apply incl_refl|].
    split; [intros; lia|]. split; [intros q x []|]. auto.
  Qed.
End Map.
Lemma in_joint_cells res p : in_joint_map res p = true <-> In p (joint_cells res).
Proof.
  unfold joint_cells, in_joint_map. destruct p as [x y]. cbn [fst snd]. split; intros H.
  - apply in_prod_iff. rewrite !in_range_excl. lia.
  - apply in_prod_iff in H. rewrite !in_range_excl in H. lia.
Qed.
