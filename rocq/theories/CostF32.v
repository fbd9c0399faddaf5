(** The cost arithmetic the code really uses: IEEE binary32 (C++ [float]),
    round to nearest even, with signed zeros, infinities and NaN. *)
From Coq Require Import Reals Lra Psatz ZifyBool.
From Flocq Require Import Core.Core Core.Raux IEEE754.BinarySingleNaN.
From Verif Require Import Common CostAlg FloatLib.
Local Open Scope R_scope.

Definition p32 : Prec_gt_0 24 := eq_refl.
Definition e32 : Prec_lt_emax 24 128 := eq_refl.
Definition f32 := binary_float 24 128.
Definition f32_of_Z (z : Z) : f32 := binary_normalize 24 128 p32 e32 mode_NE z 0 false.

(** Conversion of a float to [int] and back (grid_astar.h:218,226): undefined
    for NaN, infinities and values out of the 32-bit range. *)
Definition f32_trunc (x : f32) : outcome f32 :=
  if is_finite x then
    let z := Btrunc x in
    if (- 2 ^ 31 <=? z)%Z && (z <? 2 ^ 31)%Z then Ok (f32_of_Z z) else UB
  else UB.

Definition KF32 : cost_ops f32 :=
  mkCostOps _ (Bplus (prec_gt_0_ := p32) (prec_lt_emax_ := e32) mode_NE)
    (Bminus (prec_gt_0_ := p32) (prec_lt_emax_ := e32) mode_NE)
    (@Bltb 24 128) (@Bleb 24 128) (@Beqb 24 128) (B754_zero false) (f32_of_Z (-1))
    (@Bmax_float 24 128 p32 e32) f32_trunc.

Lemma KF32_laws : cost_laws KF32.
Proof.
  constructor; cbn [fadd fsub fltb fleb feqb fzero fneg1 fmax KF32].
  - intros a b c H1 H2. apply leb_true in H1, H2. apply leb_true. destruct H1 as (?&?&?), H2 as (?&?&?).
    repeat split; auto. lra.
  - intros a b c H1 H2. apply leb_true in H1. apply ltb_true in H2. apply ltb_true.
    destruct H1 as (?&?&?), H2 as (?&?&?). repeat split; auto. lra.
  - intros a b c H1 H2. apply leb_true in H2. apply ltb_true in H1. apply ltb_true.
    destruct H1 as (?&?&?), H2 as (?&?&?). repeat split; auto. lra.
  - intros a b H. apply ltb_true in H. apply leb_true. destruct H as (?&?&?). repeat split; auto. lra.
  - intros a. apply ltb_false. right. right. lra.
  - intros a b H. apply leb_true in H. apply leb_true. destruct H as (?&?&?). repeat split; auto. lra.
  - intros a b H. apply leb_true in H. apply leb_true. destruct H as (?&?&?). repeat split; auto. lra.
  - intros a b x Hb Hx. apply ltb_true in Hx. destruct Hx as (Hn & _ & _).
    apply leb_true.
    assert (Na : nan a = false). { destruct a, b; try reflexivity; discriminate. }
    assert (Nb : nan b = false). { destruct a, b; try reflexivity; discriminate. }
    split; [exact Na|]. split; [exact Hn|].
    apply ltb_false in Hb. destruct Hb as [Hb|[Hb|Hb]]; [congruence|discriminate|]. change (key (B754_zero false)) with 0 in Hb.
    destruct (is_finite a) eqn:Fa.
    + destruct (is_finite b) eqn:Fb.
      * destruct (plus_key 24 128 p32 e32 a b Fa Fb) as [_ E]. rewrite E.
        rewrite <- (clampM_id 128 (key a)) at 1 by apply key_bounds.
        apply clampM_mono. rewrite <- (rnd_key 24 128 a Fa) at 1. apply (rnd_mono 24 128 p32). lra.
      * pose proof (M_pos 128). pose proof (key_bounds 24 128 a).
        destruct b as [|[]| |]; try discriminate; [simpl in Hb; lra|].
        destruct a; try discriminate; simpl; simpl in *; lra.
    + destruct a as [|sa| |]; try discriminate. destruct b as [|sb| |]; try discriminate; simpl in *; try lra.
      destruct sa, sb; simpl in *; try discriminate; lra.
  - reflexivity.
  - reflexivity.
Qed.

Lemma f32_minus_nonneg (x a : f32) : (nan x = false -> nan a = false -> key a <= key x) ->
  Bltb (Bminus (prec_gt_0_ := p32) (prec_lt_emax_ := e32) mode_NE x a) (B754_zero false) = false.
Proof.
  intros H. apply ltb_false.
  destruct (nan x) eqn:Nx; [left; destruct x; try discriminate; destruct a; reflexivity|].
  destruct (nan a) eqn:Na; [left; destruct a; try discriminate; destruct x; reflexivity|].
  specialize (H eq_refl eq_refl). pose proof (M_pos 128) as HM.
  destruct (is_finite x) eqn:Fx.
  - destruct (is_finite a) eqn:Fa.
    + right. right. destruct (minus_key 24 128 p32 e32 x a Fx Fa) as [_ E]. rewrite E.
      change (key (B754_zero false)) with 0.
      rewrite <- (clampM_id 128 0) by lra. apply clampM_mono. rewrite <- (rnd_0 24 128).
      apply (rnd_mono 24 128 p32). lra.
    + destruct a as [|[]| |]; try discriminate.
      * destruct x; try discriminate; right; right; simpl; lra.
      * exfalso. change (key (B754_infinity false)) with (bpow radix2 128) in H.
        rewrite (finite_key 24 128 x Fx) in H. pose proof (finite_lt 24 128 x Fx). lra.
  - destruct x as [|[]| |]; try discriminate.
    + destruct (is_finite a) eqn:Fa.
      * exfalso. change (key (B754_infinity true)) with (- bpow radix2 128) in H.
        rewrite (finite_key 24 128 a Fa) in H. pose proof (finite_lt 24 128 a Fa). lra.
      * destruct a as [|[]| |]; try discriminate; [left; reflexivity|]. exfalso. simpl in H. lra.
    + destruct a as [|[]| |]; try discriminate; try (left; reflexivity); right; right; simpl; lra.
Qed.

Lemma f32_plus_comm (a b : f32) : Bplus (prec_gt_0_ := p32) (prec_lt_emax_ := e32) mode_NE a b =
  Bplus (prec_gt_0_ := p32) (prec_lt_emax_ := e32) mode_NE b a.
Proof.
  destruct a as [sa|sa| |sa ma ea Ha], b as [sb|sb| |sb mb eb Hb]; try reflexivity; try (destruct sa, sb; reflexivity).
  unfold Bplus. rewrite (Z.min_comm eb ea). f_equal. apply Zplus_comm.
Qed.

Lemma f32_plus_ge (a b : f32) : Bltb b (B754_zero false) = false ->
  nan (Bplus (prec_gt_0_ := p32) (prec_lt_emax_ := e32) mode_NE a b) = false -> nan a = false ->
  key a <= key (Bplus (prec_gt_0_ := p32) (prec_lt_emax_ := e32) mode_NE a b).
Proof.
  intros Hb Hn Na.
  assert (E : Bltb (Bplus (prec_gt_0_ := p32) (prec_lt_emax_ := e32) mode_NE a b) (B754_infinity false) = true \/
    Bplus (prec_gt_0_ := p32) (prec_lt_emax_ := e32) mode_NE a b = B754_infinity false).
  { destruct (Bplus mode_NE a b) as [|[]| |]; try discriminate; auto; left; destruct s; reflexivity. }
  destruct E as [E|E].
  - pose proof (lw_add_le _ KF32_laws a b _ Hb E) as H. apply leb_true in H. apply H.
  - rewrite E. change (key (B754_infinity false)) with (bpow radix2 128). apply key_bounds.
Qed.

Lemma KF32_leave : leave_laws KF32.
Proof.
  constructor; cbn [fadd fsub fltb fleb feqb fzero fneg1 fmax ftrunc KF32].
  - intros a b Hb. apply f32_minus_nonneg. intros. apply f32_plus_ge; assumption.
  - intros a b Hb. apply f32_minus_nonneg. rewrite (f32_plus_comm b a). intros. apply f32_plus_ge; assumption.
  - intros a b Ha E. unfold f32_trunc in E. destruct (is_finite a) eqn:Fa; [|discriminate].
    destruct (_ && _) eqn:Er; [|discriminate]. injection E as <-.
    apply ltb_false in Ha. destruct Ha as [Ha|[Ha|Ha]]; [destruct a; discriminate|discriminate|].
    change (key (B754_zero false)) with 0 in Ha. rewrite finite_key in Ha by exact Fa.
    assert (Hz : (0 <= Btrunc a)%Z).
    { apply le_IZR. rewrite (Btrunc_correct 24 128 e32 a).
      rewrite <- (round_0 radix2 (FIX_exp 0) Ztrunc). apply round_le; try typeclasses eauto. exact Ha. }
    unfold f32_of_Z.
    assert (Hf : F2R (Float radix2 (Btrunc a) 0) = IZR (Btrunc a)).
    { unfold F2R. simpl. lra. }
    pose proof (binary_normalize_correct 24 128 p32 e32 mode_NE (Btrunc a) 0 false) as H. cbv zeta in H.
    rewrite Hf in H. simpl round_mode in H.
    assert (Hr : 0 <= round radix2 (SpecFloat.fexp 24 128) ZnearestE (IZR (Btrunc a))).
    { rewrite <- (rnd_0 24 128). apply (rnd_mono 24 128 p32). apply IZR_le. exact Hz. }
    destruct (Rlt_bool _ _).
    + destruct H as (H1 & H2 & _). apply ltb_false. right. right. rewrite (finite_key 24 128 _ H2).
      rewrite H1. exact Hr.
    + assert (Hs : Rlt_bool (IZR (Btrunc a)) 0 = false) by (apply Rlt_bool_false; apply IZR_le; exact Hz).
      rewrite Hs in H. apply of_overflow in H. rewrite H. reflexivity.
Qed.
