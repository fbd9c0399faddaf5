(** The arithmetic facts of [dist_laws] for integers, reals and IEEE binary32. *)
From Coq Require Import Reals Lra ZifyBool.
From Flocq Require Import Core.Core Core.Raux IEEE754.BinarySingleNaN.
From Verif Require Import Common CostAlg CostZ CostF32 FloatLib DistMap DistMapSpec.

Definition anyZ : option Z -> Prop := fun _ => True.
Lemma KZ_dist : dist_laws KZ anyZ.
Proof.
  constructor; unfold finite, anyZ; simpl; auto using KZ_laws.
  all: try (intros [a|] [b|] [c|]; simpl; intros; try discriminate; try reflexivity; lia).
  all: try (intros [a|] [b|]; simpl; intros; try discriminate; try reflexivity; lia).
Qed.

Definition anyR : option R -> Prop := fun _ => True.
Lemma KR_dist : dist_laws KR anyR.
Proof.
  constructor; unfold finite, anyR; simpl; auto using KR_laws.
  all: try (intros [a|] [b|] [c|]; simpl; intros; rdec; fail).
  all: try (intros [a|] [b|]; simpl; intros; rdec; fail).
Qed.

(** Every float except NaN and minus infinity. *)
Definition num32 (x : f32) : Prop := nan x = false /\ x <> B754_infinity true.

Local Open Scope R_scope.
Notation plus32 := (Bplus (prec_gt_0_ := p32) (prec_lt_emax_ := e32) mode_NE).
Notation minus32 := (Bminus (prec_gt_0_ := p32) (prec_lt_emax_ := e32) mode_NE).

Notation M32 := (bpow radix2 128).
Lemma key_pinf : key (B754_infinity false : f32) = M32.
Proof. reflexivity. Qed.
Lemma key_ninf : key (B754_infinity true : f32) = - M32.
Proof. reflexivity. Qed.
Lemma num32_cases x : num32 x -> is_finite x = true \/ x = B754_infinity false.
Proof. intros [N I]. destruct x as [|[]| |]; auto; congruence. Qed.
Lemma num32_key x : num32 x <-> nan x = false /\ - M32 < key x.
Proof.
  split.
  - intros H. split; [apply H|]. destruct (num32_cases x H) as [Fx| ->].
    + rewrite finite_key by exact Fx. apply finite_lt. exact Fx.
    + rewrite key_pinf. pose proof (M_pos 128). lra.
  - intros [N H]. split; [exact N|]. intros ->. rewrite key_ninf in H. lra.
Qed.
Lemma nonneg_key (x : f32) : nan x = false -> Bltb x (B754_zero false) = false -> 0 <= key x.
Proof. intros N H. apply ltb_false in H. destruct H as [H|[H|H]]; [congruence|discriminate|exact H]. Qed.

Lemma plus32_nan a w : num32 a -> num32 w -> nan (plus32 a w) = false.
Proof.
  intros Na Nw. destruct (num32_cases a Na) as [Fa| ->]; [destruct (num32_cases w Nw) as [Fw| ->]|].
  - apply (plus_key 24 128 p32 e32 a w Fa Fw).
  - destruct a; try discriminate; reflexivity.
  - destruct (num32_cases w Nw) as [Fw| ->]; [destruct w; try discriminate; reflexivity|reflexivity].
Qed.
Lemma plus32_mono a b w w' : num32 a -> num32 b -> num32 w -> num32 w' -> key a <= key b -> key w <= key w' ->
  key (plus32 a w) <= key (plus32 b w').
Proof.
  intros Na Nb Nw Nw' H1 H2.
  assert (Big : plus32 b w' = B754_infinity false -> key (plus32 a w) <= key (plus32 b w')).
  { intros ->. rewrite key_pinf. apply (key_bounds 24 128). }
  destruct (num32_cases b Nb) as [Fb| ->].
  2:{ apply Big. destruct (num32_cases w' Nw') as [Fw| ->]; [destruct w'; try discriminate; reflexivity|reflexivity]. }
  destruct (num32_cases w' Nw') as [Fw'| ->].
  2:{ apply Big. destruct b; try discriminate; reflexivity. }
  rewrite (finite_key 24 128 b Fb) in H1. rewrite (finite_key 24 128 w' Fw') in H2.
  pose proof (finite_lt 24 128 b Fb). pose proof (finite_lt 24 128 w' Fw').
  destruct (num32_cases a Na) as [Fa| ->]; [|rewrite key_pinf in H1; lra].
  destruct (num32_cases w Nw) as [Fw| ->]; [|rewrite key_pinf in H2; lra].
  destruct (plus_key 24 128 p32 e32 a w Fa Fw) as [_ ->]. destruct (plus_key 24 128 p32 e32 b w' Fb Fw') as [_ ->].
  apply clampM_mono. apply (rnd_mono 24 128 p32).
  rewrite (finite_key 24 128 b Fb), (finite_key 24 128 w' Fw'). lra.
Qed.
Lemma finite32 o : finite KF32 o -> nan o = false -> Bltb o (B754_zero false) = false -> is_finite o = true.
Proof.
  intros H N Z. destruct o as [|[]| |]; auto; try discriminate.
Qed.

Lemma KF32_dist : dist_laws KF32 num32.
Proof.
  constructor; cbn [fadd fsub fltb fleb feqb fzero fneg1 fmax KF32].
  - apply KF32_laws.
  - intros a b [Na _] [Nb _] H. apply leb_true. apply ltb_false in H. destruct H as [H|[H|H]]; try congruence. auto.
  - intros a b H. apply leb_true in H. apply ltb_false. right. right. apply H.
  - intros a w Na Nw Hw. apply num32_key. pose proof (plus32_nan a w Na Nw) as N. split; [exact N|].
    pose proof (f32_plus_ge a w Hw N (proj1 Na)). apply num32_key in Na as [_ Ha]. lra.
  - intros a w Na Nw Hw. pose proof (plus32_nan a w Na Nw) as N. apply leb_true. split; [apply Na|]. split; [exact N|].
    apply f32_plus_ge; auto. apply Na.
  - intros a b w Na Nb Nw Hw H. apply leb_true in H. apply leb_true. split; [apply plus32_nan; auto|].
    split; [apply plus32_nan; auto|]. apply plus32_mono; auto; try lra; apply H.
  - intros a w w' Na Nw Nw' Hw H. apply leb_true in H. apply leb_true. split; [apply plus32_nan; auto|].
    split; [apply plus32_nan; auto|]. apply plus32_mono; auto; try lra; apply H.
  - intros a b o Na Nb Fo Zo H. apply leb_true in H.
    assert (No : nan o = false) by (destruct o; auto; discriminate).
    pose proof (finite32 o Fo No Zo) as Ho. destruct H as (_ & _ & H). apply leb_true.
    destruct (num32_cases b Nb) as [Fb| ->].
    + pose proof (finite_lt 24 128 b Fb). rewrite (finite_key 24 128 b Fb) in H.
      destruct (num32_cases a Na) as [Fa| ->]; [|rewrite key_pinf in H; lra].
      destruct (minus_key 24 128 p32 e32 a o Fa Ho) as [-> ->]. destruct (minus_key 24 128 p32 e32 b o Fb Ho) as [-> ->].
      split; [reflexivity|]. split; [reflexivity|]. apply clampM_mono. apply (rnd_mono 24 128 p32).
      rewrite (finite_key 24 128 b Fb). lra.
    + assert (E : forall x, is_finite x = true -> minus32 (B754_infinity false) x = B754_infinity false) by (intros x; destruct x; try discriminate; reflexivity).
      rewrite (E o Ho). destruct (num32_cases a Na) as [Fa| ->].
      * destruct (minus_key 24 128 p32 e32 a o Fa Ho) as [-> _]. split; [reflexivity|]. split; [reflexivity|].
        rewrite key_pinf. apply (key_bounds 24 128).
      * rewrite (E o Ho). split; [reflexivity|]. split; [reflexivity|]. lra.
  - intros a o Na Fo Zo. assert (No : nan o = false) by (destruct o; auto; discriminate).
    pose proof (finite32 o Fo No Zo) as Ho. pose proof (nonneg_key o No Zo) as Ko. apply leb_true.
    destruct (num32_cases a Na) as [Fa| ->].
    + destruct (minus_key 24 128 p32 e32 a o Fa Ho) as [-> ->]. split; [reflexivity|]. split; [apply Na|].
      pose proof (rnd_mono 24 128 p32 (key a - key o) (key a) ltac:(lra)) as Q. rewrite (rnd_key 24 128 a Fa) in Q.
      rewrite <- (clampM_id 128 (key a)) at 2 by apply key_bounds. apply clampM_mono. exact Q.
    + split; [destruct o; try discriminate; reflexivity|]. split; [reflexivity|].
      rewrite key_pinf. apply (key_bounds 24 128).
  - split; [reflexivity|discriminate].
  - reflexivity.
  - split; [reflexivity|discriminate].
Qed.
