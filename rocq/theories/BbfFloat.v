(** The arithmetic of planner_cspace/include/planner_cspace/bbf.h: float odds, probabilities computed in double. *)
From Coq Require Import Reals Lra Psatz ZifyBool QArith Qreals.
From Flocq Require Import Core.Core Core.Raux IEEE754.BinarySingleNaN Relative.
From Verif Require Import Common CostF32 FloatLib MotionCache Motion3DProofs SafetyLimiter Bbf.
Local Open Scope Z_scope.

(** Conversions between float and double. *)
Definition conv {p e p' e' : Z} (hp : Prec_gt_0 p') (he : Prec_lt_emax p' e') (x : binary_float p e) : binary_float p' e' :=
  match x with
  | B754_zero s => B754_zero s
  | B754_infinity s => B754_infinity s
  | B754_nan => B754_nan
  | B754_finite s m ex _ => binary_normalize p' e' hp he mode_NE (cond_Zopp s (Zpos m)) ex s
  end.
Definition to64 (x : f32) : f64 := conv p64 e64 x.
Definition to32 (x : f64) : f32 := conv p32 e32 x.
Definition one64 : f64 := f64_of 1 0.
Definition sub64 (a b : f64) : f64 := Bminus (prec_gt_0_ := p64) (prec_lt_emax_ := e64) mode_NE a b.
Definition add64 (a b : f64) : f64 := Bplus (prec_gt_0_ := p64) (prec_lt_emax_ := e64) mode_NE a b.
Definition sub32 (a b : f32) : f32 := Bminus (prec_gt_0_ := p32) (prec_lt_emax_ := e32) mode_NE a b.
Definition mul32 (a b : f32) : f32 := Bmult (prec_gt_0_ := p32) (prec_lt_emax_ := e32) mode_NE a b.
Definition div32 (a b : f32) : f32 := Bdiv (prec_gt_0_ := p32) (prec_lt_emax_ := e32) mode_NE a b.

(** bbf.h:36-44 oddsToProbability, probabilityToOdds. *)
Definition oddsToProbability (o : f32) : f32 := to32 (fdiv (to64 o) (add64 one64 (to64 o))).
Definition probabilityToOdds (p : f32) : f32 := to32 (fdiv (to64 p) (sub64 one64 (to64 p))).
(** bbf.h:46-49; the double nearest to 0.1 is 7205759403792794 * 2^-56. *)
Definition MIN_PROBABILITY : f32 := to32 (f64_of 7205759403792794 (-56)).
Definition MAX_PROBABILITY : f32 := to32 (sub64 one64 (to64 MIN_PROBABILITY)).
Definition MIN_ODDS : f32 := probabilityToOdds MIN_PROBABILITY.
Definition MAX_ODDS : f32 := probabilityToOdds MAX_PROBABILITY.
(** bbf.h:62-70 update. *)
Definition bayes_update (o odds : f32) : f32 :=
  let o' := mul32 o odds in
  if Bltb o' MIN_ODDS then MIN_ODDS else if Bltb MAX_ODDS o' then MAX_ODDS else o'.
(** bbf.h:79-82 getNormalizedProbability. *)
Definition normalized (o : f32) : f32 :=
  div32 (sub32 (oddsToProbability o) MIN_PROBABILITY) (sub32 MAX_PROBABILITY MIN_PROBABILITY).
(** std::lround of a double; the value for non-finite numbers is unspecified in C++, 0 here (never met, see C12). *)
Definition lround64 (x : f64) : Z :=
  match x with
  | B754_finite s m e _ =>
      let z := cond_Zopp s (Zpos m) in
      if (0 <=? e) then z * 2 ^ e else lround (z # Z.to_pos (2 ^ (- e)))%Q
  | _ => 0
  end.
(** costmap_bbf.cpp:48. *)
Definition percent (o : f32) : Z := lround64 (fmul (to64 (normalized o)) (f64_of 100 0)).
Definition bbf_float : filter_ops f32 := FilterOps f32 MIN_ODDS bayes_update percent.

Local Open Scope R_scope.

Lemma lround64_real (x : f64) : is_finite x = true -> exists q : Q, Q2R q = B2R x /\ lround64 x = lround q.
Proof.
  destruct x as [s| | |s m e H]; try discriminate; intros _.
  - exists 0%Q. split; [unfold Q2R; simpl; lra|reflexivity].
  - simpl. unfold F2R. simpl Fnum. simpl Fexp. destruct (Z.leb_spec 0 e) as [L|L].
    + exists (inject_Z (cond_Zopp s (Zpos m) * 2 ^ e)). split; [|rewrite lround_Z; reflexivity].
      unfold Q2R, inject_Z. simpl Qnum. simpl Qden. rewrite mult_IZR. rewrite <- (IZR_Zpower radix2 e L).
      change (Zpower radix2 e) with (2 ^ e)%Z. lra.
    + exists (cond_Zopp s (Zpos m) # Z.to_pos (2 ^ (- e)))%Q. split; [|reflexivity].
      unfold Q2R. simpl Qnum. simpl Qden. rewrite Z2Pos.id by (apply Z.pow_pos_nonneg; lia).
      change (2 ^ (- e))%Z with (Zpower radix2 (- e)). rewrite (IZR_Zpower radix2) by lia.
      rewrite bpow_opp, Rinv_inv. reflexivity.
Qed.

Lemma lround64_bounds (x : f64) a b qa qb : is_finite x = true -> lround qa = a -> lround qb = b -> Q2R qa <= B2R x <= Q2R qb ->
  (a <= lround64 x <= b)%Z.
Proof.
  intros F <- <- [H1 H2]. destruct (lround64_real x F) as (q & E & ->). rewrite <- E in *.
  split; apply lround_mono; apply Rle_Qle; assumption.
Qed.

(** *** Operations and intervals *)
Section Iv.
  Variables p e : Z.
  Context (hp : Prec_gt_0 p) (he : Prec_lt_emax p e).
  Notation fl := (binary_float p e).
  Notation rnd := (round radix2 (SpecFloat.fexp p e) ZnearestE).
  Variables (a b : fl).
  Hypothesis Fa : is_finite a = true.
  Hypothesis Fb : is_finite b = true.
  Let ve : Valid_exp (SpecFloat.fexp p e) := fexp_correct p e hp.

  Lemma rnd_between z : B2R a <= z <= B2R b -> B2R a <= rnd z <= B2R b /\ Rabs (rnd z) < bpow radix2 e.
  Proof.
    intros [H1 H2].
    assert (Ea : rnd (B2R a) = B2R a) by (apply round_generic; [typeclasses eauto|apply generic_format_B2R]).
    assert (Eb : rnd (B2R b) = B2R b) by (apply round_generic; [typeclasses eauto|apply generic_format_B2R]).
    assert (B : B2R a <= rnd z <= B2R b).
    { split; [rewrite <- Ea|rewrite <- Eb]; apply round_le; try typeclasses eauto; assumption. }
    split; [exact B|]. pose proof (finite_lt p e a Fa). pose proof (finite_lt p e b Fb). apply Rabs_def1; lra.
  Qed.

  Lemma conv_between {p' e' : Z} (x : binary_float p' e') : is_finite x = true -> B2R a <= B2R x <= B2R b ->
    is_finite (conv hp he x) = true /\ B2R a <= B2R (conv hp he x) <= B2R b.
  Proof.
    intros Fx H. destruct x as [s| | |s m ex Hx]; try discriminate.
    - simpl in *. split; [reflexivity|exact H].
    - simpl in H. destruct (rnd_between _ H) as [B L]. unfold conv.
      pose proof (binary_normalize_correct p e hp he mode_NE (cond_Zopp s (Zpos m)) ex s) as Q. cbv zeta in Q.
      simpl round_mode in Q. rewrite Rlt_bool_true in Q by exact L. destruct Q as (Q1 & Q2 & _). rewrite Q1. auto.
  Qed.
  Lemma plus_between (x y : fl) : is_finite x = true -> is_finite y = true -> B2R a <= B2R x + B2R y <= B2R b ->
    is_finite (Bplus mode_NE x y) = true /\ B2R (Bplus mode_NE x y) = rnd (B2R x + B2R y) /\ B2R a <= B2R (Bplus mode_NE x y) <= B2R b.
  Proof.
    intros Fx Fy H. destruct (rnd_between _ H) as [B L]. pose proof (Bplus_correct p e hp he mode_NE x y Fx Fy) as Q.
    simpl round_mode in Q. rewrite Rlt_bool_true in Q by exact L. destruct Q as (Q1 & Q2 & _). rewrite Q1. auto.
  Qed.
  Lemma minus_between (x y : fl) : is_finite x = true -> is_finite y = true -> B2R a <= B2R x - B2R y <= B2R b ->
    is_finite (Bminus mode_NE x y) = true /\ B2R a <= B2R (Bminus mode_NE x y) <= B2R b.
  Proof.
    intros Fx Fy H. destruct (rnd_between _ H) as [B L]. pose proof (Bminus_correct p e hp he mode_NE x y Fx Fy) as Q.
    simpl round_mode in Q. rewrite Rlt_bool_true in Q by exact L. destruct Q as (Q1 & Q2 & _). rewrite Q1. auto.
  Qed.
  Lemma div_between (x y : fl) : is_finite x = true -> B2R y <> 0 -> B2R a <= B2R x / B2R y <= B2R b ->
    is_finite (Bdiv mode_NE x y) = true /\ B2R a <= B2R (Bdiv mode_NE x y) <= B2R b.
  Proof.
    intros Fx Fy H. destruct (rnd_between _ H) as [B L]. pose proof (Bdiv_correct p e hp he mode_NE x y Fy) as Q.
    simpl round_mode in Q. rewrite Rlt_bool_true in Q by exact L. destruct Q as (Q1 & Q2 & _). rewrite Q1, Q2. auto.
  Qed.
  Lemma mult_between (x y : fl) : is_finite x = true -> is_finite y = true -> B2R a <= B2R x * B2R y <= B2R b ->
    is_finite (Bmult mode_NE x y) = true /\ B2R a <= B2R (Bmult mode_NE x y) <= B2R b.
  Proof.
    intros Fx Fy H. destruct (rnd_between _ H) as [B L]. pose proof (Bmult_correct p e hp he mode_NE x y) as Q.
    simpl round_mode in Q. rewrite Rlt_bool_true in Q by exact L. destruct Q as (Q1 & Q2 & _). rewrite Q1, Q2, Fx, Fy. auto.
  Qed.
End Iv.

(** Value of a concrete float. *)
Lemma value_of {p e} (x : binary_float p e) s m ex den : B2SF x = SpecFloat.S754_finite s m (Z.neg ex) -> den = Z.pow_pos 2 ex ->
  is_finite x = true /\ B2R x = IZR (cond_Zopp s (Zpos m)) * / IZR den.
Proof. intros H ->. split; [destruct x; try discriminate; reflexivity|]. rewrite <- SF2R_B2SF, H. reflexivity. Qed.
Ltac value x :=
  let v := eval vm_compute in (B2SF x) in
  match v with SpecFloat.S754_finite ?s ?m (Z.neg ?ex) =>
    let n := eval vm_compute in (cond_Zopp s (Zpos m)) in
    let den := eval vm_compute in (Z.pow_pos 2 ex) in
    let H := fresh "V" in
    assert (H : is_finite x = true /\ B2R x = IZR n * / IZR den)
      by (apply (value_of x s m ex den); vm_compute; reflexivity)
  end.

Definition f32_of (m e : Z) : f32 := binary_normalize 24 128 p32 e32 mode_NE m e false.

Lemma quot_between a b y z : 0 < z -> a * z <= y <= b * z -> a <= y / z <= b.
Proof.
  intros Z H. assert (y / z * z = y) by (field; lra). split; apply Rmult_le_reg_r with z; lra.
Qed.

(** The filter value stays between these. *)
Definition odds_ok (o : f32) : Prop := Bleb MIN_ODDS o = true /\ Bleb o MAX_ODDS = true.

Lemma odds_ok_real o : odds_ok o -> is_finite o = true /\ 14913081 * / 134217728 <= B2R o <= 9437182 * / 1048576.
Proof.
  value MIN_ODDS. value MAX_ODDS. destruct V as [F1 V1], V0 as [F2 V2].
  intros [H1 H2]. apply leb_true in H1, H2. rewrite (finite_key 24 128 _ F1), V1 in H1. rewrite (finite_key 24 128 _ F2), V2 in H2.
  assert (Fo : is_finite o = true).
  { apply (finite_iff 24 128 o); [apply H2|].
    assert (256 < bpow radix2 128) by (change 256 with (bpow radix2 8); apply bpow_lt; lia). lra. }
  split; [exact Fo|]. rewrite (finite_key 24 128 _ Fo) in H1, H2. lra.
Qed.

(** The rounding error of one double addition to 1. *)
Lemma add_one_error x : 1 <= x <= 11 -> Rabs (round radix2 (SpecFloat.fexp 53 1024) ZnearestE x - x) <= / 1099511627776.
Proof.
  intros H. change (SpecFloat.fexp 53 1024) with (FLT_exp (-1074) 53).
  pose proof (relative_error_N_FLT radix2 (-1074) 53 ltac:(lia) (fun z => negb (Z.even z)) x) as E.
  assert (A : Rabs x = x) by (apply Rabs_pos_eq; lra). rewrite A in E.
  eapply Rle_trans; [apply E|].
  - eapply Rle_trans; [|apply H]. change 1 with (bpow radix2 0). apply bpow_le. lia.
  - change (bpow radix2 (- (53) + 1)) with (/ 4503599627370496). lra.
Qed.

Lemma probability_bounds o : odds_ok o -> is_finite (oddsToProbability o) = true /\
  104857 * / 1048576 <= B2R (oddsToProbability o) <= 943719 * / 1048576.
Proof.
  intros H. destruct (odds_ok_real o H) as [Fo Ho]. unfold oddsToProbability.
  (* conversion to double *)
  set (lo := f64_of 14913081 (-27)). set (hi := f64_of 9437182 (-20)).
  value (f64_of 14913081 (-27)). destruct V as [Fl Vl]. value (f64_of 9437182 (-20)). destruct V as [Fh Vh].
  destruct (conv_between 53 1024 p64 e64 lo hi Fl Fh o Fo) as [Fx Hx]; [unfold lo, hi; rewrite Vl, Vh; lra|].
  change (conv p64 e64 o) with (to64 o) in *. unfold lo, hi in Hx. rewrite Vl, Vh in Hx. clear lo hi Vl Vh Fl Fh.
  set (x := to64 o) in *.
  (* 1 + x *)
  value one64. destruct V as [F1 V1].
  set (lo := f64_of 1 0). set (hi := f64_of 11 0).
  value (f64_of 1 0). destruct V as [Fl Vl]. value (f64_of 11 0). destruct V as [Fh Vh].
  destruct (plus_between 53 1024 p64 e64 lo hi Fl Fh one64 x F1 Fx) as (Fd & Ed & Hd); [unfold lo, hi; rewrite V1, Vl, Vh; lra|].
  fold (add64 one64 x) in *. rewrite V1 in Ed. clear lo hi Vl Vh Fl Fh Hd.
  set (d := add64 one64 x) in *.
  assert (Err := add_one_error (4503599627370496 * / 4503599627370496 + B2R x) ltac:(lra)). rewrite <- Ed in Err.
  apply Rabs_le_inv in Err.
  set (y := B2R x) in *. set (z := B2R d) in *.
  assert (Zp : 0 < z) by lra.
  (* x / (1 + x) *)
  assert (Q : 104857 * / 1048576 <= y / z <= 943719 * / 1048576).
  { apply quot_between; [exact Zp|lra]. }
  set (lo := f64_of 104857 (-20)). set (hi := f64_of 943719 (-20)).
  value (f64_of 104857 (-20)). destruct V as [Fl Vl]. value (f64_of 943719 (-20)). destruct V as [Fh Vh].
  destruct (div_between 53 1024 p64 e64 lo hi Fl Fh x d Fx) as (Fq & Hq).
  { unfold z in Zp. lra. }
  { unfold lo, hi. fold y. fold z. rewrite Vl, Vh. lra. }
  change (Bdiv mode_NE x d) with (fdiv x d) in *. unfold lo, hi in Hq. rewrite Vl, Vh in Hq. clear lo hi Vl Vh Fl Fh.
  set (lo := f32_of 104857 (-20)). set (hi := f32_of 943719 (-20)).
  value (f32_of 104857 (-20)). destruct V as [Fl Vl]. value (f32_of 943719 (-20)). destruct V as [Fh Vh].
  destruct (conv_between 24 128 p32 e32 lo hi Fl Fh (fdiv x d) Fq) as [Fr Hr]; [unfold lo, hi; rewrite Vl, Vh; lra|].
  change (conv p32 e32 (fdiv x d)) with (to32 (fdiv x d)) in *. unfold lo, hi in Hr. rewrite Vl, Vh in Hr.
  split; [exact Fr|lra].
Qed.

(** The percentage of a filter value in range is between 0 and 100. *)
Lemma percent_bounds o : odds_ok o -> (0 <= percent o <= 100)%Z.
Proof.
  intros H. destruct (probability_bounds o H) as [Fp Hp]. unfold percent, normalized.
  set (r := oddsToProbability o) in *.
  value MIN_PROBABILITY. destruct V as [Fm Vm].
  set (lo := f32_of (-1) (-20)). set (hi := f32_of 838862 (-20)).
  value (f32_of (-1) (-20)). destruct V as [Fl Vl]. value (f32_of 838862 (-20)). destruct V as [Fh Vh].
  destruct (minus_between 24 128 p32 e32 lo hi Fl Fh r MIN_PROBABILITY Fp Fm) as [Fs Hs]; [unfold lo, hi; rewrite Vm, Vl, Vh; lra|].
  fold (sub32 r MIN_PROBABILITY) in *. unfold lo, hi in Hs. rewrite Vl, Vh in Hs. clear lo hi Vl Vh Fl Fh.
  set (s := sub32 r MIN_PROBABILITY) in *.
  value (sub32 MAX_PROBABILITY MIN_PROBABILITY). destruct V as [Fk Vk]. set (k := sub32 MAX_PROBABILITY MIN_PROBABILITY) in *.
  set (lo := f32_of (-1) (-19)). set (hi := f32_of 262145 (-18)).
  value (f32_of (-1) (-19)). destruct V as [Fl Vl]. value (f32_of 262145 (-18)). destruct V as [Fh Vh].
  destruct (div_between 24 128 p32 e32 lo hi Fl Fh s k Fs) as [Fn Hn].
  { rewrite Vk. lra. }
  { unfold lo, hi. rewrite Vl, Vh.
    assert (Kp : 0 < B2R k) by (rewrite Vk; lra).
    apply quot_between; [exact Kp|rewrite Vk; lra]. }
  change (Bdiv mode_NE s k) with (div32 s k) in *. unfold lo, hi in Hn. rewrite Vl, Vh in Hn. clear lo hi Vl Vh Fl Fh.
  set (n := div32 s k) in *.
  set (lo := f64_of (-1) (-19)). set (hi := f64_of 262145 (-18)).
  value (f64_of (-1) (-19)). destruct V as [Fl Vl]. value (f64_of 262145 (-18)). destruct V as [Fh Vh].
  destruct (conv_between 53 1024 p64 e64 lo hi Fl Fh n Fn) as [Fx Hx]; [unfold lo, hi; rewrite Vl, Vh; lra|].
  change (conv p64 e64 n) with (to64 n) in *. unfold lo, hi in Hx. rewrite Vl, Vh in Hx. clear lo hi Vl Vh Fl Fh.
  value (f64_of 100 0). destruct V as [F100 V100].
  set (lo := f64_of (-1) (-12)). set (hi := f64_of 204801 (-11)).
  value (f64_of (-1) (-12)). destruct V as [Fl Vl]. value (f64_of 204801 (-11)). destruct V as [Fh Vh].
  destruct (mult_between 53 1024 p64 e64 lo hi Fl Fh (to64 n) (f64_of 100 0) Fx F100) as [Fm' Hm]; [unfold lo, hi; rewrite V100, Vl, Vh; lra|].
  change (Bmult mode_NE (to64 n) (f64_of 100 0)) with (fmul (to64 n) (f64_of 100 0)) in *. unfold lo, hi in Hm. rewrite Vl, Vh in Hm.
  apply (lround64_bounds _ 0 100 (-1 # 4096) (204801 # 2048) Fm'); [reflexivity|reflexivity|].
  unfold Q2R. cbn [Qnum Qden]. lra.
Qed.

(** Updates keep the filter value in range. *)
Lemma update_in_range o x : odds_ok o -> nan x = false -> odds_ok (bayes_update o x).
Proof.
  intros H Nx. unfold bayes_update. destruct (odds_ok_real o H) as [Fo Ho].
  assert (Nm : nan (mul32 o x) = false).
  { destruct (is_finite x) eqn:Fx; [apply (mult_key 24 128 p32 e32 o x Fo Fx)|].
    destruct x as [|sx| |]; try discriminate. destruct o as [| | |so mo eo Bo]; try discriminate; [cbn [B2R] in Ho; lra|reflexivity]. }
  assert (MM : Bleb MIN_ODDS MIN_ODDS = true /\ Bleb MIN_ODDS MAX_ODDS = true /\ Bleb MAX_ODDS MAX_ODDS = true /\ nan MIN_ODDS = false /\ nan MAX_ODDS = false)
    by (vm_compute; auto). destruct MM as (M1 & M2 & M3 & M4 & M5).
  destruct (Bltb (mul32 o x) MIN_ODDS) eqn:E1; [split; assumption|].
  destruct (Bltb MAX_ODDS (mul32 o x)) eqn:E2; [split; assumption|].
  apply ltb_false in E1, E2. split; apply leb_true; split; auto; split; auto.
  - destruct E1 as [X|[X|X]]; [congruence|congruence|exact X].
  - destruct E2 as [X|[X|X]]; [congruence|congruence|exact X].
Qed.

Lemma not_finite_hit (x : f32) : nan x = false -> 1 <= key x -> is_finite x = false -> x = B754_infinity false.
Proof.
  destruct x as [s|[]| |s m e B]; try discriminate; intros _ L _; [|reflexivity].
  exfalso. unfold key in L. pose proof (bpow_gt_0 radix2 128). cbn [B2R] in L. lra.
Qed.
Lemma infinite_product (o : f32) : is_finite o = true -> 0 < B2R o -> mul32 o (B754_infinity false) = B754_infinity false.
Proof.
  destruct o as [s| | |[] m e B]; try discriminate; intros _ P; [cbn [B2R] in P; lra| |reflexivity].
  exfalso. assert (F2R (Float radix2 (Zneg m) e) <= 0) by (apply F2R_le_0; cbn [Fnum]; lia).
  change (B2R (B754_finite true m e B)) with (F2R (Float radix2 (Zneg m) e)) in P. lra.
Qed.

(** A hit (odds not below one) never lowers the filter value, a miss (odds between zero and one) never raises it. *)
Lemma update_direction o x : odds_ok o -> nan x = false ->
  (1 <= key x -> B2R o <= B2R (bayes_update o x)) /\ (0 <= key x <= 1 -> B2R (bayes_update o x) <= B2R o).
Proof.
  intros H Nx. pose proof (update_in_range o x H Nx) as Hu. destruct (odds_ok_real o H) as [Fo Ho].
  destruct (odds_ok_real _ Hu) as [Fu Hu']. unfold bayes_update in *.
  assert (K : forall y, 0 <= key y -> is_finite y = true ->
    (1 <= key y -> key o <= key (mul32 o y)) /\ (key y <= 1 -> key (mul32 o y) <= key o)).
  { intros y _ Fy. destruct (mult_key 24 128 p32 e32 o y Fo Fy) as [_ E]. change (Bmult mode_NE o y) with (mul32 o y) in E. rewrite E.
    assert (Ko : key o = clampM 128 (round radix2 (SpecFloat.fexp 24 128) ZnearestE (key o))).
    { rewrite (rnd_key 24 128 o Fo). symmetry. apply clampM_id. apply key_bounds. }
    assert (Po : 0 < key o) by (rewrite (finite_key 24 128 o Fo); lra).
    split; intros L.
    - eapply Rle_trans; [rewrite Ko; apply Rle_refl|]. apply clampM_mono; apply (rnd_mono 24 128 p32); nra.
    - eapply Rle_trans; [|rewrite Ko; apply Rle_refl]. apply clampM_mono; apply (rnd_mono 24 128 p32); nra. }
  destruct (odds_ok_real o H) as [_ Ho2]. destruct H as [H1 H2]. apply leb_true in H1, H2. rewrite (finite_key 24 128 o Fo) in *.
  split; intros L.
  - destruct (Bltb (mul32 o x) MIN_ODDS) eqn:E1.
    { destruct (is_finite x) eqn:Fx.
      - destruct (K x ltac:(lra) Fx) as [K1 _]. specialize (K1 L). apply ltb_true in E1. lra.
      - rewrite (not_finite_hit x Nx L Fx), (infinite_product o) in E1 by (auto; lra).
        assert (E0 : Bltb (B754_infinity false : f32) MIN_ODDS = false) by (vm_compute; reflexivity).
        exact (False_ind _ (Bool.diff_false_true (eq_trans (eq_sym E0) E1))). }
    destruct (Bltb MAX_ODDS (mul32 o x)) eqn:E2.
    { value MAX_ODDS. destruct V as [FM _]. rewrite <- (finite_key 24 128 _ FM). lra. }
    destruct (is_finite x) eqn:Fx.
    + destruct (K x ltac:(lra) Fx) as [K1 _]. specialize (K1 L). rewrite (finite_key 24 128 _ Fu) in K1. exact K1.
    + rewrite (not_finite_hit x Nx L Fx), (infinite_product o) in Fu by (auto; lra).
      exact (False_ind _ (Bool.diff_false_true Fu)).
  - assert (Fx : is_finite x = true).
    { apply (finite_iff 24 128 x Nx). pose proof (M_pos 128). assert (1 < bpow radix2 128) by (change 1 with (bpow radix2 0); apply bpow_lt; lia). lra. }
    destruct (K x ltac:(lra) Fx) as [_ K2]. specialize (K2 ltac:(lra)).
    destruct (Bltb (mul32 o x) MIN_ODDS) eqn:E1.
    { value MIN_ODDS. destruct V as [FM _]. rewrite <- (finite_key 24 128 _ FM). lra. }
    destruct (Bltb MAX_ODDS (mul32 o x)) eqn:E2.
    { apply ltb_true in E2. lra. }
    rewrite (finite_key 24 128 _ Fu) in K2. exact K2.
Qed.
