(** Property C44: the slip filter. *)
From Coq Require Import Reals Lra List Psatz.
From Verif Require Import Kalman.
Import ListNotations.
Local Open Scope R_scope.

(** *** Specification *)
(** Inputs the filter's contract allows: finite values, non-negative process noise,
    positive or infinite measurement noise. *)
Definition op_ok (o : kop) : Prop :=
  match o with
  | Predict (Fin _) (Fin sp) => 0 <= sp
  | Measure (Fin _) (Fin si) => 0 < si
  | Measure _ Inf => True
  | _ => False
  end.
(** A healthy filter: a finite estimate and a non-negative or infinite sigma. *)
Definition healthy (f : kf) : Prop :=
  (exists x, kf_x f = Fin x) /\ (kf_sigma f = Inf \/ exists s, kf_sigma f = Fin s /\ 0 <= s).
(** Order of uncertainties. *)
Definition ext_le (a b : ext) : Prop :=
  match a, b with
  | Fin x, Fin y => x <= y
  | Fin _, Inf => True
  | Inf, Inf => True
  | _, _ => False
  end.

Lemma den_pos s si : 0 < si -> 0 < s * s + si * si.
Proof. intros H. pose proof (Rle_0_sqr s) as H1. unfold Rsqr in H1. nra. Qed.
Lemma gain_bounds s si : 0 < si -> 0 <= s * s / (s * s + si * si) < 1.
Proof.
  intros H. pose proof (den_pos s si H) as D. split.
  - apply Rmult_le_pos; [apply (Rle_0_sqr s)|left; apply Rinv_0_lt_compat; exact D].
  - apply (Rmult_lt_reg_r (s * s + si * si)); [exact D|]. unfold Rdiv. rewrite Rmult_assoc, Rinv_l by lra. nra.
Qed.

(** Every history of allowed operations keeps the filter healthy. *)
Theorem C44_healthy_after_any_history f os : healthy f -> Forall op_ok os -> healthy (krun f os).
Proof.
  intros H0 HF. unfold krun. revert f H0. induction HF as [|o os Ho HF IH]; intros f H0; [exact H0|].
  simpl. apply IH. clear IH HF. destruct H0 as ((x & Hx) & Hs). destruct o as [xp sp|xi si]; simpl in *.
  - destruct xp as [xp| |], sp as [sp| |]; try contradiction. unfold predict. rewrite Hx.
    split; [eexists; reflexivity|]. cbn [kf_sigma]. destruct Hs as [->|(s & -> & Hs)]; [left; reflexivity|right].
    exists (s + sp). split; [reflexivity|lra].
  - destruct si as [si| |]; [|split; eauto|destruct xi; contradiction].
    destruct xi as [xi| |]; try contradiction. unfold measure.
    destruct Hs as [->|(s & -> & Hs)].
    + split; [eexists; reflexivity|]. right. exists si. split; [reflexivity|lra].
    + pose proof (den_pos s si Ho). destruct (Req_EM_T _ _); [lra|]. rewrite Hx.
      split; [eexists; reflexivity|right]. eexists. split; [reflexivity|].
      pose proof (gain_bounds s si Ho). nra.
Qed.

(** A measurement never increases the uncertainty. *)
Theorem C44_measurement_never_increases_sigma f xi si : healthy f -> op_ok (Measure xi si) ->
  ext_le (kf_sigma (measure f xi si)) (kf_sigma f).
Proof.
  intros ((x & Hx) & Hs) Ho. simpl in Ho. unfold measure. destruct si as [si| |].
  - destruct xi as [xi| |]; try contradiction. destruct Hs as [->|(s & -> & Hs)]; [exact I|].
    pose proof (den_pos s si Ho). destruct (Req_EM_T _ _); [lra|]. simpl. pose proof (gain_bounds s si Ho). nra.
  - destruct Hs as [->|(s & -> & Hs)]; simpl; [exact I|lra].
  - destruct xi; contradiction.
Qed.

(** The new estimate lies between the prior estimate and the measurement. *)
Theorem C44_estimate_between x s xi si f : 0 < si -> f = mkKf (Fin x) (Fin s) ->
  exists x', kf_x (measure f (Fin xi) (Fin si)) = Fin x' /\ Rmin x xi <= x' <= Rmax x xi.
Proof.
  intros Hsi ->. unfold measure. cbn [kf_sigma kf_x]. pose proof (den_pos s si Hsi).
  destruct (Req_EM_T _ _); [lra|]. eexists. split; [reflexivity|]. pose proof (gain_bounds s si Hsi).
  set (kt := s * s / _) in *. clearbody kt. unfold Rmin, Rmax. destruct (Rle_dec x xi); split; nra.
Qed.

(** It is the inverse-variance weighted mean. *)
Theorem C44_estimate_is_weighted_mean x s xi si : 0 < s -> 0 < si ->
  kf_x (measure (mkKf (Fin x) (Fin s)) (Fin xi) (Fin si)) =
  Fin ((x / s² + xi / si²) / (1 / s² + 1 / si²)).
Proof.
  intros Hs Hsi. unfold measure. cbn [kf_sigma kf_x]. pose proof (den_pos s si Hsi).
  destruct (Req_EM_T _ _); [lra|]. cbn [kf_x]. f_equal. unfold Rsqr. field. repeat split; nra.
Qed.

(** A measurement of finite noise is informative: the new uncertainty is below both. *)
Theorem C44_measurement_informs x s xi si : 0 < s -> 0 < si ->
  exists s', kf_sigma (measure (mkKf (Fin x) (Fin s)) (Fin xi) (Fin si)) = Fin s' /\ 0 < s' /\ s' < s /\ s' < si.
Proof.
  intros Hs Hsi. unfold measure. cbn [kf_sigma kf_x]. pose proof (den_pos s si Hsi) as D.
  destruct (Req_EM_T _ _); [lra|]. eexists. split; [reflexivity|].
  set (d := s * s + si * si) in *.
  assert (E : (1 - s * s / d) * s = s * (si * si) / d) by (unfold d; field; unfold d in D; lra).
  rewrite E.
  assert (P : forall a b, a < b * d -> a / d < b).
  { intros a b H. apply (Rmult_lt_reg_r d); [exact D|]. unfold Rdiv. rewrite Rmult_assoc, Rinv_l by lra. lra. }
  split; [|split].
  - unfold Rdiv. repeat apply Rmult_lt_0_compat; try lra. apply Rinv_0_lt_compat. exact D.
  - apply P. unfold d. apply Rmult_lt_compat_l; [exact Hs|]. nra.
  - apply P. unfold d. replace (s * (si * si)) with (si * (s * si)) by ring.
    apply Rmult_lt_compat_l; [exact Hsi|]. pose proof (Rle_0_sqr (s - si)) as Q. unfold Rsqr in Q.
    pose proof (Rmult_lt_0_compat s si Hs Hsi). nra.
Qed.

(** Predictions add up: estimate and uncertainty after any number of them. *)
Theorem C44_predictions_accumulate x s l :
  krun (mkKf (Fin x) (Fin s)) (map (fun p => Predict (Fin (fst p)) (Fin (snd p))) l) =
  mkKf (Fin (x + fold_right Rplus 0 (map fst l))) (Fin (s + fold_right Rplus 0 (map snd l))).
Proof.
  unfold krun. revert x s. induction l as [|[a b] l IH]; intros x s; cbn [map fold_left fold_right].
  - f_equal; f_equal; ring.
  - cbn [kstep fst snd]. unfold predict. cbn [kf_x kf_sigma ext_add]. rewrite IH. f_equal; f_equal; ring.
Qed.

(** An unknown prior (infinite sigma) is replaced by the first usable measurement,
    an infinitely uncertain measurement changes nothing. *)
Theorem C44_first_measurement_taken x xi si : measure (mkKf x Inf) (Fin xi) (Fin si) = mkKf (Fin xi) (Fin si).
Proof. reflexivity. Qed.
Theorem C44_infinite_noise_ignored f xi : measure f xi Inf = f.
Proof. reflexivity. Qed.

(** Finding: the new sigma is not the standard deviation of the combined estimate
    (sqrt(1-k) * s) but (1-k) * s, which is smaller: the filter is over-confident. *)
Theorem C44_sigma_is_posterior_deviation_refuted : exists s si, 0 < s /\ 0 < si /\
  exists s', kf_sigma (measure (mkKf (Fin 0) (Fin s)) (Fin 0) (Fin si)) = Fin s' /\
    s'² < 1 / (1 / s² + 1 / si²).
Proof.
  exists 1, 1. split; [lra|]. split; [lra|]. unfold measure. cbn [kf_sigma].
  destruct (Req_EM_T _ _); [lra|]. eexists. split; [reflexivity|]. unfold Rsqr. lra.
Qed.

(** Finding: a zero measurement noise on a zero sigma makes the filter NaN, and
    nothing but [set] recovers it. *)
Theorem C44_zero_noise_poisons_filter_refuted :
  measure (mkKf (Fin 0) (Fin 0)) (Fin 0) (Fin 0) = mkKf NaN NaN /\
  forall os, krun (mkKf NaN NaN) os = mkKf NaN NaN.
Proof.
  split.
  - unfold measure. cbn [kf_sigma]. destruct (Req_EM_T _ _); [reflexivity|lra].
  - induction os as [|o os IH]; [reflexivity|]. simpl.
    replace (kstep (mkKf NaN NaN) o) with (mkKf NaN NaN); [exact IH|].
    destruct o as [a b|a b]; simpl; [reflexivity|]. destruct b; reflexivity.
Qed.

Example C44_ex : krun (mkKf (Fin 0) Inf) [Measure (Fin 2) (Fin 1); Predict (Fin 1) (Fin 0); Measure (Fin 5) (Fin 1)]
  = mkKf (Fin 4) (Fin (1/2)) .
Proof.
  unfold krun. cbn [fold_left kstep]. unfold measure, predict, ext_add. cbn [kf_x kf_sigma].
  destruct (Req_EM_T _ _); [lra|]. f_equal; f_equal; field.
Qed.
Example C44_ex_ok : healthy (mkKf (Fin 0) Inf) /\
  Forall op_ok [Measure (Fin 2) (Fin 1); Predict (Fin 1) (Fin 0); Measure (Fin 5) (Fin 1); Measure NaN Inf].
Proof. split; [split; [eexists; reflexivity|left; reflexivity]|]. repeat (apply Forall_cons; [simpl; first [lra | exact I]|]). apply Forall_nil. Qed.

Print Assumptions C44_healthy_after_any_history.
Print Assumptions C44_measurement_never_increases_sigma.
Print Assumptions C44_measurement_informs.
Print Assumptions C44_predictions_accumulate.
Print Assumptions C44_estimate_between.
Print Assumptions C44_estimate_is_weighted_mean.
Print Assumptions C44_sigma_is_posterior_deviation_refuted.
Print Assumptions C44_zero_noise_poisons_filter_refuted.
