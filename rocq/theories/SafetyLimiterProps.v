(** C33, C34, C35: what the safety limiter publishes. *)
From Coq Require Import ZArith List Bool Reals Lra Lia Psatz.
From Flocq Require Import Core.Core IEEE754.BinarySingleNaN.
From Verif Require Import FloatLib GridMetric GridMetricProps SafetyLimiter.
Import ListNotations.
Local Open Scope R_scope.

(** * Specification *)

(** A published component is harmless with respect to the requested one: it is
    a number, it is not larger in magnitude and it does not point the other
    way. *)
Definition no_larger (out req : f64) : Prop :=
  is_finite out = true /\ Rabs (B2R out) <= Rabs (B2R req) /\ 0 <= B2R out * B2R req.

Definition finite_twist (m : twist) : Prop :=
  is_finite (lin_x m) = true /\ is_finite (lin_y m) = true /\ is_finite (lin_z m) = true /\
  is_finite (ang_x m) = true /\ is_finite (ang_y m) = true /\ is_finite (ang_z m) = true.

Definition twist_no_larger (o m : twist) : Prop :=
  no_larger (lin_x o) (lin_x m) /\ no_larger (lin_y o) (lin_y m) /\ no_larger (lin_z o) (lin_z m) /\
  no_larger (ang_x o) (ang_x m) /\ no_larger (ang_y o) (ang_y m) /\ no_larger (ang_z o) (ang_z m).

(** A non-negative double, possibly infinite, not NaN. *)
Definition nonneg (x : f64) : Prop := is_nan x = false /\ 0 <= key x.

Definition good_config (c : config) : Prop := nonneg (c_max_lin c) /\ nonneg (c_max_ang c).
(** Events as the surrounding code produces them: reconfiguration delivers
    non-negative maxima (SafetyLimiter.cfg), predictions are non-negative
    numbers. *)
Definition good_ev (e : ev) : Prop :=
  match e with
  | EParam c => good_config c
  | EPredict _ r => nonneg r
  | _ => True
  end.

(** The parameters in force after a history. *)
Definition cfg_after (c : config) (es : list ev) : config :=
  fold_left (fun c e => match e with EParam c' => c' | _ => c end) es c.
(** The time of the last "disable" request (0 if there was none). *)
Definition last_disable (es : list ev) : Z :=
  fold_left (fun t e => match e with EDisable now true => now | _ => t end) es 0%Z.
Definition disabled_at (c : config) (es : list ev) (now : Z) : Prop :=
  (now - last_disable es < c_disable_timeout (cfg_after c es))%Z.
(** The watchdog has expired: it fired after the last reset. *)
Definition watchdog_expired (es : list ev) : bool :=
  fold_left (fun b e => match e with EWatchdogTimer => true | EWatchdogReset => false | _ => b end) es false.
(** The stamp of the last usable point cloud, if it has not been found outdated
    by a prediction since: configuration and stamp are threaded through. *)
Definition valid_cloud (c : config) (es : list ev) : option Z :=
  snd (fold_left (fun '(c, v) e =>
    match e with
    | EParam c' => (c', v)
    | ECloud stamp true => (c, Some stamp)
    | EPredict now _ =>
        (c, match v with
            | Some stamp => if (c_timeout c <? now - stamp)%Z then None else Some stamp
            | None => None
            end)
    | _ => (c, v)
    end) es (c, None)).

(** * Arithmetic *)

Section Arith.
  Local Notation rnd := (round radix2 (SpecFloat.fexp 53 1024) ZnearestE).

  Lemma B2R_key (x : f64) : is_finite x = true -> key x = B2R x.
  Proof. apply finite_key. Qed.

  Lemma rnd_0' : rnd 0 = 0.
  Proof. apply round_0. apply valid_rnd_N. Qed.
  Lemma rnd_le x y : x <= y -> rnd x <= rnd y.
  Proof. apply (rnd_mono 53 1024 p64). Qed.
  Lemma rnd_id (x : f64) : rnd (B2R x) = B2R x.
  Proof. apply round_generic; [apply valid_rnd_N|]. apply generic_format_B2R. Qed.
  Lemma rnd_opp x : rnd (- x) = - rnd x.
  Proof. apply round_NE_opp. Qed.
  Lemma rnd_abs x : Rabs (rnd x) = rnd (Rabs x).
  Proof.
    unfold Rabs at 2. destruct (Rcase_abs x).
    - rewrite rnd_opp. apply Rabs_left1. rewrite <- rnd_0'. apply rnd_le. lra.
    - apply Rabs_pos_eq. rewrite <- rnd_0'. apply rnd_le. lra.
  Qed.

  (** Multiplying a finite number by a ratio between 0 and 1. *)
  Lemma fmul_ratio (x r : f64) : is_finite x = true -> is_finite r = true -> 0 <= B2R r <= 1 ->
    is_finite (fmul x r) = true /\ B2R (fmul x r) = rnd (B2R x * B2R r).
  Proof.
    intros Fx Fr Hr. pose proof (Bmult_correct 53 1024 p64 e64 mode_NE x r) as H.
    simpl round_mode in H.
    assert (Hb : Rabs (rnd (B2R x * B2R r)) <= Rabs (B2R x)).
    { rewrite rnd_abs. rewrite <- (rnd_id x) at 2. rewrite rnd_abs. apply rnd_le.
      rewrite Rabs_mult, (Rabs_pos_eq (B2R r)) by lra. pose proof (Rabs_pos (B2R x)). nra. }
    rewrite Rlt_bool_true in H.
    - destruct H as (H1 & H2 & _). rewrite Fx, Fr in H2. split; [exact H2|exact H1].
    - eapply Rle_lt_trans; [exact Hb|]. apply abs_B2R_lt_emax.
  Qed.

  Lemma fmul_no_larger (x r : f64) : is_finite x = true -> is_finite r = true -> 0 <= B2R r <= 1 ->
    no_larger (fmul x r) x.
  Proof.
    intros Fx Fr Hr. destruct (fmul_ratio x r Fx Fr Hr) as [F E]. split; [exact F|]. rewrite E. split.
    - rewrite rnd_abs. rewrite <- (rnd_id x) at 2. rewrite rnd_abs. apply rnd_le.
      rewrite Rabs_mult, (Rabs_pos_eq (B2R r)) by lra. pose proof (Rabs_pos (B2R x)). nra.
    - destruct (Rle_or_lt 0 (B2R x)).
      + assert (0 <= rnd (B2R x * B2R r)) by (rewrite <- rnd_0'; apply rnd_le; nra). nra.
      + assert (rnd (B2R x * B2R r) <= 0) by (rewrite <- rnd_0'; apply rnd_le; nra). nra.
  Qed.

  Lemma fmul_mono (x r r' : f64) : is_finite x = true -> is_finite r = true -> is_finite r' = true ->
    0 <= B2R r' <= B2R r -> B2R r <= 1 -> no_larger (fmul x r') (fmul x r).
  Proof.
    intros Fx Fr Fr' H1 H2.
    destruct (fmul_ratio x r Fx Fr) as [F E]; [lra|].
    destruct (fmul_ratio x r' Fx Fr') as [F' E']; [lra|].
    split; [exact F'|]. rewrite E, E'. split.
    - rewrite !rnd_abs. apply rnd_le. rewrite !Rabs_mult, (Rabs_pos_eq (B2R r)), (Rabs_pos_eq (B2R r')) by lra.
      pose proof (Rabs_pos (B2R x)). nra.
    - destruct (Rle_or_lt 0 (B2R x)).
      + assert (0 <= rnd (B2R x * B2R r)) by (rewrite <- rnd_0'; apply rnd_le; nra).
        assert (0 <= rnd (B2R x * B2R r')) by (rewrite <- rnd_0'; apply rnd_le; nra). nra.
      + assert (rnd (B2R x * B2R r) <= 0) by (rewrite <- rnd_0'; apply rnd_le; nra).
        assert (rnd (B2R x * B2R r') <= 0) by (rewrite <- rnd_0'; apply rnd_le; nra). nra.
  Qed.

  Lemma no_larger_refl (x : f64) : is_finite x = true -> no_larger x x.
  Proof. intros F. split; [exact F|]. split; [lra|]. nra. Qed.
  Lemma no_larger_zero (x : f64) : no_larger f0 x.
  Proof.
    split; [reflexivity|]. change (B2R f0) with 0. rewrite Rabs_R0. pose proof (Rabs_pos (B2R x)). split; lra.
  Qed.
  Lemma no_larger_trans (x y z : f64) : no_larger x y -> no_larger y z -> no_larger x z.
  Proof.
    intros (F1 & A1 & S1) (F2 & A2 & S2). split; [exact F1|]. split; [lra|].
    set (a := B2R x) in *. set (b := B2R y) in *. set (c := B2R z) in *.
    destruct (Req_dec b 0) as [E|E].
    - rewrite E, Rabs_R0 in A1. assert (a = 0); [|nra].
      pose proof (Rabs_pos a). destruct (Req_dec a 0) as [Ea|Ea]; [exact Ea|]. apply Rabs_pos_lt in Ea. lra.
    - clearbody a b c. clear - S1 S2 E. destruct (Rdichotomy _ _ E) as [H|H].
      + assert (a <= 0) by nra. assert (c <= 0) by nra. nra.
      + assert (0 <= a) by nra. assert (0 <= c) by nra. nra.
  Qed.

  Lemma f1_val : B2R f1 = 1 /\ is_finite f1 = true.
  Proof.
    split; [|reflexivity].
    rewrite <- (SF2R_B2SF 53 1024 f1).
    replace (B2SF f1) with (SpecFloat.S754_finite false 4503599627370496 (-52)) by (vm_compute; reflexivity).
    cbn [SF2R SpecFloat.cond_Zopp]. unfold F2R. cbn [Fnum Fexp cond_Zopp bpow radix_val radix2]. simpl Z.pow_pos. lra.
  Qed.

  Lemma lim_thr_val : B2R lim_thr < 1 /\ is_finite lim_thr = true.
  Proof.
    split; [|reflexivity].
    assert (H : Bltb lim_thr f1 = true) by (vm_compute; reflexivity).
    apply ltb_true in H. destruct H as (_ & _ & H). rewrite !finite_key in H by reflexivity.
    rewrite (proj1 f1_val) in H. exact H.
  Qed.

  (** The quotient [max / v] used when [v] exceeds the maximum. *)
  Lemma fdiv_ratio (m v : f64) : nonneg m -> 0 < key m -> flt m v = true ->
    is_finite (fdiv m v) = true /\ 0 <= B2R (fdiv m v) <= 1 /\
    (is_finite v = true -> B2R (fdiv m v) = rnd (B2R m / B2R v)).
  Proof.
    intros [Nm Hm] Hpos Hlt. apply ltb_true in Hlt. destruct Hlt as (_ & Nv & Hlt).
    assert (Fm : is_finite m = true).
    { apply (finite_iff 53 1024 m Nm). pose proof (key_bounds 53 1024 v). pose proof (M_pos 1024). lra. }
    destruct (is_finite v) eqn:Fv.
    - rewrite !finite_key in * by assumption.
      pose proof (Bdiv_correct 53 1024 p64 e64 mode_NE m v) as H. simpl round_mode in H.
      assert (Hq : 0 <= B2R m / B2R v <= 1).
      { split; [apply Rlt_le, Rdiv_lt_0_compat; lra|]. apply Rmult_le_reg_r with (B2R v); [lra|].
        unfold Rdiv. rewrite Rmult_assoc, Rinv_l by lra. lra. }
      assert (Hr : 0 <= rnd (B2R m / B2R v) <= 1).
      { rewrite <- rnd_0' at 1. split; [apply rnd_le; lra|].
        rewrite <- (proj1 f1_val). rewrite <- (rnd_id f1). apply rnd_le. rewrite (proj1 f1_val). lra. }
      rewrite Rlt_bool_true in H.
      + destruct H as (H1 & H2 & _); [lra|]. unfold fdiv. rewrite H1, H2. repeat split; auto; lra.
      + rewrite Rabs_pos_eq by lra. apply Rle_lt_trans with 1; [lra|]. change 1 with (bpow radix2 0).
        apply bpow_lt. reflexivity.
    - destruct v as [|sv| |]; try discriminate. unfold fdiv.
      destruct m as [sm|sm| |sm mm em Hm']; try discriminate; simpl;
        (split; [reflexivity|]; split; [lra|discriminate]).
  Qed.
End Arith.

Section Props.
  Variable hyp : f64 -> f64 -> f64.
  Local Notation limit_max := (limit_max hyp).
  Local Notation step := (step hyp).
  Local Notation run := (run hyp).

  Lemma fmin_pos (x m : f64) : is_finite x = true -> nonneg m -> 0 < B2R x ->
    no_larger (fmin x m) x /\ Rabs (B2R (fmin x m)) <= key m.
  Proof.
    intros Fx [Nm Hm] Hx. unfold fmin. destruct (flt m x) eqn:E.
    - apply ltb_true in E. destruct E as (_ & Nx & E). rewrite (finite_key 53 1024 x Fx) in E.
      assert (Fm : is_finite m = true).
      { apply (finite_iff 53 1024 m Nm). pose proof (finite_lt 53 1024 x Fx). pose proof (M_pos 1024). lra. }
      rewrite (finite_key 53 1024 m Fm) in *. unfold no_larger. rewrite !Rabs_pos_eq by lra.
      repeat split; auto; try lra. nra.
    - apply ltb_false in E. destruct E as [E|[E|E]].
      + unfold nan in E. congruence.
      + destruct x; discriminate.
      + rewrite (finite_key 53 1024 x Fx) in E. split; [apply no_larger_refl; assumption|].
        rewrite Rabs_pos_eq; lra.
  Qed.

  Lemma key_opp (x : f64) : key (Bopp x) = - key x.
  Proof.
    destruct (is_finite x) eqn:F.
    - rewrite !finite_key; [apply B2R_Bopp|assumption|rewrite is_finite_Bopp; assumption].
    - destruct x as [|[]| |]; try discriminate; simpl; lra.
  Qed.

  Lemma fmax_neg (x m : f64) : is_finite x = true -> nonneg m -> B2R x <= 0 ->
    no_larger (fmax x (Bopp m)) x /\ Rabs (B2R (fmax x (Bopp m))) <= key m.
  Proof.
    intros Fx [Nm Hm] Hx. unfold fmax. pose proof (key_opp m) as Ko. destruct (flt x (Bopp m)) eqn:E.
    - apply ltb_true in E. destruct E as (_ & No & E). rewrite (finite_key 53 1024 x Fx) in E.
      assert (Fm : is_finite m = true).
      { apply (finite_iff 53 1024 m Nm). pose proof (finite_lt 53 1024 x Fx). pose proof (M_pos 1024). lra. }
      assert (Fo : is_finite (Bopp m) = true) by (rewrite is_finite_Bopp; exact Fm).
      rewrite (finite_key 53 1024 (Bopp m) Fo) in *. unfold no_larger.
      rewrite !Rabs_left1 by lra. repeat split; auto; try lra. nra.
    - apply ltb_false in E. destruct E as [E|[E|E]].
      + destruct x; discriminate.
      + unfold nan in E. destruct m; simpl in *; congruence.
      + rewrite (finite_key 53 1024 x Fx) in E. split; [apply no_larger_refl; assumption|].
        rewrite Rabs_left1; lra.
  Qed.

  Lemma limit_max_no_larger ml ma m : nonneg ml -> nonneg ma -> finite_twist m ->
    twist_no_larger (limit_max ml ma m) m /\ Rabs (B2R (ang_z (limit_max ml ma m))) <= key ma.
  Proof.
    intros Hml Hma (F1 & F2 & F3 & F4 & F5 & F6). unfold SafetyLimiter.limit_max.
    set (z := if flt f0 (ang_z m) then fmin (ang_z m) ma else fmax (ang_z m) (Bopp ma)).
    assert (Hz : no_larger z (ang_z m) /\ Rabs (B2R z) <= key ma).
    { subst z. destruct (flt f0 (ang_z m)) eqn:E.
      - apply ltb_true in E. destruct E as (_ & _ & E). rewrite !finite_key in E by (auto; reflexivity).
        apply fmin_pos; auto.
      - apply ltb_false in E. destruct E as [E|[E|E]].
        + discriminate.
        + destruct (ang_z m); discriminate.
        + rewrite !finite_key in E by (auto; reflexivity). apply fmax_neg; auto. }
    destruct (fle ml f0) eqn:E.
    - split; [|exact (proj2 Hz)].
      unfold twist_no_larger; cbn [lin_x lin_y lin_z ang_x ang_y ang_z].
      pose proof (no_larger_zero (lin_x m)). pose proof (no_larger_zero (lin_y m)).
      pose proof (no_larger_refl _ F3). pose proof (no_larger_refl _ F4). pose proof (no_larger_refl _ F5).
      tauto.
    - assert (Hpos : 0 < key ml).
      { destruct Hml as [Nm Hm]. destruct (Rle_or_lt (key ml) 0); [|assumption]. exfalso.
        assert (fle ml f0 = true); [|congruence]. apply leb_true. split; [exact Nm|]. split; [reflexivity|].
        change (key f0) with 0. assumption. }
      destruct (flt ml (hyp (lin_x m) (lin_y m))) eqn:L.
      + destruct (fdiv_ratio _ _ Hml Hpos L) as (Fr & Hr & _).
        split; [|exact (proj2 Hz)].
        unfold twist_no_larger; cbn [lin_x lin_y lin_z ang_x ang_y ang_z].
        pose proof (fmul_no_larger _ _ F1 Fr Hr). pose proof (fmul_no_larger _ _ F2 Fr Hr).
        pose proof (no_larger_refl _ F3). pose proof (no_larger_refl _ F4). pose proof (no_larger_refl _ F5).
        tauto.
      + split; [|exact (proj2 Hz)].
        unfold twist_no_larger; cbn [lin_x lin_y lin_z ang_x ang_y ang_z].
        pose proof (no_larger_refl _ F1). pose proof (no_larger_refl _ F2).
        pose proof (no_larger_refl _ F3). pose proof (no_larger_refl _ F4). pose proof (no_larger_refl _ F5).
        tauto.
  Qed.

  (** The limit ratio always is a number between 0 and 1. *)
  Definition ratio (r : f64) : Prop := is_finite r = true /\ 0 <= B2R r <= 1.

  Lemma limit_no_larger r m : ratio r -> finite_twist m -> twist_no_larger (limit r m) m.
  Proof.
    intros (Fr & Hr) (F1 & F2 & F3 & F4 & F5 & F6). unfold limit. destruct (flt r lim_thr).
    - unfold twist_no_larger; cbn [lin_x lin_y lin_z ang_x ang_y ang_z].
      pose proof (fmul_no_larger _ _ F1 Fr Hr). pose proof (fmul_no_larger _ _ F2 Fr Hr).
      pose proof (fmul_no_larger _ _ F6 Fr Hr).
      pose proof (no_larger_refl _ F3). pose proof (no_larger_refl _ F4). pose proof (no_larger_refl _ F5).
      tauto.
    - unfold twist_no_larger. auto 10 using no_larger_refl.
  Qed.

  Lemma twist_no_larger_finite o m : twist_no_larger o m -> finite_twist o.
  Proof. unfold twist_no_larger, finite_twist, no_larger. tauto. Qed.
  Lemma twist_no_larger_trans a b c : twist_no_larger a b -> twist_no_larger b c -> twist_no_larger a c.
  Proof.
    intros (A1&A2&A3&A4&A5&A6) (B1&B2&B3&B4&B5&B6). unfold twist_no_larger.
    pose proof (no_larger_trans _ _ _ A1 B1). pose proof (no_larger_trans _ _ _ A2 B2).
    pose proof (no_larger_trans _ _ _ A3 B3). pose proof (no_larger_trans _ _ _ A4 B4).
    pose proof (no_larger_trans _ _ _ A5 B5). pose proof (no_larger_trans _ _ _ A6 B6). tauto.
  Qed.
  Lemma zero_no_larger m : twist_no_larger zero_twist m.
  Proof. unfold twist_no_larger. cbn [zero_twist lin_x lin_y lin_z ang_x ang_y ang_z]. auto 10 using no_larger_zero. Qed.

  Definition inv (s : st) : Prop := good_config (s_cfg s) /\ ratio (s_r s).

  Lemma ratio_0 : ratio f0.
  Proof. split; [reflexivity|]. change (B2R f0) with 0. lra. Qed.
  Lemma ratio_1 : ratio f1.
  Proof. split; [apply f1_val|]. rewrite (proj1 f1_val). lra. Qed.
  Lemma ratio_min r s : ratio s -> nonneg r -> ratio (if flt r s then r else s).
  Proof.
    intros (Fs & Hs) (Nr & Hr). destruct (flt r s) eqn:E; [|split; assumption].
    apply ltb_true in E. destruct E as (_ & _ & E). rewrite (finite_key 53 1024 s Fs) in E.
    assert (Fr : is_finite r = true).
    { apply (finite_iff 53 1024 r Nr). pose proof (finite_lt 53 1024 s Fs). pose proof (M_pos 1024). lra. }
    split; [exact Fr|]. rewrite (finite_key 53 1024 r Fr) in *. lra.
  Qed.

  Lemma step_inv s e : inv s -> good_ev e -> inv (fst (step s e)).
  Proof.
    intros [Hc Hr] He. unfold SafetyLimiter.step.
    destruct e as [now m|now r|stamp []| | |now []|c']; cbn [fst]; try (split; assumption).
    - destruct (_ <? _)%Z; [split; assumption|]. destruct (_ || _); [split; assumption|].
      cbn [fst]. split; cbn [s_cfg s_r]; [assumption|]. destruct (_ <? _)%Z; [apply ratio_1|assumption].
    - destruct (negb _); [split; assumption|]. destruct (_ <? _)%Z.
      + split; [assumption|apply ratio_0].
      + split; [assumption|]. cbn [fst s_r]. apply ratio_min; assumption.
    - split; [assumption|apply ratio_0].
    - split; [exact He|apply ratio_1].
  Qed.

  Lemma run_inv s es : inv s -> Forall good_ev es -> inv (run s es).
  Proof.
    revert s. induction es as [|e es IH]; intros s Hs H; [exact Hs|].
    apply (IH (fst (step s e))); [|exact (Forall_inv_tail H)]. apply step_inv; [exact Hs|exact (Forall_inv H)].
  Qed.
  Lemma init_inv c es : good_config c -> Forall good_ev es -> inv (run (init c) es).
  Proof. intros Hc H. apply run_inv; [|exact H]. split; [exact Hc|apply ratio_1]. Qed.

  Lemma run_snoc s es e : run s (es ++ [e]) = fst (step (run s es) e).
  Proof. unfold SafetyLimiter.run. rewrite fold_left_app. reflexivity. Qed.

  Ltac step_cases e :=
    unfold SafetyLimiter.step; destruct e as [now m|now r|stamp []| | |now []|c'];
    repeat match goal with |- context [if ?b then _ else _] => destruct b end; try reflexivity.

  Lemma run_cfg c es : s_cfg (run (init c) es) = cfg_after c es.
  Proof.
    induction es as [|e es IH] using rev_ind; [reflexivity|].
    rewrite run_snoc. unfold cfg_after in *. rewrite fold_left_app. cbn [fold_left]. rewrite <- IH. step_cases e.
  Qed.
  Lemma run_disable c es : s_last_disable (run (init c) es) = last_disable es.
  Proof.
    induction es as [|e es IH] using rev_ind; [reflexivity|].
    rewrite run_snoc. unfold last_disable in *. rewrite fold_left_app. cbn [fold_left]. rewrite <- IH. step_cases e.
  Qed.
  Lemma run_watchdog c es : s_wd_stop (run (init c) es) = watchdog_expired es.
  Proof.
    induction es as [|e es IH] using rev_ind; [reflexivity|].
    rewrite run_snoc. unfold watchdog_expired in *. rewrite fold_left_app. cbn [fold_left]. rewrite <- IH. step_cases e.
  Qed.
  Lemma run_cloud c es : valid_cloud c es =
    if s_has_cloud (run (init c) es) then Some (s_stamp (run (init c) es)) else None.
  Proof.
    unfold valid_cloud.
    match goal with |- snd (fold_left ?f es _) = _ =>
      enough (G : fold_left f es (c, None) = (s_cfg (run (init c) es),
        if s_has_cloud (run (init c) es) then Some (s_stamp (run (init c) es)) else None))
        by (rewrite G; reflexivity)
    end.
    induction es as [|e es IH] using rev_ind; [reflexivity|].
    rewrite fold_left_app, run_snoc. cbn [fold_left]. rewrite IH. set (s := run (init c) es).
    unfold SafetyLimiter.step. destruct e as [now m|now r|stamp []| | |now []|c'];
      try reflexivity.
    - destruct (_ <? _)%Z; [reflexivity|]. destruct (_ || _); reflexivity.
    - destruct (s_has_cloud s) eqn:Hc; cbn [negb]; [|cbn [fst]; rewrite Hc; reflexivity].
      destruct (_ <? _)%Z; cbn [fst s_cfg s_has_cloud s_stamp]; [reflexivity|]. reflexivity.
  Qed.

  (** * C33 *)

  (** Whatever happened before, the command published for a (finite) request
      has every component no larger and not reversed, and the angular speed is
      within the configured maximum, exactly. *)
  Theorem C33_no_component_is_amplified c es now m o :
    good_config c -> Forall good_ev es -> finite_twist m ->
    In o (published hyp c es (ETwist now m)) ->
    twist_no_larger o m /\ Rabs (B2R (ang_z o)) <= key (c_max_ang (cfg_after c es)).
  Proof.
    intros Hc Hes Fm Ho. rewrite <- run_cfg.
    destruct (init_inv c es Hc Hes) as [[Hl Ha] Hr]. unfold published in Ho.
    set (s := run (init c) es) in *. unfold SafetyLimiter.step in Ho.
    destruct (_ <? _)%Z.
    - destruct Ho as [<-|[]]. apply limit_max_no_larger; assumption.
    - destruct (_ || _).
      + destruct Ho as [<-|[]]. split; [apply zero_no_larger|].
        change (B2R (ang_z zero_twist)) with 0. rewrite Rabs_R0. apply Ha.
      + destruct Ho as [<-|[]].
        pose proof (limit_no_larger _ m Hr Fm) as H1.
        destruct (limit_max_no_larger _ _ _ Hl Ha (twist_no_larger_finite _ _ H1)) as [H2 H3].
        split; [|exact H3]. eapply twist_no_larger_trans; eassumption.
  Qed.

  (** With an accurate [hypot] (error at most one unit in the last place) the
      linear speed is within the configured maximum up to rounding (a relative
      error of 2^-50).  [hypot_reference] below is such a function. *)
  Definition hypot_accurate : Prop := forall x y : f64,
    is_finite x = true -> is_finite y = true ->
    Rabs (B2R x) <= bpow radix2 500 -> Rabs (B2R y) <= bpow radix2 500 ->
    is_finite (hyp x y) = true /\
    Rabs (B2R (hyp x y) - sqrt (B2R x * B2R x + B2R y * B2R y)) <=
      bpow radix2 (-52) * sqrt (B2R x * B2R x + B2R y * B2R y) + bpow radix2 (-1074).
  Definition speed (m : twist) : R := sqrt (B2R (lin_x m) * B2R (lin_x m) + B2R (lin_y m) * B2R (lin_y m)).

  Lemma sqrt_affine x y x' y' k h : 0 <= k -> 0 <= h -> Rabs x' <= Rabs x * k + h -> Rabs y' <= Rabs y * k + h ->
    sqrt (x' * x' + y' * y') <= sqrt (x * x + y * y) * k + 2 * h.
  Proof.
    intros Hk Hh Hx Hy. set (S := sqrt (x * x + y * y)).
    assert (HS : 0 <= S) by apply sqrt_pos.
    assert (HS2 : S * S = x * x + y * y) by (apply sqrt_sqrt; nra).
    assert (Ax : Rabs x <= S). { rewrite <- sqrt_Rsqr_abs. apply sqrt_le_1_alt. unfold Rsqr. nra. }
    assert (Ay : Rabs y <= S). { rewrite <- sqrt_Rsqr_abs. apply sqrt_le_1_alt. unfold Rsqr. nra. }
    assert (Sx : Rabs x * Rabs x = x * x) by (rewrite <- Rabs_mult; apply Rabs_pos_eq; nra).
    assert (Sy : Rabs y * Rabs y = y * y) by (rewrite <- Rabs_mult; apply Rabs_pos_eq; nra).
    assert (Sx' : Rabs x' * Rabs x' = x' * x') by (rewrite <- Rabs_mult; apply Rabs_pos_eq; nra).
    assert (Sy' : Rabs y' * Rabs y' = y' * y') by (rewrite <- Rabs_mult; apply Rabs_pos_eq; nra).
    pose proof (Rabs_pos x) as P1. pose proof (Rabs_pos y) as P2. pose proof (Rabs_pos x') as P3. pose proof (Rabs_pos y') as P4.
    set (a := Rabs x) in *. set (b := Rabs y) in *. set (a' := Rabs x') in *. set (b' := Rabs y') in *.
    assert (Hsk : 0 <= S * k + 2 * h) by nra.
    apply Rsqr_incr_0_var; [|exact Hsk]. unfold Rsqr. rewrite sqrt_sqrt by nra.
    rewrite <- Sx', <- Sy'.
    assert (a' * a' <= (a * k + h) * (a * k + h)) by (apply Rmult_le_compat; assumption).
    assert (b' * b' <= (b * k + h) * (b * k + h)) by (apply Rmult_le_compat; assumption).
    assert (a * k * h <= S * k * h) by (apply Rmult_le_compat_r; [lra|]; apply Rmult_le_compat_r; lra).
    assert (b * k * h <= S * k * h) by (apply Rmult_le_compat_r; [lra|]; apply Rmult_le_compat_r; lra).
    assert ((S * k) * (S * k) = (a * k) * (a * k) + (b * k) * (b * k)).
    { transitivity (S * S * (k * k)); [ring|]. rewrite HS2, <- Sx, <- Sy. ring. }
    nra.
  Qed.

  Lemma small_consts :
    bpow radix2 (-52) = / 4503599627370496 /\
    bpow radix2 501 * bpow radix2 (-1075) <= bpow radix2 (-500) * / 18014398509481984 /\
    bpow radix2 (-1075) <= bpow radix2 (-500) * / 18014398509481984 /\ 0 < bpow radix2 (-1075) /\
    bpow radix2 (-1074) = 2 * bpow radix2 (-1075).
  Proof.
    assert (E : / 18014398509481984 = bpow radix2 (-54)) by (simpl; lra).
    split; [simpl; lra|]. rewrite E, <- !bpow_plus.
    split; [apply bpow_le; lia|]. split; [apply bpow_le; lia|]. split; [apply bpow_gt_0|].
    change 2 with (bpow radix2 1). rewrite <- bpow_plus. reflexivity.
  Qed.

  Lemma limit_max_speed ml ma m : hypot_accurate -> nonneg ml ->
    ml = f0 \/ bpow radix2 (-500) <= key ml -> is_finite (lin_x m) = true -> is_finite (lin_y m) = true ->
    Rabs (B2R (lin_x m)) <= bpow radix2 500 -> Rabs (B2R (lin_y m)) <= bpow radix2 500 ->
    speed (limit_max ml ma m) <= key ml * (1 + / 1125899906842624).
  Proof.
    intros HH Hml Hbig F1 F2 B1 B2. unfold speed, SafetyLimiter.limit_max.
    destruct (small_consts) as (C1 & C2 & C3 & C4 & C5).
    destruct (fle ml f0) eqn:E.
    - cbn [lin_x lin_y]. change (B2R f0) with 0. replace (0 * 0 + 0 * 0) with 0 by ring. rewrite sqrt_0.
      destruct Hml as [_ Hml]. nra.
    - destruct Hbig as [->|Hbig]; [discriminate E|].
      pose proof (bpow_gt_0 radix2 (-500)) as P500.
      assert (Hpos : 0 < key ml) by lra.
      destruct (HH _ _ F1 F2 B1 B2) as [Fv Hv]. rewrite C1, C5 in Hv.
      set (x := B2R (lin_x m)) in *. set (y := B2R (lin_y m)) in *.
      set (S := sqrt (x * x + y * y)) in *.
      assert (HS : 0 <= S) by apply sqrt_pos.
      apply Rabs_le_inv in Hv.
      destruct (flt ml (hyp (lin_x m) (lin_y m))) eqn:L.
      + destruct (fdiv_ratio _ _ Hml Hpos L) as (Fr & Hr & Er). specialize (Er Fv).
        apply ltb_true in L. destruct L as (_ & _ & L). rewrite (finite_key 53 1024 _ Fv) in L.
        assert (Fm : is_finite ml = true).
        { destruct Hml as [Nm _]. apply (finite_iff 53 1024 ml Nm). pose proof (finite_lt 53 1024 _ Fv).
          pose proof (M_pos 1024). lra. }
        rewrite (finite_key 53 1024 _ Fm) in *.
        set (v := B2R (hyp (lin_x m) (lin_y m))) in *. set (q := B2R (fdiv ml (hyp (lin_x m) (lin_y m)))) in *.
        set (M := B2R ml) in *. cbn [lin_x lin_y].
        destruct (fmul_ratio _ _ F1 Fr Hr) as [_ E1]. destruct (fmul_ratio _ _ F2 Fr Hr) as [_ E2].
        rewrite E1, E2. fold x y q.
        change (SpecFloat.fexp 53 1024) with (FLT_exp (-1074) 53) in *.
        pose proof rnd64_near as N. unfold near_id in N. fold rnd64 in *.
        set (h := bpow radix2 (-1075)) in *.
        assert (Hq : q <= (M / v) * (1 + / 9007199254740992) + h).
        { specialize (N (M / v)). rewrite <- Er in N. apply Rabs_le_inv in N.
          assert (0 <= M / v) by (apply Rlt_le, Rdiv_lt_0_compat; lra). rewrite (Rabs_pos_eq (M / v)) in N by assumption. lra. }
        assert (Bnd : forall z, Rabs (rnd64 (z * q)) <= Rabs z * (q * (1 + / 9007199254740992)) + h).
        { intros z. specialize (N (z * q)). rewrite Rabs_mult, (Rabs_pos_eq q) in N by lra.
          pose proof (Rabs_triang (rnd64 (z * q) - z * q) (z * q)) as T.
          replace (rnd64 (z * q) - z * q + z * q) with (rnd64 (z * q)) in T by ring.
          rewrite (Rabs_mult z q), (Rabs_pos_eq q) in T by lra. lra. }
        eapply Rle_trans; [apply (sqrt_affine x y _ _ (q * (1 + / 9007199254740992)) h); [nra|lra|apply Bnd|apply Bnd]|].
        fold S.
        assert (HSle : S <= bpow radix2 501).
        { unfold S. replace (bpow radix2 501) with (sqrt (bpow radix2 501 * bpow radix2 501))
            by (apply sqrt_square; apply bpow_ge_0).
          apply sqrt_le_1_alt. change (bpow radix2 501) with (bpow radix2 (1 + 500)). rewrite bpow_plus.
          change (bpow radix2 1) with 2. set (w := bpow radix2 500) in *.
          assert (x * x <= w * w). { rewrite <- (Rabs_pos_eq (x * x)) by nra. rewrite Rabs_mult.
            apply Rmult_le_compat; try apply Rabs_pos; assumption. }
          assert (y * y <= w * w). { rewrite <- (Rabs_pos_eq (y * y)) by nra. rewrite Rabs_mult.
            apply Rmult_le_compat; try apply Rabs_pos; assumption. }
          nra. }
        assert (Hvp : 0 < v) by lra.
        assert (HSv : S * (M / v) <= M * (1 + / 2251799813685248)).
        { apply Rmult_le_reg_r with v; [lra|]. replace (S * (M / v) * v) with (S * M) by (field; lra).
          assert (S <= v * (1 + / 2251799813685248)) by lra. nra. }
        assert (HSh : S * h <= M * / 18014398509481984).
        { apply Rle_trans with (bpow radix2 501 * h); [apply Rmult_le_compat_r; lra|].
          eapply Rle_trans; [exact C2|]. apply Rmult_le_compat_r; lra. }
        assert (Hh : h <= M * / 18014398509481984).
        { eapply Rle_trans; [exact C3|]. apply Rmult_le_compat_r; lra. }
        assert (HSq : S * q <= S * (M / v) * (1 + / 9007199254740992) + S * h).
        { replace (S * (M / v) * (1 + / 9007199254740992) + S * h) with (S * ((M / v) * (1 + / 9007199254740992) + h)) by ring.
          apply Rmult_le_compat_l; assumption. }
        replace (S * (q * (1 + / 9007199254740992))) with (S * q * (1 + / 9007199254740992)) by ring.
        assert (0 <= S * q) by nra. lra.
      + cbn [lin_x lin_y]. fold x y S.
        apply ltb_false in L. destruct L as [L|[L|L]].
        * destruct Hml as [Nm _]. unfold nan in L. congruence.
        * destruct (hyp (lin_x m) (lin_y m)); discriminate.
        * rewrite (finite_key 53 1024 _ Fv) in L.
          assert (bpow radix2 (-500) * / 18014398509481984 <= key ml * / 18014398509481984) by (apply Rmult_le_compat_r; lra). lra.
  Qed.

  Lemma no_larger_abs x y B : no_larger x y -> Rabs (B2R y) <= B -> Rabs (B2R x) <= B.
  Proof. intros (_ & H & _). lra. Qed.

  Theorem C33_linear_speed_within_maximum c es now m o :
    hypot_accurate -> good_config c -> Forall good_ev es -> finite_twist m ->
    (c_max_lin (cfg_after c es) = f0 \/ bpow radix2 (-500) <= key (c_max_lin (cfg_after c es))) ->
    Rabs (B2R (lin_x m)) <= bpow radix2 500 -> Rabs (B2R (lin_y m)) <= bpow radix2 500 ->
    In o (published hyp c es (ETwist now m)) ->
    sqrt (B2R (lin_x o) * B2R (lin_x o) + B2R (lin_y o) * B2R (lin_y o)) <=
      key (c_max_lin (cfg_after c es)) * (1 + / 1125899906842624).
  Proof.
    intros HH Hc Hes Fm Hbig B1 B2 Ho. change (speed o <= key (c_max_lin (cfg_after c es)) * (1 + / 1125899906842624)).
    rewrite <- run_cfg in *.
    destruct (init_inv c es Hc Hes) as [[Hl Ha] Hr]. unfold published in Ho.
    set (s := run (init c) es) in *. unfold SafetyLimiter.step in Ho.
    destruct (_ <? _)%Z.
    - destruct Ho as [<-|[]]. apply limit_max_speed; auto; apply Fm.
    - destruct (_ || _).
      + destruct Ho as [<-|[]]. unfold speed. change (B2R (lin_x zero_twist)) with 0. change (B2R (lin_y zero_twist)) with 0.
        replace (0 * 0 + 0 * 0) with 0 by ring. rewrite sqrt_0. destruct Hl as [_ Hl]. nra.
      + destruct Ho as [<-|[]].
        pose proof (limit_no_larger _ m Hr Fm) as (H1 & H2 & _).
        apply limit_max_speed; auto; try apply H1; try apply H2; eapply no_larger_abs; eassumption.
  Qed.

  (** * C34 *)

  (** Unless safety was disabled within the disable timeout, the answer to
      every request is the zero command while there is no valid point cloud or
      the watchdog has expired. *)
  Theorem C34_stops_without_cloud_or_watchdog c es now m :
    ~ disabled_at c es now ->
    valid_cloud c es = None \/ watchdog_expired es = true ->
    published hyp c es (ETwist now m) = [zero_twist].
  Proof.
    unfold disabled_at. rewrite <- (run_disable c), <- run_cfg, <- (run_watchdog c), run_cloud. intros Hd H.
    unfold published, SafetyLimiter.step. destruct (_ <? _)%Z eqn:E.
    - apply Z.ltb_lt in E. contradiction.
    - destruct (s_has_cloud (run (init c) es)), (s_wd_stop (run (init c) es)); try reflexivity.
      destruct H; discriminate.
  Qed.

  (** The stop does not wait for a request: the zero command is published at
      the moment the outdated cloud or the expired watchdog is noticed. *)
  Theorem C34_stop_is_published_at_once c es now r stamp :
    valid_cloud c es = Some stamp -> (c_timeout (cfg_after c es) < now - stamp)%Z ->
    published hyp c es (EPredict now r) = [zero_twist] /\
    valid_cloud c (es ++ [EPredict now r]) = None /\
    published hyp c es EWatchdogTimer = [zero_twist].
  Proof.
    intros H1 H2. split; [|split]; [| |reflexivity].
    - rewrite run_cloud in H1. rewrite <- run_cfg in H2. unfold published, SafetyLimiter.step.
      destruct (s_has_cloud (run (init c) es)); [|discriminate]. injection H1 as <-. cbn [negb].
      apply Z.ltb_lt in H2. rewrite H2. reflexivity.
    - rewrite run_cloud. rewrite run_cloud in H1. rewrite <- run_cfg in H2. rewrite run_snoc. unfold SafetyLimiter.step.
      destruct (s_has_cloud (run (init c) es)); [|discriminate]. injection H1 as <-. cbn [negb].
      apply Z.ltb_lt in H2. rewrite H2. reflexivity.
  Qed.

  Lemma no_disable_last es : (forall now, ~ In (EDisable now true) es) -> last_disable es = 0%Z.
  Proof.
    induction es as [|e es IH] using rev_ind; intros H; [reflexivity|].
    unfold last_disable in *. rewrite fold_left_app. cbn [fold_left]. rewrite IH.
    - destruct e as [now m|now r|stamp []| | |now []|c']; try reflexivity.
      exfalso. apply (H now). apply in_or_app. right. left. reflexivity.
    - intros now Hin. apply (H now). apply in_or_app. left. exact Hin.
  Qed.

  (** Without any disable request nothing but zero is published, from the time
      [disable_timeout] on. *)
  Theorem C34_never_disabled c es now m :
    (forall t, ~ In (EDisable t true) es) -> (c_disable_timeout (cfg_after c es) <= now)%Z ->
    valid_cloud c es = None \/ watchdog_expired es = true ->
    published hyp c es (ETwist now m) = [zero_twist].
  Proof.
    intros H1 H2 H3. apply C34_stops_without_cloud_or_watchdog; [|exact H3].
    unfold disabled_at. rewrite no_disable_last by exact H1. lia.
  Qed.

  (** * C35 *)

  (** A request scaled by a ratio. *)
  Definition scaled (r : f64) (m : twist) : twist :=
    Twist (fmul (lin_x m) r) (fmul (lin_y m) r) (lin_z m) (ang_x m) (ang_y m) (fmul (ang_z m) r).

  Definition held (t hold : Z) (r : f64) (e : ev) : Prop :=
    match e with
    | ETwist now _ => (now <= t + hold)%Z
    | EPredict now r' => (t <= now)%Z /\ nonneg r'
    | EParam _ => False
    | _ => True
    end.

  Lemma limit_mono r r' m : ratio r -> ratio r' -> B2R r' <= B2R r -> flt r lim_thr = true -> finite_twist m ->
    twist_no_larger (limit r' m) (scaled r m).
  Proof.
    intros (Fr & Hr) (Fr' & Hr') Hle Hlt (F1 & F2 & F3 & F4 & F5 & F6). unfold limit.
    assert (L : flt r' lim_thr = true).
    { apply ltb_true in Hlt. apply ltb_true. rewrite !finite_key in *; auto; try reflexivity.
      destruct Hlt as (_ & N & Hlt). split; [destruct r'; try discriminate; reflexivity|]. split; [exact N|]. lra. }
    rewrite L. unfold twist_no_larger, scaled; cbn [lin_x lin_y lin_z ang_x ang_y ang_z].
    pose proof (fmul_mono (lin_x m) r r' F1 Fr Fr' ltac:(lra) ltac:(lra)).
    pose proof (fmul_mono (lin_y m) r r' F2 Fr Fr' ltac:(lra) ltac:(lra)).
    pose proof (fmul_mono (ang_z m) r r' F6 Fr Fr' ltac:(lra) ltac:(lra)).
    pose proof (no_larger_refl _ F3). pose proof (no_larger_refl _ F4). pose proof (no_larger_refl _ F5).
    tauto.
  Qed.

  Definition hinv (c : config) (t : Z) (r : f64) (s : st) : Prop :=
    s_cfg s = c /\ ratio (s_r s) /\ B2R (s_r s) <= B2R r /\ (t + c_hold c <= s_hold_off s)%Z.

  Lemma hinv_step c t r s e : ratio r -> hinv c t r s -> held t (c_hold c) r e ->
    hinv c t r (fst (step s e)).
  Proof.
    intros Hr (I1 & I2 & I3 & I4) He. unfold SafetyLimiter.step.
    destruct e as [now m|now r0|stamp []| | |now []|c']; cbn [fst held] in *; try (unfold hinv; tauto).
    - destruct (_ <? _)%Z; [unfold hinv; tauto|]. destruct (_ || _); [unfold hinv; tauto|].
      cbn [fst]. unfold hinv. cbn [s_cfg s_r s_hold_off].
      destruct (s_hold_off s <? now)%Z eqn:E; [apply Z.ltb_lt in E; lia|tauto].
    - destruct (negb _); [unfold hinv; tauto|]. destruct (_ <? _)%Z.
      + unfold hinv; cbn [fst s_cfg s_r s_hold_off]. pose proof ratio_0. change (B2R f0) with 0.
        destruct Hr. split; [auto|]. split; [assumption|]. split; [lra|lia].
      + unfold hinv; cbn [fst s_cfg s_r s_hold_off]. destruct He as [He1 He2].
        pose proof (ratio_min r0 (s_r s) I2 He2) as Rm. split; [auto|]. split; [exact Rm|]. split.
        * destruct (flt r0 (s_r s)) eqn:L; [|exact I3]. apply ltb_true in L. destruct L as (_ & _ & L).
          rewrite !finite_key in L; [lra|apply I2|apply Rm].
        * rewrite I1. destruct (flt r0 f1); lia.
    - unfold hinv; cbn [fst s_cfg s_r s_hold_off]. pose proof ratio_0. change (B2R f0) with 0.
      destruct Hr. split; [auto|]. split; [assumption|]. split; [lra|lia].
  Qed.

  (** After a prediction at [t] limits the speed to the ratio [r], every command
      published until the hold time has elapsed is no larger than the request
      scaled by [r], unless safety is disabled or the parameters are changed. *)
  Theorem C35_limit_is_held c es t r stamp es' now m o :
    let c' := cfg_after c es in
    good_config c -> Forall good_ev es -> nonneg r ->
    valid_cloud c es = Some stamp -> (t - stamp <= c_timeout c')%Z ->
    flt r lim_thr = true ->
    Forall (held t (c_hold c') r) es' -> (now <= t + c_hold c')%Z ->
    let h := es ++ EPredict t r :: es' in
    ~ disabled_at c h now -> finite_twist m ->
    In o (published hyp c h (ETwist now m)) ->
    twist_no_larger o (scaled r m).
  Proof.
    intros c' Hc Hes Hr Hv Ht Hlim Hes' Hnow h Hdis Fm Ho.
    assert (I0 : inv (run (init c) es)) by (apply init_inv; assumption).
    assert (Ec : s_cfg (run (init c) es) = c') by apply run_cfg.
    assert (Rr : ratio r).
    { assert (E : (if flt r f1 then r else f1) = r).
      { replace (flt r f1) with true; [reflexivity|]. symmetry. apply ltb_true in Hlim. apply ltb_true.
        destruct Hlim as (N & _ & L). split; [exact N|]. split; [reflexivity|].
        rewrite (finite_key 53 1024 lim_thr) in L by reflexivity. rewrite (finite_key 53 1024 f1) by reflexivity.
        rewrite (proj1 f1_val). pose proof (proj1 lim_thr_val). lra. }
      rewrite <- E. apply ratio_min; [apply ratio_1|exact Hr]. }
    assert (L1 : flt r f1 = true).
    { apply ltb_true in Hlim. apply ltb_true. destruct Hlim as (N & _ & L). split; [exact N|]. split; [reflexivity|].
      rewrite (finite_key 53 1024 lim_thr) in L by reflexivity. rewrite (finite_key 53 1024 f1) by reflexivity.
      rewrite (proj1 f1_val). pose proof (proj1 lim_thr_val). lra. }
    assert (H1 : hinv c' t r (fst (step (run (init c) es) (EPredict t r)))).
    { rewrite run_cloud in Hv. unfold SafetyLimiter.step.
      destruct (s_has_cloud (run (init c) es)); [|discriminate]. injection Hv as Ev. cbn [negb]. rewrite Ec, Ev.
      replace (c_timeout c' <? t - stamp)%Z with false by (symmetry; apply Z.ltb_ge; lia).
      unfold hinv; cbn [fst s_cfg s_r s_hold_off]. rewrite L1.
      destruct I0 as [_ I0]. pose proof (ratio_min r _ I0 Hr) as Rm.
      split; [reflexivity|]. split; [exact Rm|]. split; [|lia].
      destruct (flt r (s_r (run (init c) es))) eqn:L; [lra|].
      apply ltb_false in L. destruct L as [L|[L|L]].
      - destruct Hr as [Hr _]. unfold nan in L. congruence.
      - destruct I0 as [I0 _]. destruct (s_r (run (init c) es)); discriminate.
      - rewrite !finite_key in L; [lra|apply Rr|apply I0]. }
    assert (H2 : hinv c' t r (run (init c) h)).
    { unfold h, SafetyLimiter.run. rewrite fold_left_app. cbn [fold_left]. fold (run (init c) es).
      generalize dependent (fst (step (run (init c) es) (EPredict t r))). clear - Hes' Rr.
      induction es' as [|e es' IH]; intros s Hs; [exact Hs|]. cbn [fold_left].
      apply IH; [exact (Forall_inv_tail Hes')|]. apply hinv_step; auto. exact (Forall_inv Hes'). }
    unfold disabled_at in Hdis. rewrite <- (run_disable c), <- run_cfg in Hdis. unfold published in Ho.
    set (s := run (init c) h) in *. unfold SafetyLimiter.step in Ho.
    destruct (_ <? _)%Z eqn:D; [apply Z.ltb_lt in D; contradiction|].
    destruct (_ || _).
    - destruct Ho as [<-|[]]. apply zero_no_larger.
    - destruct Ho as [<-|[]]. destruct H2 as (J1 & J2 & J3 & _).
      pose proof (limit_mono r (s_r s) m Rr J2 J3 Hlim Fm) as K.
      assert (Gc : good_config (s_cfg s)).
      { rewrite J1, <- Ec. apply I0. }
      destruct (limit_max_no_larger _ _ _ (proj1 Gc) (proj2 Gc) (twist_no_larger_finite _ _ K)) as [K2 _].
      eapply twist_no_larger_trans; eassumption.
  Qed.
End Props.

(** * The hypotheses are met *)

(** A reference [hypot] satisfying [hypot_accurate]: scaled integer square root,
    then one rounding. *)
Definition parts (x : f64) : Z * Z :=
  match x with B754_finite s m e _ => (cond_Zopp s (Zpos m), e) | _ => (0, 0)%Z end.
Definition hypot_reference (x y : f64) : f64 :=
  let '(mx, ex) := parts x in
  let '(my, ey) := parts y in
  let e := Z.min ex ey in
  let a := (mx * 2 ^ (ex - e))%Z in
  let b := (my * 2 ^ (ey - e))%Z in
  f64_of (Z.sqrt ((a * a + b * b) * 2 ^ 120)) (e - 60).

Lemma parts_val x : is_finite x = true -> B2R x = IZR (fst (parts x)) * bpow radix2 (snd (parts x)).
Proof. destruct x; intros; try discriminate; simpl; [lra|]. reflexivity. Qed.

Lemma hypot_reference_accurate : hypot_accurate hypot_reference.
Proof.
  intros x y Fx Fy Bx By. pose proof (parts_val x Fx) as Ex. pose proof (parts_val y Fy) as Ey.
  unfold hypot_reference. destruct (parts x) as [mx ex]. destruct (parts y) as [my ey]. cbn [fst snd] in *.
  set (e := Z.min ex ey). set (a := (mx * 2 ^ (ex - e))%Z). set (b := (my * 2 ^ (ey - e))%Z).
  assert (Ea : B2R x = IZR a * bpow radix2 e).
  { rewrite Ex. unfold a. rewrite mult_IZR. change 2%Z with (radix_val radix2). rewrite IZR_Zpower by lia.
    rewrite Rmult_assoc, <- bpow_plus. f_equal. f_equal. lia. }
  assert (Eb : B2R y = IZR b * bpow radix2 e).
  { rewrite Ey. unfold b. rewrite mult_IZR. change 2%Z with (radix_val radix2). rewrite IZR_Zpower by lia.
    rewrite Rmult_assoc, <- bpow_plus. f_equal. f_equal. lia. }
  set (S := sqrt (B2R x * B2R x + B2R y * B2R y)).
  set (n := (a * a + b * b)%Z). assert (Hn : (0 <= n)%Z) by (unfold n; nia).
  assert (ES : S = sqrt (IZR n) * bpow radix2 e).
  { unfold S. rewrite Ea, Eb.
    replace (IZR a * bpow radix2 e * (IZR a * bpow radix2 e) + IZR b * bpow radix2 e * (IZR b * bpow radix2 e))
      with (IZR n * (bpow radix2 e * bpow radix2 e)) by (unfold n; rewrite plus_IZR, !mult_IZR; ring).
    rewrite sqrt_mult_alt by (apply IZR_le; exact Hn). rewrite sqrt_square by apply bpow_ge_0. reflexivity. }
  set (s := Z.sqrt (n * 2 ^ 120)).
  assert (Hs : (s * s <= n * 2 ^ 120 < (s + 1) * (s + 1))%Z).
  { unfold s. pose proof (Z.sqrt_spec (n * 2 ^ 120) (Z.mul_nonneg_nonneg n (2 ^ 120) Hn ltac:(discriminate))) as Q. exact Q. }
  assert (Hs0 : (0 <= s)%Z) by apply Z.sqrt_nonneg.
  assert (Hsr : IZR s <= sqrt (IZR n) * bpow radix2 60 < IZR s + 1).
  { assert (E : sqrt (IZR n) * bpow radix2 60 = sqrt (IZR (n * 2 ^ 120))).
    { rewrite mult_IZR. rewrite sqrt_mult_alt by (apply IZR_le; exact Hn). f_equal.
      symmetry. apply sqrt_lem_1; [apply IZR_le; lia|apply bpow_ge_0|]. rewrite <- bpow_plus. exact (eq_sym (IZR_Zpower radix2 120 ltac:(lia))). }
    rewrite E. split.
    - rewrite <- (sqrt_square (IZR s)) by (apply IZR_le; exact Hs0). apply sqrt_le_1_alt. rewrite <- mult_IZR. apply IZR_le. lia.
    - rewrite <- (sqrt_square (IZR s + 1)) by (apply IZR_le in Hs0; lra). apply sqrt_lt_1_alt.
      split; [apply IZR_le, Z.mul_nonneg_nonneg; [exact Hn|discriminate]|]. rewrite <- plus_IZR, <- mult_IZR. apply IZR_lt. lia. }
  assert (Happrox : IZR s * bpow radix2 (e - 60) <= S <= IZR s * bpow radix2 (e - 60) * (1 + / 288230376151711744)).
  { assert (EE : bpow radix2 e = bpow radix2 60 * bpow radix2 (e - 60)) by (rewrite <- bpow_plus; f_equal; lia).
    rewrite ES, EE, <- !Rmult_assoc. pose proof (bpow_gt_0 radix2 (e - 60)) as Hp. split.
    - apply Rmult_le_compat_r; lra.
    - replace (IZR s * bpow radix2 (e - 60) * (1 + / 288230376151711744))
        with (IZR s * (1 + / 288230376151711744) * bpow radix2 (e - 60)) by ring.
      apply Rmult_le_compat_r; [lra|].
      destruct (Z.eq_dec n 0) as [En|En].
      + rewrite En in *. rewrite sqrt_0. apply IZR_le in Hs0. lra.
      + assert (1 <= sqrt (IZR n)).
        { rewrite <- sqrt_1 at 1. apply sqrt_le_1_alt. apply IZR_le. lia. }
        assert (E60 : bpow radix2 60 = 1152921504606846976) by (simpl; lra).
        rewrite E60 in *. lra. }
  assert (HSb : S <= bpow radix2 501).
  { unfold S. replace (bpow radix2 501) with (sqrt (bpow radix2 501 * bpow radix2 501))
      by (apply sqrt_square; apply bpow_ge_0).
    apply sqrt_le_1_alt. change (bpow radix2 501) with (bpow radix2 (1 + 500)). rewrite bpow_plus.
    change (bpow radix2 1) with 2. set (w := bpow radix2 500) in *.
    set (u := B2R x) in *. set (v := B2R y) in *.
    assert (u * u <= w * w). { rewrite <- (Rabs_pos_eq (u * u)) by nra. rewrite Rabs_mult.
      apply Rmult_le_compat; try apply Rabs_pos; assumption. }
    assert (v * v <= w * w). { rewrite <- (Rabs_pos_eq (v * v)) by nra. rewrite Rabs_mult.
      apply Rmult_le_compat; try apply Rabs_pos; assumption. }
    nra. }
  pose proof (binary_normalize_correct 53 1024 p64 e64 mode_NE s (e - 60) false) as H.
  change (round radix2 (SpecFloat.fexp 53 1024) (round_mode mode_NE)) with rnd64 in H.
  unfold F2R in H. cbn [Fnum Fexp] in H. set (q := IZR s * bpow radix2 (e - 60)) in *.
  assert (Hq : 0 <= q). { unfold q. apply Rmult_le_pos; [apply IZR_le; exact Hs0|apply bpow_ge_0]. }
  pose proof (rnd64_near q) as N. rewrite (Rabs_pos_eq q Hq) in N. apply Rabs_le_inv in N.
  destruct (small_consts) as (C1 & C2 & C3 & C4 & C5).
  assert (B501 : bpow radix2 501 * 2 <= bpow radix2 1000).
  { change 2 with (bpow radix2 1). rewrite <- bpow_plus. apply bpow_le. lia. }
  assert (B1 : bpow radix2 (-1075) <= bpow radix2 500) by (apply bpow_le; lia).
  assert (B2 : bpow radix2 500 * 2 = bpow radix2 501).
  { change 2 with (bpow radix2 1). rewrite <- bpow_plus. reflexivity. }
  assert (B3 : bpow radix2 1000 < bpow radix2 1024) by (apply bpow_lt; lia).
  rewrite Rlt_bool_true in H.
  - destruct H as (H1 & H2 & _). unfold f64_of. rewrite H1. split; [exact H2|].
    rewrite C1, C5. apply Rabs_le. assert (0 <= S) by apply sqrt_pos. lra.
  - apply Rabs_lt. lra.
Qed.

(** A configuration, a history and a request for which a limited, non-zero
    command is published. *)
Definition ex_cfg : config := Config 1000 100 50 (f64_of 1 0) (f64_of 1 0).
Definition ex_r : f64 := f64_of 1 (-1).
Definition ex_m : twist := Twist (f64_of 3 0) (f64_of 4 0) f0 f0 f0 (f64_of (-3) 0).
Definition ex_h : list ev := [ECloud 5000 true; EPredict 5010 ex_r].

Lemma ex_good : good_config ex_cfg /\ Forall good_ev ex_h /\ finite_twist ex_m /\ nonneg ex_r.
Proof.
  assert (N : forall x : f64, fle f0 x = true -> nonneg x).
  { intros x H. apply leb_true in H. destruct H as (_ & H1 & H2). split; [exact H1|exact H2]. }
  split; [split; apply N; vm_compute; reflexivity|]. split.
  - apply Forall_cons; [exact I|]. apply Forall_cons; [apply N; vm_compute; reflexivity|apply Forall_nil].
  - split; [repeat split; reflexivity|apply N; vm_compute; reflexivity].
Qed.

(** The single command published, for computing with examples. *)
Definition the (l : list twist) : twist := hd zero_twist l.
Lemma the_in l : Nat.eqb (length l) 1 = true -> In (the l) l.
Proof. destruct l as [|x []]; try discriminate. intros _. left. reflexivity. Qed.

Example C33_example :
  let l := published hypot_reference ex_cfg ex_h (ETwist 5020 ex_m) in
  length l = 1%nat /\ flt f0 (lin_x (the l)) = true /\ flt (lin_x (the l)) (lin_x ex_m) = true /\
  flt (ang_z (the l)) f0 = true.
Proof. cbv zeta. repeat split; vm_compute; reflexivity. Qed.

Example C33_example_speed_hyps :
  bpow radix2 (-500) <= key (c_max_lin (cfg_after ex_cfg ex_h)) /\
  Rabs (B2R (lin_x ex_m)) <= bpow radix2 500 /\ Rabs (B2R (lin_y ex_m)) <= bpow radix2 500.
Proof.
  change (c_max_lin (cfg_after ex_cfg ex_h)) with f1. rewrite (finite_key 53 1024 f1) by reflexivity.
  rewrite (proj1 f1_val). split; [change 1 with (bpow radix2 0); apply bpow_le; lia|].
  assert (G : forall x : f64, is_finite x = true -> fle (Bopp (f64_of 1 500)) x = true -> fle x (f64_of 1 500) = true ->
    Rabs (B2R x) <= bpow radix2 500).
  { intros x F H1 H2. apply leb_true in H1, H2. destruct H1 as (_ & _ & H1), H2 as (_ & _ & H2).
    assert (E : B2R (f64_of 1 500) = bpow radix2 500).
    { rewrite <- (SF2R_B2SF 53 1024). replace (B2SF (f64_of 1 500)) with (SpecFloat.S754_finite false 4503599627370496 448) by (vm_compute; reflexivity).
      cbn [SF2R SpecFloat.cond_Zopp cond_Zopp]. unfold F2R. cbn [Fnum Fexp].
      replace (IZR 4503599627370496) with (bpow radix2 52) by (simpl; lra). rewrite <- bpow_plus. reflexivity. }
    rewrite key_opp, !finite_key in H1 by (auto; reflexivity). rewrite !finite_key in H2 by (auto; reflexivity).
    rewrite E in *. apply Rabs_le. lra. }
  split; apply G; vm_compute; reflexivity.
Qed.

Example C34_example : ~ disabled_at ex_cfg [EWatchdogTimer; ECloud 5000 true] 5020 /\
  watchdog_expired [EWatchdogTimer; ECloud 5000 true] = true /\
  valid_cloud ex_cfg [EWatchdogTimer; ECloud 5000 true] = Some 5000%Z /\
  valid_cloud ex_cfg (ECloud 5000 true :: [EPredict 7000 ex_r]) = None.
Proof. split; [unfold disabled_at; vm_compute; discriminate|]. repeat split. Qed.

(** The hypotheses of [C35_limit_is_held]: a prediction at 5010 limits to one
    half; a second prediction sees no obstacle any more; the request at 5050
    still is limited. *)
Example C35_example : let es' := [ETwist 5015 ex_m; EPredict 5040 f1] in
  valid_cloud ex_cfg [ECloud 5000 true] = Some 5000%Z /\ flt ex_r lim_thr = true /\
  Forall (held 5010 (c_hold ex_cfg) ex_r) es' /\
  ~ disabled_at ex_cfg ([ECloud 5000 true] ++ EPredict 5010 ex_r :: es') 5050 /\
  let o := the (published hypot_reference ex_cfg ([ECloud 5000 true] ++ EPredict 5010 ex_r :: es')
    (ETwist 5050 (Twist f1 f0 f0 f0 f0 f0))) in
  Beqb (lin_x o) ex_r = true.
Proof.
  cbv zeta. split; [reflexivity|]. split; [vm_compute; reflexivity|]. split.
  - constructor; [|constructor; [|constructor]]; cbn [held].
    + change (c_hold ex_cfg) with 50%Z. lia.
    + split; [lia|]. split; [reflexivity|]. rewrite (finite_key 53 1024 f1) by reflexivity. rewrite (proj1 f1_val). lra.
  - split; [unfold disabled_at; vm_compute; discriminate|]. vm_compute. reflexivity.
Qed.

(** * Findings *)

Definition f_inf : f64 := B754_infinity false.
Definition f_nan : f64 := B754_nan.

(** A request that is not finite is not made harmless: NaN is published, and an
    infinite linear velocity, which the node means to scale down to the
    maximum, becomes NaN. *)
Theorem C33_nan_is_stopped_refuted : ~ (forall hyp c es now m o,
  good_config c -> Forall good_ev es -> In o (published hyp c es (ETwist now m)) ->
  is_nan (ang_z o) = false).
Proof.
  intros H. destruct ex_good as (G1 & G2 & _).
  pose proof (the_in (published hypot_reference ex_cfg ex_h (ETwist 5020 (Twist f0 f0 f0 f0 f0 f_nan)))
    ltac:(vm_compute; reflexivity)) as Hin.
  specialize (H hypot_reference ex_cfg ex_h 5020%Z (Twist f0 f0 f0 f0 f0 f_nan) _ G1 G2 Hin).
  vm_compute in H. discriminate H.
Qed.

Theorem C33_infinite_request_is_stopped_refuted : ~ (forall hyp c es now m o,
  (forall x y, x = f_inf -> hyp x y = f_inf) ->
  good_config c -> Forall good_ev es ->
  is_nan (lin_x m) = false -> is_nan (lin_y m) = false -> is_nan (ang_z m) = false ->
  In o (published hyp c es (ETwist now m)) -> is_nan (lin_x o) = false).
Proof.
  intros H. destruct ex_good as (G1 & G2 & _).
  set (h := fun x y : f64 => f_inf).
  pose proof (the_in (published h ex_cfg ex_h (ETwist 5020 (Twist f_inf f0 f0 f0 f0 f0)))
    ltac:(vm_compute; reflexivity)) as Hin.
  specialize (H h ex_cfg ex_h 5020%Z (Twist f_inf f0 f0 f0 f0 f0) _
    (fun _ _ _ => eq_refl) G1 G2 eq_refl eq_refl eq_refl Hin).
  vm_compute in H. discriminate H.
Qed.

(** "Disabled" is decided by the time since the last disable request, which
    starts as time 0: with a (simulated) clock that starts at 0 the node passes
    commands although nobody disabled it and there is no point cloud. *)
Theorem C34_requires_explicit_disable_refuted : ~ (forall hyp c es now m,
  (forall t, ~ In (EDisable t true) es) -> (0 <= now)%Z ->
  valid_cloud c es = None -> published hyp c es (ETwist now m) = [zero_twist]).
Proof.
  intros H. specialize (H (fun _ _ => f0) ex_cfg [] 20%Z (Twist f1 f0 f0 f0 f0 f0)
    (fun _ F => F) ltac:(lia) eq_refl).
  apply (f_equal (fun l => flt f0 (lin_x (the l)))) in H. vm_compute in H. discriminate H.
Qed.

(** Changing any parameter drops the limit at once. *)
Theorem C35_held_across_reconfiguration_refuted : ~ (forall hyp c es t r stamp c2 now m o,
  good_config c -> Forall good_ev es -> nonneg r -> good_config c2 ->
  valid_cloud c es = Some stamp -> (t - stamp <= c_timeout (cfg_after c es))%Z ->
  flt r lim_thr = true -> (t <= now <= t + c_hold (cfg_after c es))%Z ->
  ~ disabled_at c (es ++ [EPredict t r; EParam c2]) now -> finite_twist m ->
  In o (published hyp c (es ++ [EPredict t r; EParam c2]) (ETwist now m)) ->
  twist_no_larger o (scaled r m)).
Proof.
  intros H. destruct ex_good as (G1 & G2 & G3 & G4).
  set (m := Twist f1 f0 f0 f0 f0 f0).
  assert (Fm : finite_twist m) by (repeat split; reflexivity).
  pose (o := the (published hypot_reference ex_cfg ([ECloud 5000 true] ++ [EPredict 5010 ex_r; EParam ex_cfg]) (ETwist 5020 m))).
  specialize (H hypot_reference ex_cfg [ECloud 5000 true] 5010%Z ex_r 5000%Z ex_cfg 5020%Z m o G1
    ltac:(repeat constructor) G4 G1 eq_refl).
  specialize (H ltac:(vm_compute; discriminate) ltac:(vm_compute; reflexivity)).
  specialize (H ltac:(split; vm_compute; discriminate)).
  specialize (H ltac:(unfold disabled_at; vm_compute; discriminate) Fm).
  specialize (H (the_in (published hypot_reference ex_cfg ([ECloud 5000 true] ++ [EPredict 5010 ex_r; EParam ex_cfg]) (ETwist 5020 m))
    ltac:(vm_compute; reflexivity))). destruct H as ((_ & H & _) & _).
  cbn [lin_x scaled] in H.
  assert (L1 : fle f1 (lin_x o) = true) by (vm_compute; reflexivity).
  assert (L2 : fle f0 (fmul (lin_x m) ex_r) = true) by (vm_compute; reflexivity).
  assert (L3 : flt (fmul (lin_x m) ex_r) f1 = true) by (vm_compute; reflexivity).
  assert (Fo : is_finite (lin_x o) = true) by (vm_compute; reflexivity).
  assert (Fs : is_finite (fmul (lin_x m) ex_r) = true) by (vm_compute; reflexivity).
  clearbody o. apply leb_true in L1, L2. apply ltb_true in L3.
  destruct L1 as (_ & _ & L1), L2 as (_ & _ & L2), L3 as (_ & _ & L3).
  rewrite (finite_key 53 1024 f1) in * by reflexivity. rewrite (finite_key 53 1024 f0) in L2 by reflexivity.
  rewrite (finite_key 53 1024 _ Fo) in L1. rewrite (finite_key 53 1024 _ Fs) in *. change (B2R f0) with 0 in L2.
  rewrite (proj1 f1_val) in *. rewrite !Rabs_pos_eq in H by lra. lra.
Qed.

(** * C54: nothing passes before a prediction has looked at the cloud *)

(** The node limits a command only if the last prediction did; no prediction
    is awaited.  After start, the first command after the first cloud passes
    unchanged although [predict] has never run. *)
Theorem C54_first_command_is_predicted_refuted : ~ (forall hyp c es now m o,
  good_config c -> (forall t r, ~ In (EPredict t r) es) -> ~ disabled_at c es now ->
  (c_disable_timeout c <= now)%Z ->
  In o (published hyp c es (ETwist now m)) -> o = zero_twist).
Proof.
  intros H. destruct ex_good as (G1 & _).
  set (m := Twist f1 f0 f0 f0 f0 f0).
  pose proof (the_in (published hypot_reference ex_cfg [ECloud 5000 true] (ETwist 5010 m))
    ltac:(vm_compute; reflexivity)) as Hin.
  specialize (H hypot_reference ex_cfg [ECloud 5000 true] 5010%Z m).
  assert (H1 : forall t r, ~ In (EPredict t r) [ECloud 5000 true]).
  { intros t r [F|[]]. discriminate F. }
  specialize (H _ G1 H1 ltac:(unfold disabled_at; vm_compute; discriminate) ltac:(vm_compute; discriminate) Hin).
  apply (f_equal (fun t => flt f0 (lin_x t))) in H. vm_compute in H. discriminate H.
Qed.

(** After a cloud time-out the zero limit protects exactly one command: the
    first one is zero, the second one passes although no prediction ran on the
    new cloud. *)
Theorem C54_recovery_first_command_is_zero hyp c es now r stamp stamp2 now2 m :
  valid_cloud c es = Some stamp -> (c_timeout (cfg_after c es) < now - stamp)%Z ->
  good_config c -> Forall good_ev es -> finite_twist m ->
  let h := es ++ [EPredict now r; ECloud stamp2 true] in
  ~ disabled_at c h now2 ->
  forall o, In o (published hyp c h (ETwist now2 m)) ->
    B2R (lin_x o) = 0 /\ B2R (lin_y o) = 0 /\ B2R (ang_z o) = 0.
Proof.
  intros H1 H2 Hc Hes Fm h Hd o Ho.
  unfold disabled_at in Hd. rewrite <- (run_disable hyp c), <- (run_cfg hyp) in Hd.
  assert (Es : run hyp (init c) h =
    let s := run hyp (init c) es in St (s_cfg s) f0 (s_hold_off s) (s_last_disable s) true (s_wd_stop s) stamp2).
  { rewrite (run_cloud hyp) in H1. rewrite <- (run_cfg hyp) in H2. unfold h, run. rewrite fold_left_app.
    change (fold_left (fun s e => fst (step hyp s e)) es (init c)) with (run hyp (init c) es).
    cbn [fold_left]. cbv zeta. set (s := run hyp (init c) es) in *. unfold step at 2.
    destruct (s_has_cloud s); [|discriminate]. injection H1 as ->. cbn [negb].
    apply Z.ltb_lt in H2. rewrite H2. reflexivity. }
  destruct (init_inv hyp c es Hc Hes) as [[Hl Ha] _].
  unfold published in Ho. rewrite Es in *. cbv zeta in *. set (s := run hyp (init c) es) in *.
  unfold step in Ho. cbn [s_cfg s_r s_hold_off s_last_disable s_has_cloud s_wd_stop s_stamp] in *.
  destruct (_ <? _)%Z eqn:D; [apply Z.ltb_lt in D; contradiction|].
  destruct (negb true || s_wd_stop s).
  - destruct Ho as [<-|[]]. repeat split.
  - destruct Ho as [<-|[]].
    pose proof (limit_no_larger hyp f0 m ratio_0 Fm) as K1.
    destruct (limit_max_no_larger hyp _ _ _ Hl Ha (twist_no_larger_finite _ _ K1)) as [K2 _].
    assert (Z0 : forall x, is_finite x = true -> B2R (fmul x f0) = 0).
    { intros x F. destruct (fmul_ratio x f0 F eq_refl ltac:(change (B2R f0) with 0; lra)) as [_ E].
      rewrite E. change (B2R f0) with 0. rewrite Rmult_0_r. apply round_0. apply valid_rnd_N. }
    unfold limit in K2. replace (flt f0 lim_thr) with true in K2 by (vm_compute; reflexivity).
    unfold limit. replace (flt f0 lim_thr) with true by (vm_compute; reflexivity).
    destruct Fm as (F1 & F2 & _ & _ & _ & F6).
    destruct K2 as ((_ & A1 & _) & (_ & A2 & _) & _ & _ & _ & (_ & A3 & _)). cbn [lin_x lin_y ang_z] in A1, A2, A3.
    rewrite (Z0 _ F1), Rabs_R0 in A1. rewrite (Z0 _ F2), Rabs_R0 in A2. rewrite (Z0 _ F6), Rabs_R0 in A3.
    assert (G : forall x : R, Rabs x <= 0 -> x = 0).
    { intros x Hx. destruct (Req_dec x 0) as [E|E]; [exact E|]. apply Rabs_pos_lt in E. lra. }
    repeat split; apply G; assumption.
Qed.

Theorem C54_recovery_waits_for_prediction_refuted : ~ (forall hyp c es now r stamp stamp2 now2 now3 m o,
  valid_cloud c es = Some stamp -> (c_timeout (cfg_after c es) < now - stamp)%Z ->
  (now < stamp2 < now2)%Z -> (now2 < now3)%Z ->
  let h := es ++ [EPredict now r; ECloud stamp2 true; ETwist now2 m] in
  ~ disabled_at c h now3 ->
  In o (published hyp c h (ETwist now3 m)) -> o = zero_twist).
Proof.
  intros H. set (m := Twist f1 f0 f0 f0 f0 f0).
  specialize (H hypot_reference ex_cfg ex_h 7000%Z ex_r 5000%Z 7010%Z 7020%Z 7030%Z m).
  specialize (H (the (published hypot_reference ex_cfg (ex_h ++ [EPredict 7000 ex_r; ECloud 7010 true; ETwist 7020 m]) (ETwist 7030 m)))).
  specialize (H ltac:(vm_compute; reflexivity) ltac:(vm_compute; reflexivity) ltac:(lia) ltac:(lia)). cbv zeta in H.
  specialize (H ltac:(unfold disabled_at; vm_compute; discriminate) (the_in (published hypot_reference ex_cfg (ex_h ++ [EPredict 7000 ex_r; ECloud 7010 true; ETwist 7020 m]) (ETwist 7030 m)) ltac:(vm_compute; reflexivity))).
  apply (f_equal (fun t => flt f0 (lin_x t))) in H. vm_compute in H. discriminate H.
Qed.

Print Assumptions C33_no_component_is_amplified.
Print Assumptions C33_linear_speed_within_maximum.
Print Assumptions C34_stops_without_cloud_or_watchdog.
Print Assumptions C35_limit_is_held.
