(** C36: the braking guarantee of the prediction; C55: escaping from a
    collision. *)
From Coq Require Import ZArith List Bool Reals Lra Lia Psatz.
From Flocq Require Import Core.Raux.
From Verif Require Import SafetyPredict.
Import ListNotations.
Local Open Scope R_scope.

(** * Specification *)

(** Distance travelled when moving at [s] for the reaction time [t] and then
    braking at [acc] until standstill. *)
Definition stopping_distance (s t acc : R) : R := s * t + s * s / (2 * acc).

(** Reaction time: one control period plus one prediction step. *)
Definition reaction (c : pcfg) : R := / p_hz c + p_dt c.

Definition good_pcfg (c : pcfg) : Prop :=
  0 < p_hz c /\ 0 < p_dt c /\ 0 < p_acc_v c /\ 0 < p_acc_w c /\ 0 <= p_margin_v c /\ 0 <= p_margin_w c /\
  0 < p_vel_v c /\ 0 < p_vel_w c.

(** * Proofs *)

Lemma reaction_delay c : reaction c = delay c.
Proof. unfold reaction, delay, Rdiv. rewrite Rmult_1_l. reflexivity. Qed.

Lemma delay_pos c : good_pcfg c -> 0 < delay c.
Proof.
  intros (H & H1 & _). unfold delay. assert (0 < 1 / p_hz c) by (apply Rdiv_lt_0_compat; lra). lra.
Qed.

Lemma compensated_spec c d acc margin : good_pcfg c -> 0 < acc -> 0 <= margin ->
  let x := compensated c d acc margin in
  0 <= x /\ (x = 0 \/ stopping_distance (sqrt (2 * acc * x)) (delay c) acc <= Rabs d - margin).
Proof.
  intros Hc Ha Hm x. pose proof (delay_pos c Hc) as Hd. unfold compensated in x.
  set (t := delay c) in *. set (a := acc * (t * t)) in *.
  assert (Pa : 0 < a) by (unfold a; apply Rmult_lt_0_compat; nra).
  set (D := Rabs d) in *. assert (PD : 0 <= D) by apply Rabs_pos.
  set (q := sqrt (a * a + 2 * a * D)) in *.
  assert (Pq : 0 <= q) by apply sqrt_pos.
  assert (Eq : q * q = a * a + 2 * a * D) by (apply sqrt_sqrt; nra).
  assert (Hx : 0 <= x) by (apply Rmax_l). split; [exact Hx|].
  destruct (Rle_or_lt (D - margin + a - q) 0) as [L|L].
  - left. unfold x. apply Rmax_left. exact L.
  - right. assert (Ex : x = D - margin + a - q) by (unfold x; apply Rmax_right; lra).
    unfold stopping_distance. set (s := sqrt (2 * acc * x)).
    assert (Ps : 0 <= s) by apply sqrt_pos.
    assert (Es : s * s = 2 * acc * x) by (apply sqrt_sqrt; nra).
    assert (E1 : s * s / (2 * acc) = x). { rewrite Es. field. lra. }
    rewrite E1.
    (* s * t <= q - a *)
    assert (Hqa : a <= q) by nra.
    assert (Hst : s * t <= q - a).
    { apply Rsqr_incr_0_var; [|lra]. unfold Rsqr.
      replace (s * t * (s * t)) with (s * s * (t * t)) by ring. rewrite Es.
      replace (2 * acc * x * (t * t)) with (2 * a * x) by (unfold a; ring).
      rewrite Ex. replace ((q - a) * (q - a)) with (q * q - 2 * a * q + a * a) by ring. rewrite Eq. nra. }
    lra.
Qed.

(** Without margin the compensation is exact. *)
Lemma compensated_tight c d acc : good_pcfg c -> 0 < acc ->
  let x := compensated c d acc 0 in
  0 <= x /\ stopping_distance (sqrt (2 * acc * x)) (delay c) acc = Rabs d.
Proof.
  intros Hc Ha x. pose proof (delay_pos c Hc) as Hd. unfold compensated in x.
  set (t := delay c) in *. set (a := acc * (t * t)) in *.
  assert (Pa : 0 < a) by (unfold a; apply Rmult_lt_0_compat; nra).
  set (D := Rabs d) in *. assert (PD : 0 <= D) by apply Rabs_pos.
  set (q := sqrt (a * a + 2 * a * D)) in *.
  assert (Pq : 0 <= q) by apply sqrt_pos.
  assert (Eq : q * q = a * a + 2 * a * D) by (apply sqrt_sqrt; nra).
  assert (Hx : 0 <= x) by (apply Rmax_l). split; [exact Hx|].
  assert (L : 0 <= D - 0 + a - q).
  { assert (q <= D + a); [|lra]. apply Rsqr_incr_0_var; [|lra]. unfold Rsqr. rewrite Eq. nra. }
  assert (Ex : x = D - 0 + a - q) by (unfold x; apply Rmax_right; lra).
  unfold stopping_distance. set (s := sqrt (2 * acc * x)).
  assert (Ps : 0 <= s) by apply sqrt_pos.
  assert (Es : s * s = 2 * acc * x) by (apply sqrt_sqrt; nra).
  assert (E1 : s * s / (2 * acc) = x). { rewrite Es. field. lra. }
  rewrite E1.
  assert (Hqa : a <= q) by nra.
  assert (Hst : s * t = q - a).
  { apply Rsqr_inj; [nra|lra|]. unfold Rsqr.
    replace (s * t * (s * t)) with (s * s * (t * t)) by ring. rewrite Es.
    replace (2 * acc * x * (t * t)) with (2 * a * x) by (unfold a; ring).
    rewrite Ex. replace ((q - a) * (q - a)) with (q * q - 2 * a * q + a * a) by ring. rewrite Eq. ring. }
  lra.
Qed.

Lemma speed_ratio_spec acc x sp : 0 < acc -> 0 <= x -> 0 <= sp ->
  0 <= speed_ratio acc x sp /\ (sp = 0 \/ speed_ratio acc x sp * sp = sqrt (2 * acc * x)).
Proof.
  intros Ha Hx Hs. unfold speed_ratio. destruct (Req_bool_spec sp 0) as [E|E].
  - split; [lra|]. left. exact E.
  - rewrite Rabs_pos_eq by nra. split.
    + apply Rmult_le_pos; [apply sqrt_pos|]. apply Rlt_le, Rinv_0_lt_compat. lra.
    + right. field. exact E.
Qed.

(** Stopping distance grows with the speed. *)
Lemma stopping_mono s s' t acc : 0 < acc -> 0 <= t -> 0 <= s' <= s ->
  stopping_distance s' t acc <= stopping_distance s t acc.
Proof.
  intros Ha Ht Hs. unfold stopping_distance.
  assert (s' * s' / (2 * acc) <= s * s / (2 * acc)).
  { apply Rmult_le_compat_r; [apply Rlt_le, Rinv_0_lt_compat; lra|]. nra. }
  nra.
Qed.

Section Loop.
  Variables (c : pcfg) (v w : R) (col : nat -> bool).
  Local Notation loop := (loop c v w col).

  (** Without an initial collision, nothing happens before the first one. *)
  Lemma loop_free fuel k s : (0 < k)%nat -> l_de s <= 0 -> l_ye s <= 0 -> 0 <= v * p_dt c -> 0 <= Rabs w * p_dt c ->
    l_now s = false ->
    match loop fuel k s with
    | inl _ => forall j, (k <= j < k + fuel)%nat -> col j = false
    | inr s' => exists j, (k <= j < k + fuel)%nat /\ col j = true /\ (forall i, (k <= i < j)%nat -> col i = false) /\
        l_d s' = l_d s + INR (j - k) * (v * p_dt c) /\ l_yaw s' = l_yaw s + INR (j - k) * (w * p_dt c)
    end.
  Proof.
    revert k s. induction fuel as [|f IH]; intros k s Hk H1 H2 H3 H4 H5; cbn [SafetyPredict.loop].
    - intros j Hj. lia.
    - destruct k as [|k]; [lia|]. unfold iter. cbn [l_d l_yaw l_de l_ye l_now].
      destruct (col (S k)) eqn:Ec.
      + cbn [l_de l_ye l_now]. rewrite Rle_bool_true by lra. cbn [orb]. rewrite H5. cbn [l_d l_yaw].
        exists (S k). replace (S k - S k)%nat with 0%nat by lia. simpl INR.
        split; [lia|]. split; [exact Ec|]. split; [intros; lia|]. split; lra.
      + specialize (IH (S (S k)) (Ls (l_d s + v * p_dt c) (l_yaw s + w * p_dt c)
                  (l_de s - v * p_dt c) (l_ye s - Rabs w * p_dt c) (l_now s)) ltac:(lia)).
        cbn [l_d l_yaw l_de l_ye l_now] in IH. specialize (IH ltac:(lra) ltac:(lra) H3 H4 H5).
        destruct (loop f (S (S k)) _) as [s'|s'].
        * intros j Hj. destruct (Nat.eq_dec j (S k)) as [->|N]; [exact Ec|]. apply IH. lia.
        * destruct IH as (j & J1 & J2 & J3 & J4 & J5). exists j. split; [lia|]. split; [exact J2|].
          split; [intros i Hi; destruct (Nat.eq_dec i (S k)) as [->|N]; [exact Ec|apply J3; lia]|].
          rewrite J4, J5. replace (j - S k)%nat with (S (j - S (S k)))%nat by lia. rewrite S_INR. split; ring.
  Qed.

  (** With an initial collision the loop only looks for colliding poses that
      are not within the escape allowance. *)
  Lemma loop_escape fuel k s : (0 < k)%nat -> l_now s = true ->
    l_de s = p_escape_v c - INR (k - 1) * (v * p_dt c) -> l_ye s = p_escape_w c - INR (k - 1) * (Rabs w * p_dt c) ->
    let blocked j := col j = true /\
      (p_escape_v c <= INR j * (v * p_dt c) \/ p_escape_w c <= INR j * (Rabs w * p_dt c)) in
    match loop fuel k s with
    | inl _ => forall j, (k <= j < k + fuel)%nat -> ~ blocked j
    | inr s' => (exists j, (k <= j < k + fuel)%nat /\ blocked j) /\ l_d s' = 0 /\ l_yaw s' = 0
    end.
  Proof.
    intros Hk Hn Hd Hy blocked. revert k s Hk Hn Hd Hy.
    induction fuel as [|f IH]; intros k s Hk Hn Hd Hy; cbn [SafetyPredict.loop].
    - intros j Hj. lia.
    - destruct k as [|k]; [lia|]. unfold iter. cbn [l_d l_yaw l_de l_ye l_now].
      replace (S k - 1)%nat with k in Hd, Hy by lia.
      assert (Ed : l_de s - v * p_dt c = p_escape_v c - INR (S k) * (v * p_dt c)) by (rewrite Hd, S_INR; ring).
      assert (Ey : l_ye s - Rabs w * p_dt c = p_escape_w c - INR (S k) * (Rabs w * p_dt c)) by (rewrite Hy, S_INR; ring).
      assert (Next : forall s', l_now s' = true -> l_de s' = l_de s - v * p_dt c -> l_ye s' = l_ye s - Rabs w * p_dt c ->
        ~ blocked (S k) ->
        match loop f (S (S k)) s' with
        | inl _ => forall j, (S k <= j < S k + S f)%nat -> ~ blocked j
        | inr s'' => (exists j, (S k <= j < S k + S f)%nat /\ blocked j) /\ l_d s'' = 0 /\ l_yaw s'' = 0
        end).
      { intros s' A1 A2 A3 NB. specialize (IH (S (S k)) s' ltac:(lia) A1).
        replace (S (S k) - 1)%nat with (S k) in IH by lia. rewrite A2, A3 in IH. specialize (IH Ed Ey).
        destruct (loop f (S (S k)) s') as [s''|s''].
        - intros j Hj. destruct (Nat.eq_dec j (S k)) as [->|N]; [exact NB|]. apply IH. lia.
        - destruct IH as ((j & J1 & J2) & J3). split; [|exact J3]. exists j. split; [lia|exact J2]. }
      destruct (col (S k)) eqn:Ec.
      + cbn [l_d l_yaw l_de l_ye l_now].
        destruct (Rle_bool_spec (l_de s - v * p_dt c) 0) as [L1|L1]; cbn [orb].
        * rewrite Hn. cbn [l_d l_yaw]. split; [|split; reflexivity]. exists (S k). split; [lia|].
          split; [exact Ec|]. left. lra.
        * destruct (Rle_bool_spec (l_ye s - Rabs w * p_dt c) 0) as [L2|L2].
          -- rewrite Hn. cbn [l_d l_yaw]. split; [|split; reflexivity]. exists (S k). split; [lia|].
             split; [exact Ec|]. right. lra.
          -- apply Next; cbn [l_now l_de l_ye]; auto. intros (_ & [B|B]); lra.
      + apply Next; cbn [l_now l_de l_ye]; auto. intros (B & _). congruence.
  Qed.
End Loop.

(** The iterations executed are those with [k * dt < tmax]. *)
Lemma n_steps_spec c k : 0 < p_dt c -> ((k < n_steps c)%nat <-> INR k * p_dt c < tmax c).
Proof.
  intros Hd. unfold n_steps. set (q := tmax c / p_dt c).
  assert (E : INR k * p_dt c < tmax c <-> INR k < q).
  { unfold q. split; intros H.
    - apply Rmult_lt_reg_r with (p_dt c); [exact Hd|]. replace (tmax c / p_dt c * p_dt c) with (tmax c) by (field; lra). exact H.
    - replace (tmax c) with (tmax c / p_dt c * p_dt c) by (field; lra). apply Rmult_lt_compat_r; assumption. }
  rewrite E. rewrite INR_IZR_INZ. split; intros H.
  - destruct (Rlt_or_le (IZR (Z.of_nat k)) q) as [L|L]; [exact L|]. apply Zceil_glb in L. lia.
  - assert (L : (Z.of_nat k < Zceil q)%Z); [|lia]. apply lt_IZR. eapply Rlt_le_trans; [exact H|]. apply Zceil_ub.
Qed.

(** * C36 *)

Section Guarantee.
  Variables (c : pcfg) (v w : R) (col : nat -> bool).
  Hypothesis Hc : good_pcfg c.
  Hypothesis Hv : 0 <= v.

  Local Notation d_ k := (INR k * (v * p_dt c)).
  Local Notation a_ k := (INR k * (Rabs w * p_dt c)).

  (** The robot does not collide now and the first predicted collision is at
      pose [k] of the predicted motion.  Then the limited linear and angular
      speeds [r*v] and [r*|w|] are either zero, or moving on for the control
      delay and then braking at the configured deceleration stops before the
      pose [k-1] ahead of the collision, with the margin to spare.  This holds
      for every ratio up to the predicted one. *)
  Theorem C36_brakes_before_collision k r :
    (k < n_steps c)%nat -> col 0%nat = false -> col k = true -> (forall j, (j < k)%nat -> col j = false) ->
    0 <= r <= predict c v w (CloudPoints col) ->
    (r * v = 0 \/ stopping_distance (r * v) (reaction c) (p_acc_v c) <= d_ (k - 1) - p_margin_v c) /\
    (r * Rabs w = 0 \/ stopping_distance (r * Rabs w) (reaction c) (p_acc_w c) <= a_ (k - 1) - p_margin_w c).
  Proof.
    rewrite !reaction_delay. intros Hk H0 Hck Hfirst Hr. destruct Hc as (Hhz & Hdt & Hav & Haw & Hmv & Hmw & _).
    pose proof (delay_pos c Hc) as Hdel.
    unfold predict, predict_motion in Hr.
    destruct (n_steps c) as [|n] eqn:En; [lia|]. cbn [loop] in Hr. unfold iter at 1 in Hr. rewrite H0 in Hr.
    pose proof (loop_free c v w col n 1 ls0 ltac:(lia)) as L. cbn [ls0 l_de l_ye l_now l_d l_yaw] in L.
    specialize (L ltac:(lra) ltac:(lra) ltac:(nra)).
    assert (Pw : 0 <= Rabs w) by apply Rabs_pos.
    specialize (L ltac:(nra) eq_refl).
    destruct (loop c v w col n 1 ls0) as [s|s].
    - exfalso. assert (col k = false); [|congruence]. apply L.
      split; [|lia]. destruct k; [congruence|lia].
    - destruct L as (j & J1 & J2 & J3 & J4 & J5).
      assert (j = k).
      { destruct (Nat.lt_trichotomy j k) as [A|[A|A]]; [|exact A|].
        - rewrite (Hfirst j A) in J2. discriminate.
        - assert (col k = false); [|congruence]. apply J3. split; [|lia]. destruct k; [congruence|lia]. }
      subst j. rewrite Rplus_0_l in J4, J5.
      assert (Pk : 0 <= INR (k - 1)) by apply pos_INR.
      assert (Ad : Rabs (l_d s) = d_ (k - 1)) by (rewrite J4; apply Rabs_pos_eq; repeat apply Rmult_le_pos; lra).
      assert (Ay : Rabs (l_yaw s) = a_ (k - 1)).
      { rewrite J5, !Rabs_mult, (Rabs_pos_eq (INR _)), (Rabs_pos_eq (p_dt c)) by lra. ring. }
      destruct (compensated_spec c (l_d s) _ _ Hc Hav Hmv) as [X1 X2].
      destruct (compensated_spec c (l_yaw s) _ _ Hc Haw Hmw) as [Y1 Y2]. cbv zeta in *.
      destruct (speed_ratio_spec _ _ v Hav X1 Hv) as [R1 R2].
      destruct (speed_ratio_spec _ _ (Rabs w) Haw Y1 Pw) as [S1 S2].
      rewrite Ad in X2. rewrite Ay in Y2.
      set (x := compensated c (l_d s) (p_acc_v c) (p_margin_v c)) in *.
      set (y := compensated c (l_yaw s) (p_acc_w c) (p_margin_w c)) in *.
      set (rv := speed_ratio (p_acc_v c) x v) in *. set (rw := speed_ratio (p_acc_w c) y (Rabs w)) in *.
      pose proof (Rmin_l rv rw) as M1. pose proof (Rmin_r rv rw) as M2.
      split.
      + destruct R2 as [R2|R2]; [left; replace v with 0 by lra; ring|].
        destruct X2 as [X2|X2].
        * left. rewrite X2 in R2. rewrite Rmult_0_r, sqrt_0 in R2. nra.
        * right. eapply Rle_trans; [|exact X2]. rewrite <- R2. apply stopping_mono; [lra|lra|]. split; [nra|].
          apply Rmult_le_compat_r; lra.
      + destruct S2 as [S2|S2]; [left; replace (Rabs w) with 0 by lra; ring|].
        destruct Y2 as [Y2|Y2].
        * left. rewrite Y2 in S2. rewrite Rmult_0_r, sqrt_0 in S2. nra.
        * right. eapply Rle_trans; [|exact Y2]. rewrite <- S2. apply stopping_mono; [lra|lra|]. split; [nra|].
          apply Rmult_le_compat_r; lra.
  Qed.

  (** The limit is not tighter than needed: without margins, some axis that moves
      stops exactly at the pose ahead of the collision; an axis that stands still
      never limits the command. *)
  Theorem C36_limit_is_tight k :
    (k < n_steps c)%nat -> col 0%nat = false -> col k = true -> (forall j, (j < k)%nat -> col j = false) ->
    p_margin_v c = 0 -> p_margin_w c = 0 -> (0 < v \/ w <> 0) ->
    let r := predict c v w (CloudPoints col) in
    r = 1 \/
    (0 < v /\ stopping_distance (r * v) (reaction c) (p_acc_v c) = d_ (k - 1)) \/
    (w <> 0 /\ stopping_distance (r * Rabs w) (reaction c) (p_acc_w c) = a_ (k - 1)).
  Proof.
    rewrite !reaction_delay. intros Hk H0 Hck Hfirst M0 M1 Hm r.
    destruct Hc as (Hhz & Hdt & Hav & Haw & Hmv & Hmw & _).
    pose proof (delay_pos c Hc) as Hdel.
    unfold r, predict, predict_motion.
    destruct (n_steps c) as [|n] eqn:En; [lia|]. cbn [loop].
    assert (I0 : iter c v w col 0 ls0 = inl ls0) by (unfold iter; rewrite H0; reflexivity). rewrite I0.
    pose proof (loop_free c v w col n 1 ls0 ltac:(lia)) as L. cbn [ls0 l_de l_ye l_now l_d l_yaw] in L.
    specialize (L ltac:(lra) ltac:(lra) ltac:(nra)).
    assert (Pw : 0 <= Rabs w) by apply Rabs_pos.
    specialize (L ltac:(nra) eq_refl).
    destruct (loop c v w col n 1 ls0) as [s|s]; [left; reflexivity|].
    destruct L as (j & J1 & J2 & J3 & J4 & J5).
    assert (j = k).
    { destruct (Nat.lt_trichotomy j k) as [A|[A|A]]; [|exact A|].
      - rewrite (Hfirst j A) in J2. discriminate.
      - assert (col k = false); [|congruence]. apply J3. split; [|lia]. destruct k; [congruence|lia]. }
    subst j. rewrite Rplus_0_l in J4, J5.
    assert (Pk : 0 <= INR (k - 1)) by apply pos_INR.
    assert (Ad : Rabs (l_d s) = d_ (k - 1)) by (rewrite J4; apply Rabs_pos_eq; repeat apply Rmult_le_pos; lra).
    assert (Ay : Rabs (l_yaw s) = a_ (k - 1)).
    { rewrite J5, !Rabs_mult, (Rabs_pos_eq (INR _)), (Rabs_pos_eq (p_dt c)) by lra. ring. }
    rewrite M0, M1.
    pose proof (compensated_tight c (l_d s) _ Hc Hav) as [X1 X2].
    pose proof (compensated_tight c (l_yaw s) _ Hc Haw) as [Y1 Y2]. rewrite Ad in X2. rewrite Ay in Y2.
    set (x := compensated c (l_d s) (p_acc_v c) 0) in *.
    set (y := compensated c (l_yaw s) (p_acc_w c) 0) in *.
    destruct (speed_ratio_spec _ _ v Hav X1 Hv) as [_ R2].
    destruct (speed_ratio_spec _ _ (Rabs w) Haw Y1 Pw) as [_ S2].
    set (rv := speed_ratio (p_acc_v c) x v) in *. set (rw := speed_ratio (p_acc_w c) y (Rabs w)) in *.
    assert (Ev : v = 0 -> rv = 1) by (intros E; unfold rv, speed_ratio; rewrite E, Req_bool_true; reflexivity).
    assert (Ew : Rabs w = 0 -> rw = 1) by (intros E; unfold rw, speed_ratio; rewrite E, Req_bool_true; reflexivity).
    unfold Rmin. destruct (Rle_dec rv rw).
    - destruct (Req_dec v 0) as [E|E]; [left; auto|]. right. left. split; [lra|].
      destruct R2 as [R2|R2]; [lra|]. rewrite R2. exact X2.
    - destruct (Req_dec (Rabs w) 0) as [E|E]; [left; auto|]. right. right.
      split; [intros ->; apply E, Rabs_R0|]. destruct S2 as [S2|S2]; [lra|]. rewrite S2. exact Y2.
  Qed.

  (** A robot that cannot see does not move: no transform to the robot frame, or
      no point at all unless empty clouds are allowed. *)
  Theorem C36_blind_robot_stops :
    predict c v w CloudNoTransform * v = 0 /\ predict c v w CloudNoTransform * w = 0 /\
    (p_allow_empty c = false -> predict c v w CloudEmpty * v = 0 /\ predict c v w CloudEmpty * w = 0) /\
    (p_allow_empty c = true -> predict c v w CloudEmpty * v = v /\ predict c v w CloudEmpty * w = w).
  Proof.
    cbn [predict]. split; [lra|]. split; [lra|]. split; intros ->; split; lra.
  Qed.

  (** If the command is not limited although the robot may hit something later,
      then, as long as the command is within the configured speeds and the
      control delay is shorter than the braking time, every pose reached until
      standstill has been checked and is free. *)
  Theorem C36_horizon_covers_stopping k :
    v <= p_vel_v c -> reaction c < p_vel_v c / p_acc_v c ->
    col 0%nat = false -> 0 < v ->
    (forall j, (j < n_steps c)%nat -> col j = false) ->
    d_ k <= stopping_distance v (reaction c) (p_acc_v c) -> col k = false.
  Proof.
    rewrite !reaction_delay. intros Hvel Hdelay H0 Hvp Hfree Hd. destruct Hc as (Hhz & Hdt & Hav & Haw & Hmv & Hmw & Hvv & Hvw).
    apply Hfree. apply n_steps_spec; [exact Hdt|].
    assert (Ht : 3 / 2 * (p_vel_v c / p_acc_v c) <= tmax c).
    { unfold tmax. set (t0 := p_vel_v c / p_acc_v c). set (t1 := p_vel_w c / p_acc_w c).
      assert (0 < t0) by (apply Rdiv_lt_0_compat; assumption).
      rewrite (Rlt_bool_true 0 t0) by assumption.
      assert (0 <= Rmax (p_margin_v c / p_vel_v c) (p_margin_w c / p_vel_w c)).
      { eapply Rle_trans; [|apply Rmax_l]. apply Rmult_le_pos; [lra|]. apply Rlt_le, Rinv_0_lt_compat. lra. }
      destruct (Rlt_bool_spec t0 t1); lra. }
    assert (Hk : INR k * p_dt c <= delay c + v / (2 * p_acc_v c)).
    { apply Rmult_le_reg_r with v; [exact Hvp|]. unfold stopping_distance in Hd.
      replace ((delay c + v / (2 * p_acc_v c)) * v) with (v * delay c + v * v / (2 * p_acc_v c)) by (field; lra). nra. }
    assert (v / (2 * p_acc_v c) <= 1 / 2 * (p_vel_v c / p_acc_v c)).
    { replace (v / (2 * p_acc_v c)) with (v * / p_acc_v c * (1 / 2)) by (field; lra).
      replace (1 / 2 * (p_vel_v c / p_acc_v c)) with (p_vel_v c * / p_acc_v c * (1 / 2)) by (field; lra).
      apply Rmult_le_compat_r; [lra|]. apply Rmult_le_compat_r; [|lra]. apply Rlt_le, Rinv_0_lt_compat. lra. }
    lra.
  Qed.

  (** The prediction leaves the command alone exactly if no predicted pose
      collides (robot not in collision now). *)
  Theorem C36_free_motion_is_not_limited :
    (forall j, (j < n_steps c)%nat -> col j = false) -> predict c v w (CloudPoints col) = 1.
  Proof.
    intros Hfree. destruct Hc as (Hhz & Hdt & Hav & Haw & Hmv & Hmw & _).
    unfold predict, predict_motion. destruct (n_steps c) as [|n] eqn:En; [reflexivity|].
    cbn [loop]. unfold iter. rewrite (Hfree 0%nat) by lia.
    pose proof (loop_free c v w col n 1 ls0 ltac:(lia)) as L. cbn [ls0 l_de l_ye l_now] in L.
    assert (Pw : 0 <= Rabs w) by apply Rabs_pos.
    specialize (L ltac:(lra) ltac:(lra) ltac:(nra) ltac:(nra) eq_refl).
    destruct (loop c v w col n 1 ls0) as [s|s]; [reflexivity|].
    destruct L as (j & J1 & J2 & _). rewrite (Hfree j) in J2 by lia. discriminate.
  Qed.

  (** * C55: leaving a collision *)

  (** If the robot is in collision now, it is either stopped completely or not
      limited at all; it is stopped exactly if some predicted pose is still
      in collision after more than the escape distance or angle. *)
  Theorem C55_escape :
    (0 < n_steps c)%nat -> col 0%nat = true -> (0 < v \/ w <> 0) ->
    let r := predict c v w (CloudPoints col) in
    let stuck := exists k, (k < n_steps c)%nat /\ col k = true /\
                   (p_escape_v c <= d_ k \/ p_escape_w c <= a_ k) in
    (r = 0 /\ stuck) \/ (r = 1 /\ ~ stuck).
  Proof.
    intros Hn H0 Hm r stuck. destruct Hc as (Hhz & Hdt & Hav & Haw & Hmv & Hmw & _).
    assert (Zero : forall s, l_d s = 0 -> l_yaw s = 0 ->
      Rmin (speed_ratio (p_acc_v c) (compensated c (l_d s) (p_acc_v c) (p_margin_v c)) v)
           (speed_ratio (p_acc_w c) (compensated c (l_yaw s) (p_acc_w c) (p_margin_w c)) (Rabs w)) = 0).
    { intros s E1 E2. rewrite E1, E2.
      assert (C0 : forall acc m, 0 < acc -> 0 <= m -> compensated c 0 acc m = 0).
      { intros acc m Ha Hmm. unfold compensated. rewrite Rabs_R0. set (a := acc * (delay c * delay c)).
        assert (Pa : 0 <= a). { unfold a. pose proof (delay_pos c Hc). apply Rmult_le_pos; nra. }
        replace (a * a + 2 * a * 0) with (a * a) by ring. rewrite sqrt_square by exact Pa. apply Rmax_left. lra. }
      rewrite !C0 by assumption. unfold speed_ratio. rewrite !Rmult_0_r, Rabs_R0, sqrt_0.
      destruct (Req_bool_spec v 0) as [A|A]; destruct (Req_bool_spec (Rabs w) 0) as [B|B].
      - destruct Hm as [Hm|Hm]; [lra|]. apply Rabs_no_R0 in Hm. contradiction.
      - unfold Rdiv. rewrite Rmult_0_l. apply Rmin_right. lra.
      - unfold Rdiv. rewrite Rmult_0_l. apply Rmin_left. lra.
      - unfold Rdiv. rewrite !Rmult_0_l. apply Rmin_left. lra. }
    unfold r, predict, predict_motion. subst stuck. destruct (n_steps c) as [|n]; [lia|]. cbn [loop].
    unfold iter at 1 2. rewrite H0. cbn [l_de l_ye l_now l_d l_yaw].
    destruct (Rle_bool_spec (p_escape_v c) 0) as [L1|L1]; cbn [orb].
    - left. split; [apply Zero; reflexivity|]. exists 0%nat. split; [lia|]. split; [exact H0|]. left. simpl INR. lra.
    - destruct (Rle_bool_spec (p_escape_w c) 0) as [L2|L2].
      + left. split; [apply Zero; reflexivity|]. exists 0%nat. split; [lia|]. split; [exact H0|]. right. simpl INR. lra.
      + match goal with |- context [loop c v w col n 1 ?s] => pose proof (loop_escape c v w col n 1 s ltac:(lia) eq_refl) as L end.
        cbn [l_de l_ye] in L. simpl INR in L. specialize (L ltac:(ring) ltac:(ring)). cbv zeta in L.
        match type of L with context [loop c v w col n 1 ?s] => destruct (loop c v w col n 1 s) as [s'|s'] end.
        * right. split; [reflexivity|]. intros (k & K1 & K2 & K3). destruct k as [|k].
          -- simpl INR in K3. lra.
          -- apply (L (S k)); [lia|]. split; assumption.
        * destruct L as ((j & J1 & J2) & E1 & E2). left. split; [apply Zero; assumption|].
          exists j. split; [lia|exact J2].
  Qed.
End Guarantee.

(** The predicted ratio is never negative, as [C33] assumes. *)
Theorem C33_predicted_ratio_is_nonnegative c v w cl : good_pcfg c -> 0 <= v -> 0 <= predict c v w cl.
Proof.
  intros Hc Hv. destruct cl as [| |col]; cbn [predict]; [destruct (p_allow_empty c); lra|lra|].
  unfold predict_motion. destruct (loop _ _ _ _ _ _ _); [lra|].
  destruct Hc as (Hhz & Hdt & Hav & Haw & Hmv & Hmw & Hr).
  apply Rmin_glb; apply speed_ratio_spec; auto; try apply Rmax_l. apply Rabs_pos.
Qed.

(** * The hypotheses are met *)

Definition ex_p : pcfg := Pcfg 10 (1/10) (1/2) 1 (1/10) (1/20) 1 2 (1/20) (1/20) true.
Lemma ex_p_good : good_pcfg ex_p.
Proof. unfold good_pcfg, ex_p; cbn. repeat split; lra. Qed.
Lemma ex_tmax : tmax ex_p = 19/20.
Proof.
  unfold tmax, ex_p; cbn [p_vel_v p_acc_v p_vel_w p_acc_w p_margin_v p_margin_w].
  rewrite (Rlt_bool_true 0 (1/2/1)) by lra. rewrite (Rlt_bool_false (1/2/1) (1/2)) by lra. rewrite Rmax_left by lra. lra.
Qed.

(** Driving at 0.5 m/s with an obstacle 0.25 m ahead: the speed is limited, but
    not to zero, and the braking guarantee is not trivial. *)
Example C36_example : let col k := Nat.leb 5 k in
  (5 < n_steps ex_p)%nat /\ col 0%nat = false /\ col 5%nat = true /\ (forall j, (j < 5)%nat -> col j = false) /\
  predict ex_p (1/2) 0 (CloudPoints col) < 1 /\
  0 < INR (5 - 1) * (1/2 * p_dt ex_p) - p_margin_v ex_p.
Proof.
  intros col. assert (Hn : (5 < n_steps ex_p)%nat).
  { apply n_steps_spec; [cbn; lra|]. rewrite ex_tmax. cbn. lra. }
  assert (Hf : forall j, (j < 5)%nat -> col j = false) by (intros j Hj; apply Nat.leb_gt; exact Hj).
  split; [exact Hn|]. split; [reflexivity|]. split; [reflexivity|]. split; [exact Hf|]. split; [|cbn; lra].
  destruct (Rlt_or_le (predict ex_p (1/2) 0 (CloudPoints col)) 1) as [L|L]; [exact L|]. exfalso.
  destruct (C36_brakes_before_collision ex_p (1/2) 0 col ex_p_good ltac:(lra) 5 1 Hn eq_refl eq_refl Hf ltac:(lra)) as [[H|H] _].
  - lra.
  - unfold stopping_distance, reaction in H. cbn in H. lra.
Qed.

(** The same without margins: the limited speed uses the free distance up. *)
Definition ex_p0 : pcfg := Pcfg 10 (1/10) (1/2) 1 0 (1/20) 1 2 0 (1/20) true.
Example C36_tight_example : let col k := Nat.leb 5 k in
  stopping_distance (predict ex_p0 (1/2) 0 (CloudPoints col) * (1/2)) (reaction ex_p0) (p_acc_v ex_p0) = 1/5.
Proof.
  intros col. assert (G : good_pcfg ex_p0) by (unfold good_pcfg, ex_p0; cbn; repeat split; lra).
  assert (T : tmax ex_p0 = 3/4).
  { unfold tmax, ex_p0. cbn. rewrite (Rlt_bool_true 0) by lra. rewrite Rlt_bool_false by lra.
    rewrite Rmax_left by lra. lra. }
  assert (Hn : (5 < n_steps ex_p0)%nat).
  { apply n_steps_spec; [cbn; lra|]. rewrite T. cbn. lra. }
  assert (Hf : forall j, (j < 5)%nat -> col j = false) by (intros j Hj; apply Nat.leb_gt; exact Hj).
  destruct (C36_limit_is_tight ex_p0 (1/2) 0 col G ltac:(lra) 5 Hn eq_refl eq_refl Hf eq_refl eq_refl ltac:(left; lra))
    as [H|[[_ H]|[H _]]]; [exfalso| |lra].
  - destruct (C36_brakes_before_collision ex_p0 (1/2) 0 col G ltac:(lra) 5 1 Hn eq_refl eq_refl Hf ltac:(lra)) as [[A|A] _];
      [lra|]. unfold stopping_distance, reaction in A. cbn in A. lra.
  - rewrite H. cbn. lra.
Qed.

Example C55_example : let col k := Nat.leb k 1 in
  (0 < n_steps ex_p)%nat /\ col 0%nat = true /\ predict ex_p (1/2) 0 (CloudPoints col) = 0 /\
  predict ex_p (1/4) 0 (CloudPoints col) = 1.
Proof.
  intros col. assert (Hn : (1 < n_steps ex_p)%nat).
  { apply n_steps_spec; [cbn; lra|]. rewrite ex_tmax. cbn. lra. }
  split; [lia|]. split; [reflexivity|]. split.
  - destruct (C55_escape ex_p (1/2) 0 col ex_p_good ltac:(lia) eq_refl ltac:(left; lra)) as [[H _]|[_ H]]; [exact H|].
    exfalso. apply H. exists 1%nat. split; [exact Hn|]. split; [reflexivity|]. left. cbn. lra.
  - destruct (C55_escape ex_p (1/4) 0 col ex_p_good ltac:(lia) eq_refl ltac:(left; lra)) as [[_ H]|[H _]]; [|exact H].
    exfalso. destruct H as (k & _ & Hk & H). apply Nat.leb_le in Hk.
    assert (k = 0 \/ k = 1)%nat as [-> | ->] by lia; cbn in H; rewrite Rabs_R0 in H; lra.
Qed.

Example C36_horizon_example : 1/2 <= p_vel_v ex_p /\ reaction ex_p < p_vel_v ex_p / p_acc_v ex_p.
Proof. unfold reaction; cbn. lra. Qed.

(** * Findings *)

(** A command faster than the configured [lin_vel] may be passed at full speed
    although it cannot be stopped before the obstacle: the horizon is computed
    from the configured speed. *)
Theorem C36_faster_than_configured_refuted : ~ (forall c v w col k,
  good_pcfg c -> 0 < v -> reaction c < p_vel_v c / p_acc_v c -> col 0%nat = false -> col k = true ->
  INR k * (v * p_dt c) <= stopping_distance v (reaction c) (p_acc_v c) ->
  predict c v w (CloudPoints col) < 1).
Proof.
  intros H. specialize (H ex_p 2 0 (fun k => Nat.leb 10 k) 10%nat ex_p_good ltac:(lra)).
  specialize (H ltac:(unfold reaction; cbn; lra) eq_refl eq_refl).
  specialize (H ltac:(unfold stopping_distance, reaction; cbn; lra)).
  rewrite (C36_free_motion_is_not_limited ex_p 2 0 _ ex_p_good ltac:(lra)) in H; [lra|].
  intros j Hj. apply n_steps_spec in Hj; [|cbn; lra]. rewrite ex_tmax in Hj. cbn [p_dt ex_p] in Hj.
  apply Nat.leb_gt. apply INR_lt. simpl (INR 10). lra.
Qed.

(** The ratio is computed for the command of the last prediction but applied to
    newer ones: a faster command scaled by it need not stop in time.  The
    obstacle is at the distance [D]. *)
Theorem C36_newer_command_refuted : ~ (forall c v v2 D k,
  good_pcfg c -> 0 <= v <= p_vel_v c -> 0 <= v2 <= p_vel_v c ->
  let at_distance u j := Rle_bool D (INR j * (u * p_dt c)) in
  let r := predict c v 0 (CloudPoints (at_distance v)) in
  0 < D -> (k < n_steps c)%nat -> at_distance v2 k = true -> (forall j, (j < k)%nat -> at_distance v2 j = false) ->
  Rmin r 1 * v2 = 0 \/ stopping_distance (Rmin r 1 * v2) (reaction c) (p_acc_v c) <= D).
Proof.
  intros H. specialize (H ex_p 0 (1/2) (1/10) 2%nat ex_p_good ltac:(cbn; lra) ltac:(cbn; lra)). cbv zeta in H.
  rewrite (C36_free_motion_is_not_limited ex_p 0 0 _ ex_p_good ltac:(lra)) in H.
  - rewrite Rmin_left in H by lra.
    assert (Hn : (2 < n_steps ex_p)%nat) by (apply n_steps_spec; [cbn; lra|]; rewrite ex_tmax; cbn; lra).
    specialize (H ltac:(lra) Hn). unfold stopping_distance, reaction in H.
    destruct H as [H|H].
    + apply Rle_bool_true. cbn. lra.
    + intros j Hj. apply Rle_bool_false. assert (j = 0 \/ j = 1)%nat as [-> | ->] by lia; cbn; lra.
    + lra.
    + cbn in H. lra.
  - intros j _. apply Rle_bool_false. rewrite Rmult_0_l, Rmult_0_r. lra.
Qed.

Print Assumptions C36_brakes_before_collision.
Print Assumptions C36_limit_is_tight.
Print Assumptions C36_blind_robot_stops.
Print Assumptions C36_horizon_covers_stopping.
Print Assumptions C55_escape.
