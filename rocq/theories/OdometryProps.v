(** Property C45: odometry integration. *)
From Coq Require Import Reals Lra List Psatz.
From Verif Require Import Kalman KalmanProps Odometry.
Import ListNotations.
Local Open Scope R_scope.

Section P.
  Context {Q : Type} (rotate : Q -> vec3 -> vec3) (qinv : Q -> Q) (P : params).
  Notation ostep := (ostep rotate qinv P).
  Notation orun := (orun rotate qinv P).

  (** *** Specification *)
  (** IMU and wheel odometry agree at an odometry message: same yaw rate, and the
      orientations cancel. *)
  Definition agrees (i : R * Q) (m : odom) : Prop :=
    fst i = o_w m /\ forall v, rotate (snd i) (rotate (qinv (o_ori m)) v) = v.
  (** Along the history, whenever an odometry message arrives while IMU data is
      available, the two agree.  [cur] is the IMU reading available so far. *)
  Fixpoint sensors_agree (cur : option (R * Q)) (es : list oevent) : Prop :=
    match es with
    | [] => True
    | EvOdom m :: es' => match cur with Some i => agrees i m | None => True end /\ sensors_agree cur es'
    | EvImu v :: es' => sensors_agree v es'
    | _ :: es' => sensors_agree cur es'
    end.
  Definition no_z_reset (es : list (@oevent Q)) : Prop := forall z, ~ In (EvResetZ z) es.

  (** Published positions paired with the raw message that caused them. *)
  Fixpoint published (s : ostate) (es : list oevent) : list (@odom Q * option vec3) :=
    match es with
    | [] => []
    | e :: es' => let '(s1, o) := ostep s e in
                  match e with EvOdom m => map (fun p => (m, p)) o | _ => [] end ++ published s1 es'
    end.

  (** State invariant: the stored position equals the raw one (x and y; z too when
      nothing touches z). *)
  Definition tracks (strict : Prop) (s : @ostate Q) : Prop :=
    kf_x (slip s) = Fin 0 /\ (exists sg, kf_sigma (slip s) = Fin sg) /\
    match raw_prev s with
    | None => True
    | Some m => exists p, pos_prev s = Some p /\ v_x p = v_x (o_pos m) /\ v_y p = v_y (o_pos m) /\
                 (strict -> v_z p = v_z (o_pos m))
    end.

  Lemma step_tracks (strict : Prop) s e s' o : 0 < sigma_odom P ->
    (strict -> z_tc P <= 0) -> (strict -> forall z, e <> EvResetZ z) ->
    tracks strict s ->
    (match e with EvOdom m => match imu s with Some i => agrees i m | None => True end | _ => True end) ->
    ostep s e = (s', o) ->
    tracks strict s' /\
    match e with
    | EvOdom m => forall p, In p o -> exists q, p = Some q /\ v_x q = v_x (o_pos m) /\ v_y q = v_y (o_pos m) /\
                    (strict -> v_z q = v_z (o_pos m))
    | _ => o = []
    end.
  Proof.
    intros Hs Hz Hr HT HA E. destruct e as [m|v| |z]; simpl in E.
    - destruct (raw_prev s) as [prev|] eqn:Ep.
      + destruct (imu s) as [[w q]|] eqn:Ei.
        * destruct HT as (Hx & (sg & Hsg) & Hpos). rewrite Ep in Hpos. destruct Hpos as (p & Hp & Hpx & Hpy & Hpz).
          destruct HA as [Hw Hrot]. simpl in Hw, Hrot. subst w.
          assert (Hww : (if Rlt_dec (o_w m * o_w m) 0 then if negative_slip P then o_w m else o_w m else o_w m) = o_w m)
            by (destruct (Rlt_dec _ _), (negative_slip P); reflexivity).
          rewrite Hww in E.
          set (sl1 := predict _ _ _) in E.
          assert (H1 : kf_x sl1 = Fin 0 /\ exists sg', kf_sigma sl1 = Fin sg').
          { unfold sl1, predict. rewrite Hx, Hsg. cbn [ext_add kf_x kf_sigma]. split; [f_equal; ring|eauto]. }
          destruct (slip_measurement P (o_w m) (o_w m)) as [xi si] eqn:Em.
          assert (H2 : kf_x (measure sl1 xi si) = Fin 0 /\ exists sg', kf_sigma (measure sl1 xi si) = Fin sg').
          { destruct H1 as [H1 [sg' H1']]. unfold slip_measurement in Em.
            destruct (Rlt_dec (Rabs (o_w m)) (sigma_odom P)) as [L|L]; [injection Em as <- <-; simpl; eauto|].
            destruct (Req_EM_T (o_w m * o_w m - sigma_odom P * sigma_odom P) 0) as [Z0|Z0].
            - destruct (Req_EM_T (sigma_odom P) 0); [lra|]. injection Em as <- <-. simpl. eauto.
            - injection Em as <- <-.
              assert (Hw0 : o_w m <> 0).
              { intros H0. rewrite H0, Rabs_R0 in L. lra. }
              assert (Hsi : 0 < sigma_odom P * Rabs (2 * o_w m * sigma_odom P /
                              (o_w m * o_w m - sigma_odom P * sigma_odom P) ^ 2)).
              { apply Rmult_lt_0_compat; [exact Hs|]. apply Rabs_pos_lt. unfold Rdiv.
                apply Rmult_integral_contrapositive_currified.
                - repeat apply Rmult_integral_contrapositive_currified; lra.
                - apply Rinv_neq_0_compat. apply pow_nonzero. exact Z0. }
              unfold measure. rewrite H1, H1'. pose proof (Rgt_not_eq _ _ (den_pos sg' _ Hsi)) as HD.
              destruct (Req_EM_T _ _) as [Z1|Z1]; [elim HD; exact Z1|]. cbn [kf_x kf_sigma]. split; [|eauto]. f_equal.
              replace (o_w m - o_w m) with 0 by ring. unfold Rdiv at 1. unfold Rdiv. ring. }
          assert (H3 : (if Rlt_dec (sigma_odom P * 3) (Rabs (o_w m)) then o_w m / o_w m else 1) = 1).
          { destruct (Rlt_dec _ _) as [L|L]; [|reflexivity]. field. intros H0. rewrite H0, Rabs_R0 in L. lra. }
          rewrite H3, Hrot, Hp in E. destruct H2 as [H2 [sg2 H2']]. rewrite H2 in E.
          assert (HF : (if use_kf P then Some (1 - 0) else Some 1) = Some 1) by (destruct (use_kf P); f_equal; ring).
          rewrite HF in E. injection E as <- <-.
          destruct (Rlt_dec 0 (z_tc P)) as [L|L];
            (split; [split; [exact H2|split; [eauto|cbn [raw_prev pos_prev]; eexists; split; [reflexivity|]]]
                    |intros q1 [<-|[]]; eexists; split; [reflexivity|]]);
            simpl; rewrite Hpx, Hpy; (split; [ring|]; split; [ring|]); intros S;
            first [specialize (Hz S); lra | rewrite (Hpz S); ring].
        * injection E as <- <-. split; [exact HT|]. intros p [].
      + injection E as <- <-. destruct HT as (H1 & H2 & _). split.
        * split; [exact H1|]. split; [exact H2|]. cbn [raw_prev pos_prev]. eexists. split; [reflexivity|]. auto.
        * intros p [].
    - injection E as <- <-. split; [exact HT|reflexivity].
    - injection E as <- <-. split; [exact HT|reflexivity].
    - injection E as <- <-. split; [|reflexivity]. destruct HT as (H1 & H2 & H3). split; [exact H1|]. split; [exact H2|].
      cbn [raw_prev pos_prev]. destruct (raw_prev s) as [m|]; [|exact I]. destruct H3 as (p & -> & Hx & Hy & _).
      eexists. split; [reflexivity|]. simpl. repeat split; auto. intros S. elim (Hr S z). reflexivity.
  Qed.

  Lemma step_imu s e s' o : ostep s e = (s', o) ->
    imu s' = match e with EvImu v => v | _ => imu s end.
  Proof.
    destruct e as [m|v| |z]; simpl; intros E; try (injection E as <- _; reflexivity).
    destruct (raw_prev s); [|injection E as <- _; reflexivity].
    destruct (imu s) as [[w q]|] eqn:Ei; [|injection E as <- _; exact Ei].
    destruct (slip_measurement P _ _). injection E as <- _. first [exact Ei | reflexivity].
  Qed.

  Lemma run_tracks (strict : Prop) : forall es s, 0 < sigma_odom P ->
    (strict -> z_tc P <= 0) -> (strict -> no_z_reset es) -> tracks strict s -> sensors_agree (imu s) es ->
    forall m p, In (m, p) (published s es) ->
      exists q, p = Some q /\ v_x q = v_x (o_pos m) /\ v_y q = v_y (o_pos m) /\ (strict -> v_z q = v_z (o_pos m)).
  Proof.
    induction es as [|e es IH]; intros s Hs Hz Hr HT HA m p Hin; simpl in Hin; [destruct Hin|].
    destruct (ostep s e) as [s1 o] eqn:E.
    assert (Hr1 : strict -> forall z, e <> EvResetZ z) by (intros S z ->; apply (Hr S z); left; reflexivity).
    assert (HA1 : match e with EvOdom m => match imu s with Some i => agrees i m | None => True end | _ => True end).
    { destruct e; simpl in HA; try exact I. exact (proj1 HA). }
    destruct (step_tracks strict s e s1 o Hs Hz Hr1 HT HA1 E) as [HT1 HO].
    apply in_app_or in Hin. destruct Hin as [Hin|Hin].
    - destruct e as [m0|v| |z]; try (destruct Hin). apply in_map_iff in Hin. destruct Hin as (p0 & Ep & Hp0).
      injection Ep as <- <-. apply HO. exact Hp0.
    - apply (IH s1 Hs Hz) with (m := m) (p := p); auto.
      + intros S z Hz'. apply (Hr S z). right. exact Hz'.
      + rewrite (step_imu s e s1 o E). destruct e; simpl in HA; try exact HA. exact (proj2 HA).
  Qed.

  Lemma init_tracks strict : tracks strict (@oinit Q).
  Proof. split; [reflexivity|]. split; [eexists; reflexivity|exact I]. Qed.

  (** If IMU and wheel odometry agree, every published position equals the raw
      position of the same message in x and y, for every history: whatever IMU
      outages, duplicate or reordered stamps, height resets and filter settings. *)
  Theorem C45_agreeing_sensors_reproduce_raw_xy es m p : 0 < sigma_odom P -> sensors_agree None es ->
    In (m, p) (published oinit es) ->
    exists q, p = Some q /\ v_x q = v_x (o_pos m) /\ v_y q = v_y (o_pos m).
  Proof.
    intros Hs HA Hin. destruct (run_tracks False es oinit Hs) with (m := m) (p := p) as (q & H1 & H2 & H3 & _); auto;
      try (intros []). { apply init_tracks. } eauto.
  Qed.

  (** ... and in z, when the height filter is off and the height is not reset. *)
  Theorem C45_agreeing_sensors_reproduce_raw_xyz es m p : 0 < sigma_odom P -> z_tc P <= 0 -> no_z_reset es ->
    sensors_agree None es -> In (m, p) (published oinit es) -> p = Some (o_pos m).
  Proof.
    intros Hs Hz Hr HA Hin.
    destruct (run_tracks True es oinit Hs) with (m := m) (p := p) as (q & H1 & H2 & H3 & H4); auto.
    { apply init_tracks. }
    rewrite H1. f_equal. destruct q as [qx qy qz], (o_pos m) as [mx my mz]. simpl in *. rewrite H2, H3, (H4 I). reflexivity.
  Qed.

  (** Messages that arrive while IMU data is unavailable leave no trace: removing
      them from the history (except the very first message) changes nothing that is
      published before or after, so the next message carries their increments. *)
  Theorem C45_outage_messages_are_transparent es1 m es2 s1 o1 :
    orun oinit es1 = (s1, o1) -> raw_prev s1 <> None -> imu s1 = None ->
    orun oinit (es1 ++ EvOdom m :: es2) = orun oinit (es1 ++ es2).
  Proof.
    intros E Hp Hi.
    assert (A : forall es s t u, orun s es = (t, u) -> forall es', orun s (es ++ es') =
              let '(a, b) := orun t es' in (a, u ++ b)).
    { clear. induction es as [|e es IH]; intros s t u E es'; cbn [Odometry.orun app] in *.
      - injection E as <- <-. simpl. destruct (orun s es'); reflexivity.
      - destruct (ostep s e) as [s1 o1]. destruct (orun s1 es) as [s2 o2] eqn:E2. injection E as <- <-.
        rewrite (IH _ _ _ E2). destruct (orun s2 es') as [s3 o3]. rewrite app_assoc. reflexivity. }
    rewrite !(A _ _ _ _ E). cbn [Odometry.orun].
    assert (Hstep : ostep s1 (EvOdom m) = (s1, [])).
    { simpl. destruct (raw_prev s1); [|congruence]. rewrite Hi. reflexivity. }
    rewrite Hstep. destruct (orun s1 es2). reflexivity.
  Qed.

  (** *** Slip *)
  (** Without the filter, one odometry message moves the published position by the wheel
      displacement, turned into the IMU's frame and scaled: by the ratio of the two yaw
      rates when the wheels report a turn above three sigma, by one otherwise, and by one
      when the sensors report opposite turns and negative slip is not allowed. *)
  Theorem C45_unfiltered_slip s m prev p0 w q s' o : use_kf P = false -> z_tc P <= 0 ->
    raw_prev s = Some prev -> pos_prev s = Some p0 -> imu s = Some (w, q) ->
    ostep s (EvOdom m) = (s', o) ->
    exists k,
      o = [Some (vadd p0 (vscale k (rotate q (rotate (qinv (o_ori m)) (vsub (o_pos m) (o_pos prev))))))] /\
      (Rabs (o_w m) <= 3 * sigma_odom P -> k = 1) /\
      (3 * sigma_odom P < Rabs (o_w m) -> w * o_w m < 0 -> negative_slip P = false -> o_w m <> 0 -> k = 1) /\
      (3 * sigma_odom P < Rabs (o_w m) -> 0 <= w * o_w m \/ negative_slip P = true -> o_w m <> 0 -> k * o_w m = w).
  Proof.
    intros Hk Hz Hr Hp Hi E. simpl in E. rewrite Hr, Hp, Hi, Hk in E.
    destruct (slip_measurement P _ _) as [xi si].
    destruct (Rlt_dec 0 (z_tc P)) as [L|_]; [lra|]. injection E as _ <-.
    eexists. split; [reflexivity|].
    destruct (Rlt_dec (sigma_odom P * 3) (Rabs (o_w m))) as [L|L]; (split; [|split]); intros H; try lra; try reflexivity.
    - intros H1 H2 H3. destruct (Rlt_dec (w * o_w m) 0); [|lra]. rewrite H2. field. exact H3.
    - intros H1 H3. destruct (Rlt_dec (w * o_w m) 0) as [L'|L'].
      + destruct H1 as [H1|H1]; [lra|]. rewrite H1. field. exact H3.
      + field. exact H3.
  Qed.

  (** With the filter: the wheels over-read ([b = 1]) or under-read ([b = -1]) the yaw
      rate at every message used, and messages used follow one another within the
      filter's time constant.  [last] is the stamp of the last message used. *)
  Definition biased (b : R) (i : R * Q) (m : @odom Q) : Prop := 0 <= b * ((o_w m - fst i) * o_w m).
  Fixpoint biased_history (b : R) (cur : option (R * Q)) (last : option R) (es : list (@oevent Q)) : Prop :=
    match es with
    | [] => True
    | EvOdom m :: es' =>
        match last, cur with
        | None, _ => biased_history b cur (Some (o_stamp m)) es'
        | Some _, None => biased_history b cur last es'
        | Some t, Some i => biased b i m /\ t <= o_stamp m /\ (o_stamp m - t) * predict_tc P <= 1 /\
                            biased_history b cur (Some (o_stamp m)) es'
        end
    | EvImu v :: es' => biased_history b v last es'
    | _ :: es' => biased_history b cur last es'
    end.
  (** The slip estimate has the sign of the bias, and the filter is healthy. *)
  Definition signed_slip (b : R) (s : @ostate Q) : Prop :=
    exists x sg, slip s = mkKf (Fin x) (Fin sg) /\ 0 <= b * x /\ 0 <= sg.

  Lemma step_signed b s e s' o : 0 < sigma_odom P -> 0 <= sigma_predict P -> 0 <= predict_tc P ->
    signed_slip b s ->
    (match e with EvOdom m => match raw_prev s, imu s with
       | Some pr, Some i => biased b i m /\ o_stamp pr <= o_stamp m /\ (o_stamp m - o_stamp pr) * predict_tc P <= 1
       | _, _ => True end | _ => True end) ->
    ostep s e = (s', o) ->
    signed_slip b s' /\
    (use_kf P = true -> z_tc P <= 0 -> match e with EvOdom m => match raw_prev s, imu s, pos_prev s with
       | Some pr, Some (w, q), Some p0 => exists k, 0 <= b * (1 - k) /\
           o = [Some (vadd p0 (vscale k (rotate q (rotate (qinv (o_ori m)) (vsub (o_pos m) (o_pos pr))))))]
       | _, _, _ => True end | _ => True end).
  Proof.
    intros Hs Hsp Htc (x & sg & Hsl & Hx & Hsg) HB E.
    assert (KEEP : forall u, slip u = slip s -> signed_slip b u).
    { intros u Hu. exists x, sg. rewrite Hu. auto. }
    destruct e as [m|v| |z]; simpl in E; try (injection E as <- _; split; [apply KEEP; reflexivity|auto]).
    destruct (raw_prev s) as [prev|] eqn:Ep; [|injection E as <- _; split; [apply KEEP; reflexivity|auto]].
    destruct (imu s) as [[w q]|] eqn:Ei; [|injection E as <- _; split; [apply KEEP; reflexivity|auto]].
    destruct HB as (HB & Ht & Hdt). unfold biased in HB. cbn [fst] in HB.
    rewrite Hsl in E. cbn [kf_x] in E. unfold predict in E. cbn [kf_x kf_sigma ext_add] in E.
    set (w' := if Rlt_dec (w * o_w m) 0 then if negative_slip P then w else o_w m else w) in E.
    assert (HB' : 0 <= b * ((o_w m - w') * o_w m)).
    { unfold w'. destruct (Rlt_dec _ _); [destruct (negative_slip P)|]; try exact HB.
      replace (o_w m - o_w m) with 0 by ring. rewrite Rmult_0_l, Rmult_0_r. lra. }
    set (dt := o_stamp m - o_stamp prev) in *.
    assert (Hdt0 : 0 <= dt) by (unfold dt; lra).
    set (x1 := x + - x * dt * predict_tc P) in E. set (s1 := sg + dt * sigma_predict P) in E.
    assert (Hx1 : 0 <= b * x1).
    { unfold x1. replace (b * (x + - x * dt * predict_tc P)) with ((b * x) * (1 - dt * predict_tc P)) by ring.
      apply Rmult_le_pos; [exact Hx|lra]. }
    assert (Hs1 : 0 <= s1) by (unfold s1; pose proof (Rmult_le_pos _ _ Hdt0 Hsp); lra).
    clearbody x1 s1. clear Hdt.
    destruct (slip_measurement P (o_w m) w') as [xi si] eqn:Em.
    assert (H2 : exists x2 s2, measure (mkKf (Fin x1) (Fin s1)) xi si = mkKf (Fin x2) (Fin s2) /\ 0 <= b * x2 /\ 0 <= s2).
    { unfold slip_measurement in Em.
      destruct (Rlt_dec (Rabs (o_w m)) (sigma_odom P)) as [L|L]; [injection Em as <- <-; exists x1, s1; auto|].
      destruct (Req_EM_T (o_w m * o_w m - sigma_odom P * sigma_odom P) 0) as [Z0|Z0].
      - destruct (Req_EM_T (sigma_odom P) 0); [lra|]. injection Em as <- <-. exists x1, s1. auto.
      - injection Em as <- <-.
        assert (Hw0 : o_w m <> 0) by (intros H0; rewrite H0, Rabs_R0 in L; lra).
        set (d := (o_w m * o_w m - sigma_odom P * sigma_odom P)) in *.
        match goal with |- context [measure _ _ (Fin ?n0)] => set (n := n0) end.
        assert (Hsi : 0 < n).
        { unfold n. change (d * (d * 1)) with (d ^ 2). apply Rmult_lt_0_compat; [exact Hs|]. apply Rabs_pos_lt. unfold Rdiv.
          apply Rmult_integral_contrapositive_currified.
          - repeat apply Rmult_integral_contrapositive_currified; lra.
          - apply Rinv_neq_0_compat. apply pow_nonzero. exact Z0. }
        clearbody n. unfold measure. cbn [kf_x kf_sigma]. pose proof (Rgt_not_eq _ _ (den_pos s1 _ Hsi)) as HD.
        destruct (Req_EM_T _ _) as [Z1|Z1]; [elim HD; exact Z1|].
        pose proof (gain_bounds s1 n Hsi) as [G0 G1]. set (k := s1 * s1 / (s1 * s1 + n * n)) in *. clearbody k.
        eexists. eexists. split; [reflexivity|]. split.
        + assert (Hxi : 0 <= b * ((o_w m - w') / (o_w m * Rabs (o_w m)))).
          { assert (Ha : 0 < Rabs (o_w m)) by (apply Rabs_pos_lt; exact Hw0).
            replace (b * ((o_w m - w') / (o_w m * Rabs (o_w m))))
              with (b * ((o_w m - w') * o_w m) * / (o_w m * o_w m * Rabs (o_w m))) by (field; lra).
            apply Rmult_le_pos; [exact HB'|]. left. apply Rinv_0_lt_compat.
            apply Rmult_lt_0_compat; [|exact Ha]. apply (Rsqr_pos_lt _ Hw0). }
          set (y := (o_w m - w') / (o_w m * Rabs (o_w m))) in *. clearbody y.
          replace (b * (x1 + k * (y - x1))) with ((1 - k) * (b * x1) + k * (b * y)) by ring.
          assert (0 <= (1 - k) * (b * x1)) by (apply Rmult_le_pos; lra).
          assert (0 <= k * (b * y)) by (apply Rmult_le_pos; lra). lra.
        + apply Rmult_le_pos; lra. }
    destruct H2 as (x2 & s2 & H2 & Hx2 & Hs2). rewrite H2 in E. cbn [kf_x] in E. injection E as <- <-.
    split; [exists x2, s2; cbn [slip]; auto|].
    intros Hk Hz. rewrite Hk. destruct (pos_prev s) as [p0|]; [|exact I].
    exists (1 - x2). split; [replace (b * (1 - (1 - x2))) with (b * x2) by ring; exact Hx2|].
    destruct (Rlt_dec 0 (z_tc P)); [lra|]. reflexivity.
  Qed.

  Lemma step_last s e s' o : ostep s e = (s', o) ->
    option_map o_stamp (raw_prev s') =
      match e with
      | EvOdom m => match raw_prev s, imu s with
                    | None, _ => Some (o_stamp m)
                    | Some pr, None => Some (o_stamp pr)
                    | Some _, Some _ => Some (o_stamp m)
                    end
      | _ => option_map o_stamp (raw_prev s)
      end.
  Proof.
    destruct e as [m|v| |z]; simpl; intros E; try (injection E as <- _; reflexivity).
    destruct (raw_prev s) eqn:Ep; [|injection E as <- _; reflexivity].
    destruct (imu s) as [[w q]|] eqn:Ei; [|injection E as <- _; rewrite Ep; reflexivity].
    destruct (slip_measurement P _ _). injection E as <- _. reflexivity.
  Qed.

  (** Whatever the history of such messages, outages and resets, the published position
      never moves by more (over-reading wheels) or less (under-reading wheels) than the
      wheels report: the scale [k] of the next increment is at most (at least) one. *)
  Theorem C45_filtered_slip_has_the_sign_of_the_bias b es m s o s' o' pr w q p0 :
    0 < sigma_odom P -> 0 <= sigma_predict P -> 0 <= predict_tc P -> use_kf P = true -> z_tc P <= 0 ->
    biased_history b None None (es ++ [EvOdom m]) ->
    orun oinit es = (s, o) -> raw_prev s = Some pr -> imu s = Some (w, q) -> pos_prev s = Some p0 ->
    ostep s (EvOdom m) = (s', o') ->
    exists k, 0 <= b * (1 - k) /\
      o' = [Some (vadd p0 (vscale k (rotate q (rotate (qinv (o_ori m)) (vsub (o_pos m) (o_pos pr))))))].
  Proof.
    intros Hs Hsp Htc Hk Hz.
    assert (G : forall es s0 s o, signed_slip b s0 ->
              biased_history b (imu s0) (option_map o_stamp (raw_prev s0)) (es ++ [EvOdom m]) ->
              orun s0 es = (s, o) -> signed_slip b s /\
              biased_history b (imu s) (option_map o_stamp (raw_prev s)) [EvOdom m]).
    { clear es s o. induction es as [|e es IH]; intros s0 s o H0 HB E; cbn [Odometry.orun app] in *.
      - injection E as <- <-. auto.
      - destruct (ostep s0 e) as [s1 o1] eqn:E1. destruct (orun s1 es) as [s2 o2] eqn:E2. injection E as <- <-.
        pose proof (step_imu _ _ _ _ E1) as HI. pose proof (step_last _ _ _ _ E1) as HL.
        destruct (step_signed b s0 e s1 o1 Hs Hsp Htc H0) as [H1 _]; [|exact E1|].
        + destruct e as [m0|v| |z]; try exact I. cbn [biased_history] in HB.
          destruct (raw_prev s0) as [p|]; [|exact I]. destruct (imu s0) as [i|]; [|exact I].
          cbn [option_map] in HB. tauto.
        + refine (IH s1 s2 o2 H1 _ E2). rewrite HI, HL.
          destruct e as [m0|v| |z]; cbn [biased_history] in HB; try exact HB.
          destruct (raw_prev s0) as [p|]; cbn [option_map] in HB; [|exact HB].
          destruct (imu s0) as [i|]; [tauto|exact HB]. }
    intros HB E Hr Hi Hp E'.
    assert (H0 : signed_slip b (@oinit Q)).
    { exists 0, (1/10). split; [reflexivity|]. rewrite Rmult_0_r. lra. }
    destruct (G es oinit s o H0 HB E) as [H1 HB1]. clear G.
    destruct (step_signed b s (EvOdom m) s' o' Hs Hsp Htc H1) as [_ H2]; [|exact E'|].
    - cbn [biased_history] in HB1. rewrite Hr, Hi in *. cbn [option_map] in HB1. tauto.
    - specialize (H2 Hk Hz). cbn in H2. rewrite Hr, Hi, Hp in H2. exact H2.
  Qed.

  (** The slip filter inside the node meets the contract of C44 at every point of every
      history in which time does not run backwards: its uncertainty is never negative.
      (With [b = 0] every pair of readings is allowed.) *)
  Theorem C45_slip_filter_stays_healthy es s o :
    0 < sigma_odom P -> 0 <= sigma_predict P -> 0 <= predict_tc P ->
    biased_history 0 None None es -> orun oinit es = (s, o) -> healthy (slip s).
  Proof.
    set (b := 0). intros Hs Hsp Htc HB E.
    assert (G : forall es s0 s o, signed_slip b s0 ->
              biased_history b (imu s0) (option_map o_stamp (raw_prev s0)) es ->
              orun s0 es = (s, o) -> signed_slip b s).
    { clear - Hs Hsp Htc. intros es. induction es as [|e es IH]; intros s0 s o H0 HB E; cbn [Odometry.orun] in *.
      - injection E as <- <-. exact H0.
      - destruct (ostep s0 e) as [s1 o1] eqn:E1. destruct (orun s1 es) as [s2 o2] eqn:E2. injection E as <- <-.
        pose proof (step_imu _ _ _ _ E1) as HI. pose proof (step_last _ _ _ _ E1) as HL.
        destruct (step_signed b s0 e s1 o1 ltac:(assumption) ltac:(assumption) ltac:(assumption) H0) as [H1 _]; [|exact E1|].
        + destruct e as [m0|v| |z]; try exact I. cbn [biased_history] in HB.
          destruct (raw_prev s0) as [p|]; [|exact I]. destruct (imu s0) as [i|]; [|exact I].
          cbn [option_map] in HB. tauto.
        + refine (IH s1 s2 o2 H1 _ E2). rewrite HI, HL.
          destruct e as [m0|v| |z]; cbn [biased_history] in HB; try exact HB.
          destruct (raw_prev s0) as [p|]; cbn [option_map] in HB; [|exact HB].
          destruct (imu s0) as [i|]; [tauto|exact HB]. }
    assert (H0 : signed_slip b (@oinit Q)).
    { exists 0, (1/10). split; [reflexivity|]. rewrite Rmult_0_r. lra. }
    destruct (G es oinit s o H0 HB E) as (x & sg & -> & _ & Hsg).
    split; [eexists; reflexivity|right; eexists; split; [reflexivity|exact Hsg]].
  Qed.

  (** The height filter: with no vertical motion the height never grows for sampling
      periods up to twice the time constant ... *)
  Theorem C45_height_filter_contracts s m prev p0 s' o q :
    raw_prev s = Some prev -> pos_prev s = Some p0 -> 0 < z_tc P ->
    0 <= o_stamp m - o_stamp prev <= 2 * z_tc P ->
    (forall q d, v_z d = 0 -> v_z (rotate q d) = 0) -> v_z (o_pos m) = v_z (o_pos prev) ->
    ostep s (EvOdom m) = (s', o) -> In (Some q) o -> Rabs (v_z q) <= Rabs (v_z p0).
  Proof.
    intros Hr Hp Hz Hdt Hrot Hflat E Hin. simpl in E. rewrite Hr, Hp in E.
    destruct (imu s) as [[w qi]|]; [|injection E as _ <-; destruct Hin].
    destruct (slip_measurement P _ _) as [xi si]. injection E as _ <-. destruct Hin as [Hin|[]].
    destruct (if use_kf P then _ else _) as [k|]; [|discriminate].
    destruct (Rlt_dec 0 (z_tc P)); [|lra]. injection Hin as <-. cbn [v_z vadd vscale].
    assert (HV0 : v_z (vsub (o_pos m) (o_pos prev)) = 0) by (unfold vsub; simpl; rewrite Hflat; ring).
    rewrite (Hrot qi _ (Hrot (qinv (o_ori m)) _ HV0)).
    set (dt := o_stamp m - o_stamp prev) in *.
    assert (HB : Rabs (1 - dt / z_tc P) <= 1).
    { apply Rabs_le. assert (0 <= dt / z_tc P) by (apply Rmult_le_pos; [lra|left; apply Rinv_0_lt_compat; lra]).
      assert (dt / z_tc P <= 2) by (apply (Rmult_le_reg_r (z_tc P)); [lra|]; unfold Rdiv; rewrite Rmult_assoc, Rinv_l by lra; lra).
      lra. }
    rewrite Rmult_0_r, Rplus_0_r, Rabs_mult. rewrite <- (Rmult_1_r (Rabs (v_z p0))) at 2.
    apply Rmult_le_compat_l; [apply Rabs_pos|exact HB].
  Qed.
End P.

(** ... but a longer gap (an IMU outage, since the previous stamp is kept) amplifies
    it and flips its sign.  Finding. *)
Definition exP : params := mkParams false 1 (1/2) (5/1000) true 1.
Definition exrot (q : unit) (v : vec3) : vec3 := v.
Theorem C45_long_gap_amplifies_height_refuted :
  exists es m z, 0 < z_tc exP /\
    published exrot (fun q => q) exP oinit es = [(m, Some z)] /\ o_pos m = mkV 0 0 1 /\ v_z z = -4 /\
    sensors_agree exrot (fun q => q) None es.
Proof.
  exists [EvOdom (mkOdom 0 (mkV 0 0 1) tt 0); EvImu None; EvImu (Some (0, tt)); EvOdom (mkOdom 5 (mkV 0 0 1) tt 0)].
  eexists. eexists. split; [simpl; lra|]. split; [|split; [|split]].
  - cbn [published ostep oinit raw_prev imu o_stamp o_pos o_w o_ori map app pos_prev slip].
    unfold slip_measurement. cbn [sigma_odom exP]. rewrite Rabs_R0.
    destruct (Rlt_dec 0 (5/1000)); [|lra]. cbn [measure use_kf exP predict kf_x ext_add z_tc].
    destruct (Rlt_dec 0 1); [|lra]. reflexivity.
  - reflexivity.
  - cbn [v_z vadd vscale vsub exrot]. unfold exrot. simpl. lra.
  - simpl. unfold agrees. simpl. auto.
Qed.

(** Finding: with a zero [sigma_odom] parameter a standstill message makes every
    later position not-a-number. *)
Definition exP0 : params := mkParams false 1 (1/2) 0 true 0.
Theorem C45_zero_sigma_loses_position_refuted :
  exists es, sensors_agree exrot (fun q => q) None es /\
    published exrot (fun q => q) exP0 oinit es = [(mkOdom 1 (mkV 0 0 0) tt 0, None)].
Proof.
  exists [EvImu (Some (0, tt)); EvOdom (mkOdom 0 (mkV 0 0 0) tt 0); EvOdom (mkOdom 1 (mkV 0 0 0) tt 0)].
  split; [simpl; unfold agrees; simpl; auto|].
  cbn [published ostep oinit raw_prev imu o_stamp o_pos o_w o_ori map app pos_prev slip].
  unfold slip_measurement. cbn [sigma_odom exP0]. rewrite Rabs_R0. destruct (Rlt_dec 0 0); [lra|].
  destruct (Req_EM_T (0 * 0 - 0 * 0) 0); [|lra]. destruct (Req_EM_T 0 0); [|lra]. reflexivity.
Qed.

(** The hypotheses of the first two theorems are met by a history with an outage. *)
Definition ex_hist : list (@oevent unit) :=
  [EvOdom (mkOdom 0 (mkV 1 2 0) tt 1); EvOdom (mkOdom 1 (mkV 2 2 0) tt 1); EvImu (Some (1, tt));
   EvOdom (mkOdom 2 (mkV 3 3 0) tt 1); EvImu None; EvOdom (mkOdom 3 (mkV 4 5 0) tt 7); EvImu (Some (2, tt));
   EvOdom (mkOdom 4 (mkV 5 5 0) tt 2)].
Example C45_ex_agree : sensors_agree exrot (fun q => q) None ex_hist.
Proof. simpl. unfold agrees, exrot. simpl. auto 10. Qed.
Example C45_ex_published : map fst (published exrot (fun q => q) exP oinit ex_hist) =
  [mkOdom 2 (mkV 3 3 0) tt 1; mkOdom 4 (mkV 5 5 0) tt 2].
Proof.
  unfold ex_hist. cbn [published ostep oinit raw_prev imu].
  repeat match goal with |- context [slip_measurement ?P ?a ?b] => destruct (slip_measurement P a b) end. reflexivity.
Qed.

Print Assumptions C45_agreeing_sensors_reproduce_raw_xy.
(** A history with over-reading wheels: 2 rad/s against 1, then standing still, then -2
    against -1. *)
Definition ex_slip : list (@oevent unit) :=
  [EvImu (Some (1, tt)); EvOdom (mkOdom 0 (mkV 0 0 0) tt 2); EvOdom (mkOdom (1/2) (mkV 1 0 0) tt 2);
   EvImu None; EvOdom (mkOdom (3/4) (mkV 1 0 0) tt 2); EvImu (Some (-1, tt)); EvOdom (mkOdom 1 (mkV 1 1 0) tt (-2))].
Example C45_ex_biased : biased_history exP 1 None None ex_slip.
Proof. cbn. unfold biased. cbn. lra. Qed.

Print Assumptions C45_unfiltered_slip.
Print Assumptions C45_filtered_slip_has_the_sign_of_the_bias.
Print Assumptions C45_slip_filter_stays_healthy.
Print Assumptions C45_agreeing_sensors_reproduce_raw_xyz.
Print Assumptions C45_outage_messages_are_transparent.
Print Assumptions C45_height_filter_contracts.
Print Assumptions C45_long_gap_amplifies_height_refuted.
Print Assumptions C45_zero_sigma_loses_position_refuted.
