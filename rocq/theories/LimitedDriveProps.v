(** C92: driving straight ahead behind the limiter, the robot does not run into what its sensors see. *)
From Coq Require Import Reals List Lra Lia.
From Verif Require Import Common Polygon PolygonProps SafetyPredict SafetyPredictProps SafetyCollide SafetyCollideProps LimitedDrive.
Import ListNotations.
Local Open Scope R_scope.

(** The robot, [s] down the road, touches no obstacle in its height range: none is in the rectangle of its footprint. *)
Definition untouched (x0 x1 y0 y1 z0 z1 : R) (world : list pt3) (s : R) : Prop :=
  forall p, In p world -> z0 <= pz p <= z1 -> ~ (x0 <= px p - s < x1 /\ y0 <= py p < y1).
(** A command within the configured maximum whose prediction steps are shorter than the robot; the next prediction comes
    in time, a millionth before the reaction time at the latest. *)
Definition proper (c : pcfg) (x0 x1 : R) (g : stage) : Prop :=
  0 < g_cmd g <= p_vel_v c /\ g_cmd g * p_dt c < x1 - x0 /\ 0 <= g_held g <= 1 /\ 0 <= g_ease g <= 1 /\
  0 <= g_time g <= (1 - / 1000000) * reaction c.

Section Safe.
  Variables (c : pcfg) (x0 x1 y0 y1 z0 z1 : R) (fp : list vec2) (world : list pt3).
  Hypothesis Hc : good_pcfg c.
  Hypothesis Hre : reaction c + p_dt c <= p_vel_v c / p_acc_v c.
  Hypothesis X : x0 < x1.
  Hypothesis Y : y0 < y1.
  Hypothesis F : polygon_of [V2 x0 y0; V2 x1 y0; V2 x1 y1; V2 x0 y1] = Some fp.
  Notation untouched := (untouched x0 x1 y0 y1 z0 z1 world).
  Notation stage_ := (drive_stage c z0 z1 fp world).

  Lemma nothing_now v s : untouched s -> collides_at v 0 0 (p_dt c) fp (prepared z0 z1 (fun l => l) (view world s)) 0 = Ok false.
  Proof.
    intros U. destruct (C67_a_pose_collides_iff_a_point_is_in_the_footprint v 0 0 (p_dt c) z0 z1 (fun l => l) _ fp (view world s) 0 F) as (b & -> & Hb).
    f_equal. destruct b; [|reflexivity]. exfalso. destruct (proj1 Hb eq_refl) as (q & Hq & Zq & Iq & _). cbv zeta in Iq.
    rewrite seen_straight in Iq. cbn [vx vy INR] in Iq. unfold view in Hq. apply in_map_iff in Hq as (p & <- & Hp). cbn [px py pz] in *.
    destruct (C32_rectangle_is_exact x0 x1 y0 y1 fp (V2 (px p - s - 0 * (v * p_dt c)) (py p)) X Y F) as (b & E & Hb'). rewrite E in Iq. injection Iq as ->.
    apply (U p Hp Zq). cbn [vx vy] in Hb'. pose proof (proj1 Hb' eq_refl). lra.
  Qed.

  Lemma stage_safe s g : proper c x0 x1 g -> untouched s ->
    s <= stage_ s g /\ forall p, In p world -> z0 <= pz p <= z1 -> y0 <= py p < y1 -> x1 <= px p - s -> x1 <= px p - stage_ s g.
  Proof.
    intros (Hv & St & Hh & He & Ht) U. unfold drive_stage. set (pr := predict_cloud _ _ _ _ _ _ _ _ _ _).
    set (r := if Rlt_dec pr (g_held g) then pr else g_held g).
    assert (P0 : 0 <= pr). { unfold pr, predict_cloud. apply C33_predicted_ratio_is_nonnegative; [exact Hc|apply sqrt_pos]. }
    assert (Hr : 0 <= r <= pr /\ r <= 1) by (unfold r; destruct (Rlt_dec pr (g_held g)); lra).
    assert (E0 : eps = / 1000000) by reflexivity. rewrite <- E0 in Ht. assert (E1 : 0 < eps < 1) by lra. set (v := g_cmd g) in *.
    assert (Rv : 0 <= r * v) by (apply Rmult_le_pos; lra).
    assert (L0 : 0 <= limited r v) by (unfold limited; destruct (Rlt_dec r (1 - eps)); lra).
    assert (R0 : 0 < reaction c) by (rewrite reaction_delay; apply delay_pos; exact Hc).
    (* the robot does not get further than with the limit for the reaction time *)
    assert (Lt : limited r v * g_time g <= r * v * reaction c).
    { unfold limited. destruct (Rlt_dec r (1 - eps)) as [L|L].
      - rewrite (Rmult_comm v r). apply Rmult_le_compat_l; [exact Rv|]. assert (0 <= eps * reaction c) by (apply Rmult_le_pos; lra). lra.
      - apply Rle_trans with (v * ((1 - eps) * reaction c)); [apply Rmult_le_compat_l; lra|].
        replace (r * v * reaction c) with (v * (r * reaction c)) by ring. apply Rmult_le_compat_l; [lra|]. apply Rmult_le_compat_r; lra. }
    assert (Lt0 : 0 <= limited r v * g_time g) by (apply Rmult_le_pos; lra).
    assert (Le : 0 <= g_ease g * limited r v * g_time g <= limited r v * g_time g).
    { rewrite Rmult_assoc. split; [apply Rmult_le_pos; lra|]. rewrite <- (Rmult_1_l (limited r v * g_time g)) at 2. apply Rmult_le_compat_r; lra. }
    split; [lra|]. intros p Hp Zp B Q.
    destruct (C67_straight_drive_stops_before_the_obstacle c x0 x1 y0 y1 fp v z0 z1 (fun l => l) (view world s) (Pt3 (px p - s) (py p) (pz p)) r) as [Z|Z];
      try assumption; try (cbn [px py pz]; lra).
    - unfold view. apply in_map_iff. exists p. split; [reflexivity|exact Hp].
    - apply nothing_now. exact U.
    - exact (proj1 Hr).
    - rewrite Z in Lt. lra.
    - cbn [px] in Z. unfold stopping_distance in Z. destruct Hc as (_ & _ & Hav & _).
      assert (0 <= r * v * (r * v) / (2 * p_acc_v c)) by (apply Rmult_le_pos; [apply Rmult_le_pos; lra|left; apply Rinv_0_lt_compat; lra]). lra.
  Qed.

  Lemma stage_untouched s g : proper c x0 x1 g -> untouched s -> untouched (stage_ s g).
  Proof.
    intros Hg U p Hp Zp [A B]. destruct (stage_safe s g Hg U) as [L S]. pose proof (U p Hp Zp) as N.
    destruct (Rlt_le_dec (px p - s) x1) as [Q|Q]; [apply N; lra|]. specialize (S p Hp Zp B Q). lra.
  Qed.

  (** Whatever is commanded, whatever limits are held and whenever the predictions are made, as long as they are made in
      time. *)
  Theorem C92_does_not_run_into_obstacles gs : untouched 0 -> Forall (proper c x0 x1) gs -> untouched (drive_on c z0 z1 fp world gs).
  Proof.
    intros U G. unfold drive_on. revert U. generalize 0. induction G as [|g gs Hg G IH]; intros s U; [exact U|]. cbn [fold_left].
    apply IH. apply stage_untouched; assumption.
  Qed.
  (** It does not get behind an obstacle in its way, either. *)
  Theorem C92_obstacles_ahead_stay_ahead gs p : untouched 0 -> Forall (proper c x0 x1) gs ->
    In p world -> z0 <= pz p <= z1 -> y0 <= py p < y1 -> x1 <= px p -> x1 <= px p - drive_on c z0 z1 fp world gs.
  Proof.
    intros U G Hp Zp B Q. assert (Q' : x1 <= px p - 0) by lra. clear Q. unfold drive_on. revert U Q'. generalize 0.
    induction G as [|g gs Hg G IH]; intros s U Q; [exact Q|]. cbn [fold_left]. apply IH; [apply stage_untouched; assumption|].
    apply (stage_safe s g Hg U); assumption.
  Qed.
  (** Not within a stage, either. *)
  Theorem C92_not_on_the_way_either gs g t : untouched 0 -> Forall (proper c x0 x1) gs -> proper c x0 x1 g -> 0 <= t <= g_time g ->
    untouched (drive_on c z0 z1 fp world (gs ++ [Stage (g_cmd g) (g_held g) (g_ease g) t])).
  Proof.
    intros U G Hg Ht. apply C92_does_not_run_into_obstacles; [exact U|]. apply Forall_app. split; [exact G|]. constructor; [|constructor].
    destruct Hg as (H1 & H2 & H3 & H4 & H5). repeat split; cbn [g_cmd g_held g_ease g_time]; lra.
  Qed.
End Safe.

(** A robot of 1 m by 0.5 m, 2.5 m before a wall. *)
Definition ex_world : list pt3 := [Pt3 3 0 0; Pt3 3 (1/4) 0].
Definition ex_fp : list vec2 := [V2 (-1/2) (-1/4); V2 (1/2) (-1/4); V2 (1/2) (1/4); V2 (-1/2) (1/4); V2 (-1/2) (-1/4)].
Lemma ex_free : predict_cloud (1/2) 0 0 (p_dt ex_p) (-1) 1 (fun l => l) ex_fp ex_p (view ex_world 0) = 1.
Proof.
  unfold predict_cloud. set (pts := prepared (-1) 1 (fun l => l) (view ex_world 0)).
  assert (N : pts <> []).
  { assert (I : In (V2 (3 - 0) 0) pts). { unfold pts, prepared. apply in_map_iff. exists (Pt3 (3 - 0) 0 0). split; [reflexivity|]. apply filter_In. split; [left; reflexivity|].
      unfold in_height, Rltb. cbn [pz]. destruct (Rlt_dec 0 (-1)); [lra|]. destruct (Rlt_dec 1 0); [lra|reflexivity]. }
    intros E. rewrite E in I. destruct I. }
  set (col := fun k => match collides_at (1/2) 0 0 (p_dt ex_p) ex_fp pts k with Ok b => b | UB => false end).
  assert (E : predict ex_p (sqrt (1/2 * (1/2) + 0 * 0)) 0 (CloudPoints col) = 1).
  { apply C36_free_motion_is_not_limited; [exact ex_p_good|apply sqrt_pos|]. intros j Hj. apply n_steps_spec in Hj; [|unfold ex_p; cbn; lra].
    rewrite ex_tmax in Hj. unfold col.
    destruct (C67_a_pose_collides_iff_a_point_is_in_the_footprint (1/2) 0 0 (p_dt ex_p) (-1) 1 (fun l => l) [V2 (-1/2) (-1/4); V2 (1/2) (-1/4); V2 (1/2) (1/4); V2 (-1/2) (1/4)] ex_fp (view ex_world 0) j eq_refl) as (b & Eb & Hb).
    fold pts in Eb. rewrite Eb. destruct b; [exfalso|reflexivity]. destruct (proj1 Hb eq_refl) as (q & Hq & _ & Iq & _). cbv zeta in Iq. rewrite seen_straight in Iq.
    destruct (C32_rectangle_is_exact (-1/2) (1/2) (-1/4) (1/4) ex_fp (V2 (vx (V2 (px q) (py q)) - INR j * (1/2 * p_dt ex_p)) (vy (V2 (px q) (py q)))) ltac:(lra) ltac:(lra) eq_refl) as (b & E & Hb').
    rewrite E in Iq. injection Iq as ->. pose proof (proj1 Hb' eq_refl) as [H1 _]. cbn [vx vy] in H1.
    assert (Q : px q = 3 - 0) by (destruct Hq as [<-|[<-|[]]]; reflexivity). rewrite Q in H1. lra. }
  destruct pts; [exfalso; apply N; reflexivity|exact E].
Qed.
Lemma ex_stage t : drive_on ex_p (-1) 1 ex_fp ex_world [Stage (1/2) 1 1 t] = t / 2.
Proof.
  unfold drive_on. cbn [fold_left]. unfold drive_stage. cbn [g_cmd g_held g_ease g_time]. rewrite ex_free. destruct (Rlt_dec 1 1); [lra|].
  unfold limited, eps. destruct (Rlt_dec 1 (1 - / 1000000)); lra.
Qed.
Lemma ex_untouched : untouched (-1/2) (1/2) (-1/4) (1/4) (-1) 1 ex_world 0.
Proof. intros p [<-|[<-|[]]] _; cbn [px py]; lra. Qed.
(** It drives on, and stops before the wall however often. *)
Example C92_case : drive_on ex_p (-1) 1 ex_fp ex_world [Stage (1/2) 1 1 (1/10)] = 1/20 /\
  forall n, 1/2 <= 3 - drive_on ex_p (-1) 1 ex_fp ex_world (repeat (Stage (1/2) 1 1 (1/10)) n).
Proof.
  split; [rewrite ex_stage; lra|]. intros n.
  apply (C92_obstacles_ahead_stay_ahead ex_p (-1/2) (1/2) (-1/4) (1/4) (-1) 1 ex_fp ex_world) with (p := Pt3 3 0 0); try (cbn [px py pz]; lra).
  - exact ex_p_good.
  - unfold reaction, ex_p. cbn. lra.
  - reflexivity.
  - exact ex_untouched.
  - apply Forall_forall. intros x Hx. apply repeat_spec in Hx. subst x. unfold proper, reaction, eps, ex_p. cbn. lra.
  - left. reflexivity.
Qed.

(** The bound on the time between predictions is needed: the limiter does not stop the robot for want of a new prediction. *)
Theorem C92_late_predictions_refuted : exists t, ~ untouched (-1/2) (1/2) (-1/4) (1/4) (-1) 1 ex_world (drive_on ex_p (-1) 1 ex_fp ex_world [Stage (1/2) 1 1 t]).
Proof.
  exists 6. rewrite ex_stage. intros U. apply (U (Pt3 3 0 0)); [left; reflexivity| |]; cbn [px py pz]; lra.
Qed.

Print Assumptions C92_does_not_run_into_obstacles.
Print Assumptions C92_obstacles_ahead_stay_ahead.
Print Assumptions C92_not_on_the_way_either.
Print Assumptions C92_late_predictions_refuted.
