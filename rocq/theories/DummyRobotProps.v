(** C75: the odometry of the simulated robot. *)
From Coq Require Import List Reals Lra Lia ZArith.
From Verif Require Import DummyRobot.
Import ListNotations.
Local Open Scope R_scope.

(** ** Specification *)

(** The velocity in force after the history [h]: the last command heard, or
    rest when nothing was heard or a new pose was set since. *)
Fixpoint in_force (cur : R * R) (h : list event) : R * R :=
  match h with
  | [] => cur
  | Twist v w :: h' => in_force (v, w) h'
  | Init (Some _) :: h' => in_force (0, 0) h'
  | Init None :: h' => in_force cur h'
  | Tick :: h' => in_force cur h'
  end.

(** The robot was put nowhere else during [h]. *)
Definition undisturbed (h : list event) : Prop :=
  forall e, In e h -> match e with Init (Some _) => False | _ => True end.

Fixpoint total (l : list R) : R := match l with [] => 0 | x :: l' => x + total l' end.

Definition distance (p q : odom) : R :=
  sqrt ((ox p - ox q) * (ox p - ox q) + (oy p - oy q) * (oy p - oy q)).

(** A point on wheels that moves at speed [v] while turning at rate [w] for
    the time [t]: the exact motion along the arc (or the line). *)
Definition arc (p : R * R * R) (v w t : R) : R * R * R :=
  let '(x, y, a) := p in
  if Req_EM_T w 0 then (x + v * t * cos a, y + v * t * sin a, a)
  else (x + v / w * (sin (a + w * t) - sin a), y - v / w * (cos (a + w * t) - cos a), a + w * t).

(** The ideal robot that follows the reported velocities one after the other. *)
Fixpoint ideal (p : R * R * R) (l : list odom) : R * R * R :=
  match l with [] => p | o :: l' => ideal (arc p (ov o) (ow o) dt) l' end.

(** ** Proofs *)

Lemma run_app s l1 l2 :
  run s (l1 ++ l2) =
  (fst (run (fst (run s l1)) l2), snd (run s l1) ++ snd (run (fst (run s l1)) l2)).
Proof.
  revert s; induction l1 as [|e l1 IH]; intros s; cbn [run app fst snd].
  - destruct (run s l2); reflexivity.
  - destruct (step s e) as [s1 o1] eqn:E. rewrite IH.
    destruct (run s1 l1) as [s2 o2]; cbn [fst snd].
    rewrite app_assoc. reflexivity.
Qed.

Lemma force_run s h :
  (rv (fst (run s h)), rw (fst (run s h))) = in_force (rv s, rw s) h.
Proof.
  revert s; induction h as [|e h IH]; intros s; cbn [run in_force]; [reflexivity|].
  destruct (step s e) as [s1 o1] eqn:E. specialize (IH s1).
  destruct (run s1 h) as [s2 o2]; cbn [fst] in *.
  destruct e as [v w|[[[x y] a]|]|]; cbn [step] in E;
    injection E as <- <-; exact IH.
Qed.

(** Each publication reports the velocity in force, at the pose reached by
    moving with this velocity for one cycle from where the robot was. *)
Theorem C75_each_report_is_of_one_cycle_of_the_command_in_force : forall x0 y0 a0 h,
  let s := fst (run (start x0 y0 a0) h) in
  exists o, snd (run (start x0 y0 a0) (h ++ [Tick])) = snd (run (start x0 y0 a0) h) ++ [o] /\
    (ov o, ow o) = in_force (0, 0) h /\
    oyaw o = ryaw s + ow o / 100 /\
    ox o = rx s + ov o / 100 * cos (oyaw o) /\
    oy o = ry s + ov o / 100 * sin (oyaw o).
Proof.
  intros x0 y0 a0 h s. exists (odom_of (tick s)). split; [|split; [|split; [|split]]].
  - rewrite run_app. reflexivity.
  - change (0, 0) with (rv (start x0 y0 a0), rw (start x0 y0 a0)). rewrite <- force_run. reflexivity.
  - unfold odom_of, tick, dt; cbn [oyaw ow ryaw rw]. lra.
  - unfold odom_of, tick, dt; cbn [ox oyaw ov rx ryaw rv]. lra.
  - unfold odom_of, tick, dt; cbn [oy oyaw ov ry ryaw rv]. lra.
Qed.

(** A new pose is taken exactly and the robot rests there. *)
Theorem C75_set_pose_is_reported_and_kept : forall s x y a k,
  Forall (fun o => o = Odom x y a 0 0) (snd (run s (Init (Some (x, y, a)) :: repeat Tick k))) /\
  length (snd (run s (Init (Some (x, y, a)) :: repeat Tick k))) = k.
Proof.
  intros s x y a k. cbn [run step].
  assert (H : run (Robot x y a 0 0) (repeat Tick k) = (Robot x y a 0 0, repeat (Odom x y a 0 0) k)).
  { induction k as [|k IH]; [reflexivity|]. cbn [repeat run step].
    replace (tick (Robot x y a 0 0)) with (Robot x y a 0 0).
    - rewrite IH. reflexivity.
    - unfold tick; cbn [rx ry ryaw rv rw]. f_equal; ring. }
  rewrite H. cbn [snd app]. split.
  - apply Forall_forall. intros o Ho. apply repeat_spec in Ho. exact Ho.
  - apply repeat_length.
Qed.

(** A pose in a frame that cannot be transformed changes nothing. *)
Theorem C75_unknown_frame_changes_nothing : forall s h1 h2,
  run s (h1 ++ Init None :: h2) = run s (h1 ++ h2).
Proof.
  intros. rewrite !run_app. cbn [run step].
  destruct (run (fst (run s h1)) h2); reflexivity.
Qed.

Lemma undisturbed_tl e h : undisturbed (e :: h) -> undisturbed h.
Proof. intros H e' He'. apply (H e'). right; exact He'. Qed.

Lemma heading_sum s h : undisturbed h ->
  ryaw (fst (run s h)) = ryaw s + dt * total (map ow (snd (run s h))).
Proof.
  revert s; induction h as [|e h IH]; intros s U; cbn [run]; [cbn; ring|].
  destruct (step s e) as [s1 o1] eqn:E. specialize (IH s1 (undisturbed_tl _ _ U)).
  destruct (run s1 h) as [s2 o2]; cbn [fst snd] in *.
  destruct e as [v w|[[[x y] a]|]|]; cbn [step] in E.
  - injection E as <- <-. exact IH.
  - destruct (U _ (or_introl eq_refl)).
  - injection E as <- <-. exact IH.
  - injection E as <- <-. rewrite IH. cbn [app map total].
    unfold tick, odom_of; cbn [ryaw ow rw]. ring.
Qed.

(** The heading is where it was, turned by the sum of the reported rates. *)
Theorem C75_heading_is_the_sum_of_the_reported_turns : forall s h,
  undisturbed h ->
  ryaw (fst (run s h)) = ryaw s + / 100 * total (map ow (snd (run s h))).
Proof. exact heading_sum. Qed.

Lemma pose_sum s h : undisturbed h ->
  rx (fst (run s h)) = rx s + dt * total (map (fun o => ov o * cos (oyaw o)) (snd (run s h))) /\
  ry (fst (run s h)) = ry s + dt * total (map (fun o => ov o * sin (oyaw o)) (snd (run s h))).
Proof.
  revert s; induction h as [|e h IH]; intros s U; cbn [run]; [cbn; split; ring|].
  destruct (step s e) as [s1 o1] eqn:E. specialize (IH s1 (undisturbed_tl _ _ U)).
  destruct (run s1 h) as [s2 o2]; cbn [fst snd] in *.
  destruct e as [v w|[[[x y] a]|]|]; cbn [step] in E.
  - injection E as <- <-. exact IH.
  - destruct (U _ (or_introl eq_refl)).
  - injection E as <- <-. exact IH.
  - injection E as <- <-. destruct IH as [-> ->]. cbn [app map total].
    unfold tick, odom_of; cbn [rx ry ryaw rv rw ox oy oyaw ov]. split; ring.
Qed.

Theorem C75_position_is_the_sum_of_the_reported_moves : forall s h,
  undisturbed h ->
  rx (fst (run s h)) = rx s + / 100 * total (map (fun o => ov o * cos (oyaw o)) (snd (run s h))) /\
  ry (fst (run s h)) = ry s + / 100 * total (map (fun o => ov o * sin (oyaw o)) (snd (run s h))).
Proof. exact pose_sum. Qed.

Lemma norm_triangle a b c d :
  sqrt ((a + c) * (a + c) + (b + d) * (b + d)) <= sqrt (a * a + b * b) + sqrt (c * c + d * d).
Proof.
  assert (P : forall u v, 0 <= u * u + v * v) by (intros; nra).
  apply Rsqr_incr_0_var.
  - rewrite Rsqr_plus. rewrite !Rsqr_sqrt by apply P.
    assert (H : a * c + b * d <= sqrt (a * a + b * b) * sqrt (c * c + d * d)).
    { rewrite <- sqrt_mult by apply P.
      destruct (Rle_dec 0 (a * c + b * d)) as [H|H].
      - rewrite <- (sqrt_square _ H). apply sqrt_le_1_alt.
        assert (0 <= (a * d - b * c) * (a * d - b * c)) by apply Rle_0_sqr. nra.
      - apply Rle_trans with 0; [lra|apply sqrt_pos]. }
    lra.
  - assert (0 <= sqrt (a * a + b * b)) by apply sqrt_pos.
    assert (0 <= sqrt (c * c + d * d)) by apply sqrt_pos. lra.
Qed.

Lemma unit_move v a : sqrt ((v * cos a) * (v * cos a) + (v * sin a) * (v * sin a)) = Rabs v.
Proof.
  replace ((v * cos a) * (v * cos a) + (v * sin a) * (v * sin a)) with (Rsqr v).
  - apply sqrt_Rsqr_abs.
  - assert (H := sin2_cos2 a). unfold Rsqr in *. nra.
Qed.

Lemma moved_le (l : list odom) :
  sqrt (total (map (fun o => ov o * cos (oyaw o)) l) * total (map (fun o => ov o * cos (oyaw o)) l) +
        total (map (fun o => ov o * sin (oyaw o)) l) * total (map (fun o => ov o * sin (oyaw o)) l))
  <= total (map (fun o => Rabs (ov o)) l).
Proof.
  induction l as [|o l IH]; cbn [map total].
  - replace (0 * 0 + 0 * 0) with 0 by ring. rewrite sqrt_0. lra.
  - eapply Rle_trans; [apply norm_triangle|]. rewrite unit_move. lra.
Qed.

(** The robot is never further from where it was than the reported speeds
    account for. *)
Theorem C75_never_further_than_the_reported_speeds : forall s h,
  undisturbed h ->
  distance (odom_of (fst (run s h))) (odom_of s)
  <= / 100 * total (map (fun o => Rabs (ov o)) (snd (run s h))).
Proof.
  intros s h U. unfold distance, odom_of; cbn [ox oy].
  destruct (pose_sum s h U) as [-> ->].
  set (X := total (map (fun o => ov o * cos (oyaw o)) _)).
  set (Y := total (map (fun o => ov o * sin (oyaw o)) _)).
  replace ((rx s + dt * X - rx s) * (rx s + dt * X - rx s) + (ry s + dt * Y - ry s) * (ry s + dt * Y - ry s))
    with ((dt * dt) * (X * X + Y * Y)) by ring.
  rewrite sqrt_mult by (try (unfold dt; lra); nra).
  rewrite sqrt_square by (unfold dt; lra).
  apply Rmult_le_compat_l; [unfold dt; lra|]. apply moved_le.
Qed.

Lemma reported_bound s h V :
  Rabs (rv s) <= V -> (forall v w, In (Twist v w) h -> Rabs v <= V) ->
  total (map (fun o => Rabs (ov o)) (snd (run s h))) <= INR (length (snd (run s h))) * V.
Proof.
  revert s; induction h as [|e h IH]; intros s B T; cbn [run]; [cbn; lra|].
  destruct (step s e) as [s1 o1] eqn:E.
  assert (B1 : Rabs (rv s1) <= V /\ total (map (fun o => Rabs (ov o)) o1) <= INR (length o1) * V).
  { destruct e as [v w|[[[x y] a]|]|]; cbn [step] in E; injection E as <- <-;
      cbn [map total length INR rv tick odom_of ov].
    - split; [apply (T v w); left; reflexivity|lra].
    - split; [|lra]. rewrite Rabs_R0. apply Rle_trans with (2 := B), Rabs_pos.
    - split; [exact B|lra].
    - split; [exact B|]. unfold tick; cbn [rv]. lra. }
  destruct B1 as [B1 L1]. specialize (IH s1 B1 (fun v w H => T v w (or_intror H))).
  destruct (run s1 h) as [s2 o2]; cbn [fst snd] in *.
  rewrite app_length, plus_INR, map_app.
  assert (A : forall a b, total (a ++ b) = total a + total b).
  { clear. induction a as [|x a IHa]; intros b; cbn [app total]; [ring|rewrite IHa; ring]. }
  rewrite A. lra.
Qed.

(** Commands within a speed limit: the distance between two reports is
    within the limit times the time between them. *)
Theorem C75_speed_limit_is_kept : forall x0 y0 a0 h1 h2 V,
  (forall v w, In (Twist v w) (h1 ++ h2) -> Rabs v <= V) -> 0 <= V -> undisturbed h2 ->
  let s1 := fst (run (start x0 y0 a0) h1) in
  distance (odom_of (fst (run s1 h2))) (odom_of s1)
  <= V * (INR (length (snd (run s1 h2))) / 100).
Proof.
  intros x0 y0 a0 h1 h2 V T V0 U s1.
  eapply Rle_trans; [apply C75_never_further_than_the_reported_speeds, U|].
  assert (B : Rabs (rv s1) <= V).
  { assert (F := force_run (start x0 y0 a0) h1). fold s1 in F.
    assert (G : forall c h, Rabs (fst c) <= V -> (forall v w, In (Twist v w) h -> Rabs v <= V) ->
       Rabs (fst (in_force c h)) <= V).
    { clear - V0. intros c h; revert c. induction h as [|e h IH]; intros c C T; cbn [in_force]; [exact C|].
      destruct e as [v w|[p|]|]; apply IH;
        try (intros v' w' Hi; apply (T v' w'); right; exact Hi); try exact C.
      - cbn [fst]. apply (T v w). left; reflexivity.
      - cbn [fst]. rewrite Rabs_R0. exact V0. }
    change (rv s1) with (fst (rv s1, rw s1)). rewrite F. apply G.
    - unfold start; cbn [fst rv]. rewrite Rabs_R0. exact V0.
    - intros v w Hi. apply (T v w). apply in_or_app. left; exact Hi. }
  assert (L := reported_bound s1 h2 V B (fun v w Hi => T v w (in_or_app _ _ _ (or_intror Hi)))).
  lra.
Qed.

Lemma sin_step a h : exists c, sin (a + h) - sin a = h * cos c /\ Rabs (c - (a + h)) <= Rabs h.
Proof.
  assert (D : forall c, derivable_pt_lim sin c (cos c)) by (intros; apply derivable_pt_lim_sin).
  destruct (Rtotal_order h 0) as [L|[->|G]].
  - destruct (MVT_cor2 sin cos (a + h) a ltac:(lra) (fun c _ => D c)) as [c [E I]].
    exists c. split; [replace (a - (a + h)) with (- h) in E by ring; lra|].
    rewrite Rabs_right by lra. rewrite Rabs_left by lra. lra.
  - exists a. rewrite Rplus_0_r. split; [ring|]. replace (a - a) with 0 by ring. lra.
  - destruct (MVT_cor2 sin cos a (a + h) ltac:(lra) (fun c _ => D c)) as [c [E I]].
    exists c. split; [replace (a + h - a) with h in E by ring; lra|].
    rewrite Rabs_left by lra. rewrite Rabs_right by lra. lra.
Qed.

Lemma cos_step a h : exists c, cos (a + h) - cos a = - (h * sin c) /\ Rabs (c - (a + h)) <= Rabs h.
Proof.
  assert (D : forall c, derivable_pt_lim cos c (- sin c)) by (intros; apply derivable_pt_lim_cos).
  destruct (Rtotal_order h 0) as [L|[->|G]].
  - destruct (MVT_cor2 cos (fun c => - sin c) (a + h) a ltac:(lra) (fun c _ => D c)) as [c [E I]].
    exists c. split; [replace (a - (a + h)) with (- h) in E by ring; lra|].
    rewrite Rabs_right by lra. rewrite Rabs_left by lra. lra.
  - exists a. rewrite Rplus_0_r. split; [ring|]. replace (a - a) with 0 by ring. lra.
  - destruct (MVT_cor2 cos (fun c => - sin c) a (a + h) ltac:(lra) (fun c _ => D c)) as [c [E I]].
    exists c. split; [replace (a + h - a) with h in E by ring; lra|].
    rewrite Rabs_left by lra. rewrite Rabs_right by lra. lra.
Qed.

Lemma cos_lip a b : Rabs (cos a - cos b) <= Rabs (a - b).
Proof.
  destruct (cos_step b (a - b)) as [c [E _]]. replace (b + (a - b)) with a in E by ring.
  rewrite E, Rabs_Ropp, Rabs_mult.
  assert (Rabs (sin c) <= 1) by (apply Rabs_le; apply SIN_bound).
  assert (0 <= Rabs (a - b)) by apply Rabs_pos. nra.
Qed.

Lemma sin_lip a b : Rabs (sin a - sin b) <= Rabs (a - b).
Proof.
  destruct (sin_step b (a - b)) as [c [E _]]. replace (b + (a - b)) with a in E by ring.
  rewrite E, Rabs_mult.
  assert (Rabs (cos c) <= 1) by (apply Rabs_le; apply COS_bound).
  assert (0 <= Rabs (a - b)) by apply Rabs_pos. nra.
Qed.

(** One cycle against the exact arc. *)
Lemma arc_step x y a v w :
  let '(x', y', a') := arc (x, y, a) v w dt in
  a' = a + w * dt /\
  Rabs (x + cos (a + w * dt) * v * dt - x') <= Rabs v * Rabs w * (dt * dt) /\
  Rabs (y + sin (a + w * dt) * v * dt - y') <= Rabs v * Rabs w * (dt * dt).
Proof.
  assert (D : 0 < dt) by (unfold dt; lra).
  unfold arc. destruct (Req_EM_T w 0) as [->|N].
  - replace (a + 0 * dt) with a by ring. rewrite Rabs_R0.
    replace (x + cos a * v * dt - (x + v * dt * cos a)) with 0 by ring.
    replace (y + sin a * v * dt - (y + v * dt * sin a)) with 0 by ring.
    rewrite Rabs_R0. repeat split; lra.
  - split; [reflexivity|].
    destruct (sin_step a (w * dt)) as [c [Ec Bc]]. destruct (cos_step a (w * dt)) as [e [Ee Be]].
    rewrite Ec, Ee.
    replace (x + cos (a + w * dt) * v * dt - (x + v / w * (w * dt * cos c)))
      with (v * dt * (cos (a + w * dt) - cos c)) by (field; exact N).
    replace (y + sin (a + w * dt) * v * dt - (y - v / w * - (w * dt * sin e)))
      with (v * dt * (sin (a + w * dt) - sin e)) by (field; exact N).
    rewrite !Rabs_mult, (Rabs_right dt) by lra.
    rewrite Rabs_minus_sym in Bc. rewrite Rabs_minus_sym in Be.
    assert (Lc := Rle_trans _ _ _ (cos_lip (a + w * dt) c) Bc).
    assert (Le := Rle_trans _ _ _ (sin_lip (a + w * dt) e) Be).
    rewrite Rabs_mult, (Rabs_right dt) in Lc, Le by lra.
    assert (0 <= Rabs v) by apply Rabs_pos.
    assert (0 <= Rabs v * dt) by nra.
    split; eapply Rle_trans; try (apply Rmult_le_compat_l; [|first [exact Lc|exact Le]]); try assumption;
      right; ring.
Qed.

Lemma arc_shift x y a v w ex ey :
  arc (x + ex, y + ey, a) v w dt =
  let '(x', y', a') := arc (x, y, a) v w dt in (x' + ex, y' + ey, a').
Proof.
  unfold arc. destruct (Req_EM_T w 0); f_equal; try f_equal; ring.
Qed.

Lemma ideal_shift l : forall x y a ex ey,
  ideal (x + ex, y + ey, a) l =
  let '(x', y', a') := ideal (x, y, a) l in (x' + ex, y' + ey, a').
Proof.
  induction l as [|o l IH]; intros x y a ex ey; cbn [ideal]; [reflexivity|].
  rewrite arc_shift. destruct (arc (x, y, a) (ov o) (ow o) dt) as [[x' y'] a']. apply IH.
Qed.

(** The robot stays close to one that follows the commands exactly: the error
    in either coordinate is at most the sum over the cycles of the speed times
    the turning rate times the square of the cycle, and there is none in the
    heading. *)
Theorem C75_close_to_an_ideal_robot : forall s h,
  undisturbed h ->
  let '(x, y, a) := ideal (rx s, ry s, ryaw s) (snd (run s h)) in
  let err := / 100 * / 100 * total (map (fun o => Rabs (ov o) * Rabs (ow o)) (snd (run s h))) in
  ryaw (fst (run s h)) = a /\
  Rabs (rx (fst (run s h)) - x) <= err /\ Rabs (ry (fst (run s h)) - y) <= err.
Proof.
  intros s h; revert s. induction h as [|e h IH]; intros s U; cbn [run].
  - cbn [snd ideal map total fst]. split; [reflexivity|].
    unfold Rminus. rewrite !Rplus_opp_r, Rabs_R0. lra.
  - destruct (step s e) as [s1 o1] eqn:E. specialize (IH s1 (undisturbed_tl _ _ U)).
    destruct (run s1 h) as [s2 o2]; cbn [fst snd] in *.
    destruct e as [v w|[[[x y] a]|]|]; cbn [step] in E.
    + injection E as <- <-. exact IH.
    + destruct (U _ (or_introl eq_refl)).
    + injection E as <- <-. exact IH.
    + injection E as <- <-. cbn [app ideal map total odom_of ov ow].
      assert (A := arc_step (rx s) (ry s) (ryaw s) (rv s) (rw s)).
      unfold tick in IH; cbn [rx ry ryaw rv rw] in IH.
      change (rv (tick s)) with (rv s). change (rw (tick s)) with (rw s).
      destruct (arc (rx s, ry s, ryaw s) (rv s) (rw s) dt) as [[xa ya] aa].
      destruct A as [-> [Ax Ay]].
      set (X := rx s + cos (ryaw s + rw s * dt) * rv s * dt) in *.
      set (Y := ry s + sin (ryaw s + rw s * dt) * rv s * dt) in *.
      assert (S : ideal (X, Y, ryaw s + rw s * dt) o2 =
        let '(x', y', a') := ideal (xa, ya, ryaw s + rw s * dt) o2 in (x' + (X - xa), y' + (Y - ya), a')).
      { replace X with (xa + (X - xa)) at 1 by ring. replace Y with (ya + (Y - ya)) at 1 by ring.
        apply ideal_shift. }
      rewrite S in IH.
      destruct (ideal (xa, ya, ryaw s + rw s * dt) o2) as [[xi yi] ai].
      destruct IH as [-> [Ix Iy]]. split; [reflexivity|].
      assert (Tx := Rabs_triang (rx s2 - (xi + (X - xa))) (X - xa)).
      assert (Ty := Rabs_triang (ry s2 - (yi + (Y - ya))) (Y - ya)).
      replace (rx s2 - (xi + (X - xa)) + (X - xa)) with (rx s2 - xi) in Tx by ring.
      replace (ry s2 - (yi + (Y - ya)) + (Y - ya)) with (ry s2 - yi) in Ty by ring.
      unfold dt in Ax, Ay. split; lra.
Qed.

(** The robot does not stop when the commands stop: whatever the time since
    the last command, it is as far as this command takes it. *)
Theorem C75_robot_stops_when_the_commands_stop_refuted : forall far,
  exists k s, let o := odom_of (fst (run s (Twist 1 0 :: repeat Tick k))) in
  far < distance o (odom_of s) /\ ov o = 1.
Proof.
  intros far.
  assert (H : forall k x, run (Robot x 0 0 1 0) (repeat Tick k) =
    (Robot (x + INR k * dt) 0 0 1 0, snd (run (Robot x 0 0 1 0) (repeat Tick k)))).
  { induction k as [|k IH]; intros x.
    - cbn [repeat run snd INR]. f_equal. f_equal. ring.
    - cbn [repeat run step].
      replace (tick (Robot x 0 0 1 0)) with (Robot (x + dt) 0 0 1 0).
      + rewrite (IH (x + dt)). cbn [snd]. f_equal. f_equal. rewrite S_INR. ring.
      + unfold tick; cbn [rx ry ryaw rv rw]. replace (0 + 0 * dt) with 0 by ring.
        rewrite cos_0, sin_0. f_equal; ring. }
  assert (Hk : exists k, Rabs far * 100 < INR k).
  { exists (Z.to_nat (up (Rabs far * 100))). destruct (archimed (Rabs far * 100)) as [A _].
    assert (0 <= Rabs far) by apply Rabs_pos.
    rewrite INR_IZR_INZ, Z2Nat.id; [lra|]. apply le_IZR. lra. }
  destruct Hk as [k Hk]. exists k, (start 0 0 0). cbn [run step start rx ry ryaw].
  rewrite (H k 0). cbn [fst odom_of ov distance]. split; [|reflexivity].
  unfold distance, odom_of, start; cbn [ox oy rx ry].
  replace ((0 + INR k * dt - 0) * (0 + INR k * dt - 0) + (0 - 0) * (0 - 0))
    with ((INR k * dt) * (INR k * dt)) by ring.
  rewrite sqrt_square.
  - assert (far <= Rabs far) by apply Rle_abs. unfold dt. lra.
  - unfold dt. assert (0 <= INR k) by apply pos_INR. lra.
Qed.

(** ** The hypotheses are met *)

Definition history : list event := [Tick; Twist 1 0; Tick; Init None; Tick; Twist 0 2; Tick].

Example history_undisturbed : undisturbed history.
Proof.
  intros e H. cbn in H.
  repeat (destruct H as [<-|H]; [exact I|]). destruct H.
Qed.

Example history_pose :
  let s := fst (run (start 3 4 0) history) in
  rx s = 3 + 2 / 100 /\ ry s = 4 /\ ryaw s = 2 / 100.
Proof.
  assert (U := history_undisturbed).
  assert (A := heading_sum (start 3 4 0) history U).
  assert (C : run (start 3 4 0) history =
    (Robot (3 + 2 / 100) 4 (2 / 100) 0 2,
     [Odom 3 4 0 0 0; Odom (3 + 1 / 100) 4 0 1 0; Odom (3 + 2 / 100) 4 0 1 0;
      Odom (3 + 2 / 100) 4 (2 / 100) 0 2])).
  { clear. unfold history, start. cbn [run step rx ry ryaw rv rw].
    assert (T : forall x y a, tick (Robot x y a 0 0) = Robot x y a 0 0).
    { intros. unfold tick; cbn [rx ry ryaw rv rw]. f_equal; try ring. }
    assert (T1 : forall x y, tick (Robot x y 0 1 0) = Robot (x + 1 / 100) y 0 1 0).
    { intros. unfold tick; cbn [rx ry ryaw rv rw]. replace (0 + 0 * dt) with 0 by ring.
      rewrite cos_0, sin_0. unfold dt. f_equal; lra. }
    assert (T2 : forall x y, tick (Robot x y 0 0 2) = Robot x y (2 / 100) 0 2).
    { intros. unfold tick; cbn [rx ry ryaw rv rw]. unfold dt. f_equal; try ring; lra. }
    rewrite T. unfold odom_of. cbn [rx ry ryaw rv rw app]. rewrite !T1.
    cbn [rx ry ryaw rv rw app].
    replace (3 + 1 / 100 + 1 / 100) with (3 + 2 / 100) by lra. rewrite !T2.
    cbn [rx ry ryaw rv rw app]. reflexivity. }
  rewrite C. cbn. repeat split; reflexivity.
Qed.

Example history_within_the_limit : forall v w, In (Twist v w) ([] ++ history) -> Rabs v <= 1.
Proof.
  intros v w H. cbn in H.
  repeat (destruct H as [H|H]; [try discriminate; injection H as <- <-; rewrite ?Rabs_R0, ?Rabs_R1; lra|]).
  destruct H.
Qed.

Print Assumptions C75_each_report_is_of_one_cycle_of_the_command_in_force.
Print Assumptions C75_set_pose_is_reported_and_kept.
Print Assumptions C75_unknown_frame_changes_nothing.
Print Assumptions C75_heading_is_the_sum_of_the_reported_turns.
Print Assumptions C75_position_is_the_sum_of_the_reported_moves.
Print Assumptions C75_never_further_than_the_reported_speeds.
Print Assumptions C75_speed_limit_is_kept.
Print Assumptions C75_close_to_an_ideal_robot.
Print Assumptions C75_robot_stops_when_the_commands_stop_refuted.
