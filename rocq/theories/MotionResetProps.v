(** C09: the motion cache the planner fills is fit for its moves: curves stay within the range of the displacement, so that no cell
    outside of the map is read. *)
From Coq Require Import QArith Qabs Qreals Reals Lra Lia Psatz.
From Flocq Require Import Core.
From Verif Require Import Common Hysteresis HysteresisProps PathGeom Primitives PrimitivesProps CyclicVec CyclicVecSpec CostAlg AStar AStarSpec AStarProofs AStarSearch AStarComplete AStarProps GridMapSpec MotionCache Cost3D Motion3DSpec Motion3DProofs Cost3DProps MotionReset.
Local Open Scope R_scope.

(** *** Specification *)
(** The float samples of the curves: as many as steps, the first exactly at the start, all less than half a cell off the point meant. *)
Definition faithful (C : prim_cfg) (gres : R) (computed : Z -> vec -> list posef) : Prop :=
  forall i d, (0 <= i < pr_angle C)%Z -> In d (stored C) -> straight_page C i d = false ->
    length (computed i d) = Z.to_nat (total_step gres d) /\
    (exists p rest, computed i d = p :: rest /\ px p == 0 /\ py p == 0 /\ pt p == inject_Z i)%Q /\
    forall k p, nth_error (computed i d) k = Some p ->
      Rabs (Q2R (px p) - fst (curve_point C i d (INR k / IZR (total_step gres d)))) < 1 / 2 /\
      Rabs (Q2R (py p) - snd (curve_point C i d (INR k / IZR (total_step gres d)))) < 1 / 2.
(** The displacement of a move from the heading [i], with the heading at the end. *)
Definition goes (C : prim_cfg) (i : Z) (p : prim) : vec := [fst (fst p); snd (fst p); (i + snd p) mod pr_angle C]%Z.

(** *** Proofs *)
Lemma cos_concave th s : Rabs th <= PI / 2 -> 0 <= s <= 1 -> 1 - cos (s * th) <= s * (1 - cos th).
Proof.
  assert (P : forall t, 0 <= t <= PI / 2 -> 0 <= s <= 1 -> 1 - cos (s * t) <= s * (1 - cos t)).
  { clear th. intros th Ht Hs. pose proof PI_RGT_0 as Hpi.
    destruct (Req_dec s 0) as [->|S0]; [rewrite Rmult_0_l, cos_0; lra|]. destruct (Req_dec s 1) as [->|S1]; [rewrite Rmult_1_l; lra|].
    destruct (Req_dec th 0) as [->|T0]; [rewrite Rmult_0_r, cos_0; lra|].
    assert (A : 0 < s * th) by (apply Rmult_lt_0_compat; lra). assert (B : s * th < th) by nra.
    destruct (MVT_cor2 cos (fun x => - sin x) 0 (s * th) A) as (x1 & E1 & X1); [intros; apply derivable_pt_lim_cos|].
    destruct (MVT_cor2 cos (fun x => - sin x) (s * th) th B) as (x2 & E2 & X2); [intros; apply derivable_pt_lim_cos|].
    rewrite cos_0 in E1. assert (M : sin x1 <= sin x2) by (apply sin_incr_1; lra).
    assert (Q : (1 - s) * (1 - cos (s * th)) <= s * (cos (s * th) - cos th)).
    { replace (1 - cos (s * th)) with (sin x1 * (s * th)) by lra. replace (cos (s * th) - cos th) with (sin x2 * (th - s * th)) by lra.
      replace ((1 - s) * (sin x1 * (s * th))) with (sin x1 * ((1 - s) * (s * th))) by ring.
      replace (s * (sin x2 * (th - s * th))) with (sin x2 * ((1 - s) * (s * th))) by ring.
      apply Rmult_le_compat_r; [|exact M]. apply Rmult_le_pos; lra. }
    lra. }
  intros Ht Hs. unfold Rabs in Ht. destruct (Rcase_abs th).
  - specialize (P (- th) ltac:(lra) Hs). rewrite <- Ropp_mult_distr_r, !cos_neg in P. exact P.
  - apply P; lra.
Qed.

(** A spiral between two radii of the same sign that turns by at most a right angle: the distance from its start is largest at its end. *)
Lemma spiral_within r1 r2 th s : Rabs th <= PI / 2 -> 0 <= r1 * r2 -> 0 <= s <= 1 ->
  r1 * r1 + (r1 * (1 - s) + r2 * s) * (r1 * (1 - s) + r2 * s) - 2 * r1 * (r1 * (1 - s) + r2 * s) * cos (s * th)
    <= r1 * r1 + r2 * r2 - 2 * r1 * r2 * cos th.
Proof.
  intros Ht Hr Hs. pose proof (cos_concave th s Ht Hs) as K. set (c := 1 - cos th) in *. set (cs := 1 - cos (s * th)) in *.
  assert (Hc : 0 <= c <= 1).
  { unfold c. pose proof (COS_bound th). assert (0 <= cos th); [|lra]. apply cos_ge_0; unfold Rabs in Ht; destruct (Rcase_abs th); lra. }
  replace (cos (s * th)) with (1 - cs) by (unfold cs; ring). replace (cos th) with (1 - c) by (unfold c; ring).
  set (d := r2 - r1). replace r2 with (r1 + d) in * by (unfold d; ring). clearbody d c cs.
  assert (R : 0 <= r1 * (r1 * (1 - s) + (r1 + d) * s)).
  { replace (r1 * (r1 * (1 - s) + (r1 + d) * s)) with ((1 - s) * (r1 * r1) + s * (r1 * (r1 + d))) by ring.
    apply Rplus_le_le_0_compat; apply Rmult_le_pos; try lra. nra. }
  assert (B : 0 <= (1 + s) * (d * d + 2 * r1 * d * c) + 2 * r1 * r1 * c).
  { replace ((1 + s) * (d * d + 2 * r1 * d * c) + 2 * r1 * r1 * c)
      with ((1 + s) * ((d + r1 * c) * (d + r1 * c)) + (1 - s) * (r1 * r1 * (c * c)) + 2 * (r1 * r1 * (c * (1 - c)))) by ring.
    assert (0 <= (d + r1 * c) * (d + r1 * c)) by (apply Rle_0_sqr). assert (0 <= r1 * r1) by (apply Rle_0_sqr).
    assert (0 <= c * c) by (apply Rle_0_sqr). assert (0 <= c * (1 - c)) by (apply Rmult_le_pos; lra).
    repeat apply Rplus_le_le_0_compat; repeat (apply Rmult_le_pos; try lra). }
  assert (L : 2 * (r1 * (r1 * (1 - s) + (r1 + d) * s)) * cs <= 2 * (r1 * (r1 * (1 - s) + (r1 + d) * s)) * (s * c)).
  { apply Rmult_le_compat_l; [lra|exact K]. }
  apply Rminus_le. 
  apply Rle_trans with (- ((1 - s) * ((1 + s) * (d * d + 2 * r1 * d * c) + 2 * r1 * r1 * c))).
  - match goal with |- ?a - ?b <= ?e => assert (Q : a - b - e = 2 * (r1 * (r1 * (1 - s) + (r1 + d) * s)) * cs - 2 * (r1 * (r1 * (1 - s) + (r1 + d) * s)) * (s * c)) by ring end.
    lra.
  - apply Ropp_le_cancel. rewrite Ropp_involutive, Ropp_0. apply Rmult_le_pos; lra.
Qed.

Section WithC.
  Variable C : prim_cfg.
  Hypothesis S : sane C.
  Let A := pr_angle C.

  Lemma next_mod i t : (0 <= i < pr_angle C)%Z -> (0 <= t < pr_angle C)%Z -> ((i + t) mod pr_angle C = next_of C i t)%Z.
  Proof.
    intros Hi Ht. unfold next_of. cbv zeta. destruct (Z.leb_spec (pr_angle C) (i + t)).
    - symmetry. apply (Z.mod_unique _ _ 1); lia.
    - apply Z.mod_small. lia.
  Qed.

  Lemma motion_goes i p : (0 <= i < pr_angle C)%Z -> in_range C p ->
    exists a, (a = turn_of C p \/ (Rabs a = PI /\ Rabs (turn_of C p) = PI)) /\
      motion_of C i (goes C i p) = (ahead C i p, left_of C i p, a) /\
      a = normalize (IZR ((i + snd p) mod pr_angle C) * pr_ang C - IZR i * pr_ang C).
  Proof.
    intros Hi Hp. destruct (motion_value C S i p Hi Hp) as (a & Ha & E). exists a. split; [exact Ha|].
    unfold getMotion in E. destruct (_ && _)%bool; [|discriminate E]. rewrite !Z.add_simpl_r in E.
    rewrite <- next_mod in E by (try exact Hi; apply Hp). unfold motion_of, goes. cbn [vx vy vt nth].
    assert (E' : rotate (IZR (fst (fst p)) * pr_lin C, IZR (snd (fst p)) * pr_lin C, IZR ((i + snd p) mod pr_angle C) * pr_ang C) (- IZR i * pr_ang C) = (ahead C i p, left_of C i p, a)) by congruence.
    split; [exact E'|]. unfold rotate in E'. assert (a = normalize (IZR ((i + snd p) mod pr_angle C) * pr_ang C + - IZR i * pr_ang C)) as -> by congruence.
    f_equal. ring.
  Qed.

  (** The points of a curve the robot can drive are no farther from its start than its end. *)
  Theorem C09_curves_stay_within_their_length i p s : (0 <= i < pr_angle C)%Z -> in_range C p -> fst p <> (0, 0)%Z -> curve C i p -> 0 <= s <= 1 ->
    fst (curve_point C i (goes C i p) s) ^ 2 + snd (curve_point C i (goes C i p) s) ^ 2 <= IZR (fst (fst p) * fst (fst p) + snd (fst p) * snd (fst p)).
  Proof.
    intros Hi Hp Hz Hcv Hs. pose proof PI_RGT_0 as Hpi. pose proof (lin_pos C S) as L.
    destruct (motion_goes i p Hi Hp) as (a & Ha & Em & En).
    destruct Hcv as (Ht0 & _ & T & X & Y & Sg & r1 & r2 & Ce & _ & _).
    assert (a = turn_of C p) as -> by (destruct Ha as [Ha|[_ Ha]]; [exact Ha|lra]). clear Ha.
    set (th := turn_of C p) in *.
    assert (SN : sin th <> 0) by (apply sin_nonzero; [apply (turn_nonzero C S); [apply Hp|exact Ht0]|lra]).
    destruct (centre_unique C i p r1 r2 SN Ce) as [U1 U2]. fold th in U1, U2.
    unfold curve_point. rewrite Em, U1, U2. cbn [goes vx vy vt nth]. rewrite <- En. cbn [fst snd].
    rewrite !(ang_step C S).
    assert (Hye : exists n : Z, heading C ((i + snd p) mod pr_angle C) = heading C i + th - 2 * PI * IZR n).
    { destruct (heading_mod C i (snd p) S) as [n En']. unfold th, turn_of. destruct (Z.leb_spec (2 * snd p) (pr_angle C)); [exists n; exact En'|].
      exists (n - 1)%Z. rewrite En', (heading_minus C S), (heading_A C S), minus_IZR. ring. }
    destruct Hye as [n Hye].
    assert (Cp : forall x, cos (x + PI / 2) = - sin x) by (intros; rewrite cos_plus, cos_PI2, sin_PI2; ring).
    assert (Sp : forall x, sin (x + PI / 2) = cos x) by (intros; rewrite sin_plus, cos_PI2, sin_PI2; ring).
    rewrite !Cp, !Sp, Hye, sin_turns, cos_turns, sin_plus, cos_plus.
    set (yw := heading C i) in *. pose proof (sin2_cos2 yw) as P1. pose proof (sin2_cos2 th) as P2. unfold Rsqr in P1, P2.
    destruct Ce as [Ea El]. fold th in Ea, El. unfold ahead, left_of in Ea, El. fold yw in Ea, El.
    set (dx := IZR (fst (fst p))) in *. set (dy := IZR (snd (fst p))) in *.
    assert (Ex : dx * pr_lin C = cos yw * (r2 * sin th) - sin yw * (r1 - r2 * cos th)).
    { rewrite <- Ea, <- El. replace (dx * pr_lin C) with (dx * pr_lin C * (sin yw * sin yw + cos yw * cos yw)) by (rewrite P1; ring). ring. }
    assert (Ey : dy * pr_lin C = sin yw * (r2 * sin th) + cos yw * (r1 - r2 * cos th)).
    { rewrite <- Ea, <- El. replace (dy * pr_lin C) with (dy * pr_lin C * (sin yw * sin yw + cos yw * cos yw)) by (rewrite P1; ring). ring. }
    set (r := r1 * (1 - s) + r2 * s).
    assert (Rr : 0 <= r1 * r2).
    { (* the centre is on the side to which the robot turns *)
      assert (E : ahead C i p * left_of C i p * th = r2 * (r1 - r2 * cos th) * (sin th * th)).
      { unfold ahead, left_of. fold yw dx dy. rewrite Ea, El. ring. }
      rewrite E in Sg. assert (Q : 0 < sin th * th).
      { apply Rabs_def2 in T. assert (th <> 0) by (intros Z; rewrite Z, sin_0 in SN; lra).
        destruct (Rlt_dec 0 th); [apply Rmult_lt_0_compat; [apply sin_gt_0; lra|lra]|].
        pose proof (sin_lt_0_var th ltac:(lra) ltac:(lra)). nra. }
      assert (0 <= r2 * (r1 - r2 * cos th)) by nra.
      assert (0 <= cos th) by (apply Rabs_def2 in T; apply cos_ge_0; lra).
      assert (0 <= r2 * r2 * cos th) by (apply Rmult_le_pos; [apply Rle_0_sqr|assumption]). lra. }
    pose proof (spiral_within r1 r2 th s ltac:(lra) Rr Hs) as W. fold r in W.
    assert (LL : 0 < pr_lin C * pr_lin C) by nra.
    apply (Rmult_le_reg_l (pr_lin C * pr_lin C)); [exact LL|].
    assert (G : pr_lin C * pr_lin C * IZR (fst (fst p) * fst (fst p) + snd (fst p) * snd (fst p)) = r1 * r1 + r2 * r2 - 2 * r1 * r2 * cos th).
    { rewrite plus_IZR, !mult_IZR. fold dx dy.
      replace (pr_lin C * pr_lin C * (dx * dx + dy * dy)) with ((dx * pr_lin C) * (dx * pr_lin C) + (dy * pr_lin C) * (dy * pr_lin C)) by ring.
      rewrite Ex, Ey.
      replace ((cos yw * (r2 * sin th) - sin yw * (r1 - r2 * cos th)) * (cos yw * (r2 * sin th) - sin yw * (r1 - r2 * cos th)) +
               (sin yw * (r2 * sin th) + cos yw * (r1 - r2 * cos th)) * (sin yw * (r2 * sin th) + cos yw * (r1 - r2 * cos th)))
        with ((sin yw * sin yw + cos yw * cos yw) * (r2 * r2 * (sin th * sin th + cos th * cos th) + r1 * r1 - 2 * r1 * r2 * cos th)) by ring.
      rewrite P1, P2. ring. }
    rewrite G. eapply Rle_trans; [|exact W]. clear W G. apply Req_le.
    rewrite Ex, Ey. set (sp := sin (yw + s * th)). set (cp := cos (yw + s * th)).
    assert (Hsp : sp = sin yw * cos (s * th) + cos yw * sin (s * th)) by apply sin_plus.
    assert (Hcp : cp = cos yw * cos (s * th) - sin yw * sin (s * th)) by apply cos_plus.
    match goal with |- pr_lin C * pr_lin C * ((?a / pr_lin C) ^ 2 + (?b / pr_lin C) ^ 2) = _ =>
      replace (pr_lin C * pr_lin C * ((a / pr_lin C) ^ 2 + (b / pr_lin C) ^ 2)) with (a * a + b * b) by (field; lra);
      replace a with (- r1 * sin yw + r * sp) by ring; replace b with (r1 * cos yw - r * cp) by ring end.
    rewrite Hsp, Hcp. pose proof (sin2_cos2 (s * th)) as P3. unfold Rsqr in P3.
    set (c' := cos (s * th)) in *. set (s' := sin (s * th)) in *. set (cy := cos yw) in *. set (sy := sin yw) in *.
    replace ((- r1 * sy + r * (sy * c' + cy * s')) * (- r1 * sy + r * (sy * c' + cy * s')) + (r1 * cy - r * (cy * c' - sy * s')) * (r1 * cy - r * (cy * c' - sy * s')))
      with ((sy * sy + cy * cy) * (r1 * r1 + r * r * (s' * s' + c' * c') - 2 * r1 * r * c')) by ring.
    rewrite P1, P3. ring.
  Qed.
End WithC.

(** *** The band *)
Lemma lround_le_R (q : Q) (r : R) (z : Z) : Q2R q <= r -> r < IZR z + 1 / 2 -> (lround q <= z)%Z.
Proof.
  intros H1 H2. pose proof (lround_near q) as N. apply Qabs_Qle_condition in N. destruct N as [N1 N2]. apply Qle_Rle in N1, N2.
  rewrite Q2R_minus in N1, N2. rewrite Q2R_opp in N1. assert (I : Q2R (inject_Z (lround q)) = IZR (lround q)) by (unfold Q2R, inject_Z; cbn; lra). rewrite I in *.
  assert (H : Q2R (1 # 2) = 1 / 2) by (unfold Q2R; cbn; lra). rewrite H in *. apply Z.lt_succ_r. apply lt_IZR. rewrite succ_IZR. lra.
Qed.
Lemma lround_ge_R (q : Q) (r : R) (z : Z) : r <= Q2R q -> IZR z - 1 / 2 < r -> (z <= lround q)%Z.
Proof.
  intros H1 H2. pose proof (lround_near q) as N. apply Qabs_Qle_condition in N. destruct N as [N1 N2]. apply Qle_Rle in N1, N2.
  rewrite Q2R_minus in N1, N2. rewrite Q2R_opp in N1. assert (I : Q2R (inject_Z (lround q)) = IZR (lround q)) by (unfold Q2R, inject_Z; cbn; lra). rewrite I in *.
  assert (H : Q2R (1 # 2) = 1 / 2) by (unfold Q2R; cbn; lra). rewrite H in *. apply Z.lt_succ_r. apply lt_IZR. rewrite succ_IZR. lra.
Qed.

Section Cache.
  Variable C : prim_cfg.
  Hypothesis S : sane C.
  Variables gres ires : R.
  Hypothesis Hg : 0 < gres <= 1 / 2.

  Lemma stored_spec d : In d (stored C) <-> exists x y t, d = [x; y; t] /\ (x <> 0 \/ y <> 0)%Z /\ (x * x + y * y <= pr_range C * pr_range C)%Z /\ (0 <= t < pr_angle C)%Z.
  Proof using S.
    pose proof (proj1 (proj2 (proj2 S))) as R0. unfold stored. rewrite in_flat_map. split.
    - intros (x & _ & H). apply in_flat_map in H as (y & _ & H). destruct ((x =? 0) && (y =? 0) || _)%Z%bool eqn:E; [destruct H|].
      apply in_map_iff in H as (t & <- & H). apply in_range_excl in H. exists x, y, t. split; [reflexivity|]. lia.
    - intros (x & y & t & -> & Hn & Hl & Ht). exists x. split; [apply in_range_incl; nia|]. apply in_flat_map. exists y. split; [apply in_range_incl; nia|].
      destruct ((x =? 0) && (y =? 0) || _)%Z%bool eqn:E; [lia|]. apply in_map_iff. exists t. split; [reflexivity|]. apply in_range_excl. exact Ht.
  Qed.
  Lemma stored_box d : In d (stored C) -> (Z.abs (vx d) <= pr_range C /\ Z.abs (vy d) <= pr_range C)%Z.
  Proof using S. pose proof (proj1 (proj2 (proj2 S))) as R0. intros H. apply stored_spec in H as (x & y & t & -> & _ & H & _). cbn [vx vy nth]. nia. Qed.

  Lemma total_two d : In d (stored C) -> (2 <= total_step gres d)%Z.
  Proof using S Hg.
    intros H. apply stored_spec in H as (x & y & t & -> & Hn & _). unfold total_step. cbn [vx vy nth]. rewrite <- (lroundR_Z 2). apply lroundR_mono.
    assert (1 <= sqrt (IZR (x * x + y * y))). { rewrite <- sqrt_1. apply sqrt_le_1_alt. apply IZR_le. nia. }
    apply (Rmult_le_reg_r gres); [lra|]. unfold Rdiv. rewrite Rmult_assoc, Rinv_l by lra. nra.
  Qed.
  (** A heading other than 0 along which a motion counts as straight from 0: with it, max_range_ reaches the range. *)
  Definition nearly_parallel (t : Z) : Prop := (0 < t < pr_angle C)%Z /\ Rabs (sin (heading C t)) < 1 / 10.
  (** With an even number of headings the opposite one is. *)
  Lemma even_parallel k : pr_angle C = (2 * k)%Z -> nearly_parallel k.
  Proof using S.
    intros E. pose proof (A_pos C S). split; [lia|]. assert (HK : heading C k = PI). { pose proof (heading_A C S) as HA. rewrite E, (heading_double C S) in HA. lra. } rewrite HK, sin_PI, Rabs_R0. lra.
  Qed.
  Variable computed : Z -> vec -> list posef.
  Lemma assoc_map (f : vec -> page) k l pg : assoc k (map (fun d => (d, f d)) l) = Some pg -> In k l /\ pg = f k.
  Proof.
    induction l as [|a l IH]; cbn [map assoc]; [discriminate|]. destruct (veq a k) eqn:E.
    - apply veq_true in E. subst a. intros H. injection H as <-. split; [left|]; reflexivity.
    - intros H. apply IH in H as [H1 H2]. split; [right; exact H1|exact H2].
  Qed.
  Lemma assoc_reset yaw d pg : assoc d (reset_cache C gres ires computed yaw) = Some pg ->
    (0 <= yaw < pr_angle C)%Z /\ In d (stored C) /\ pg = page_of C gres ires computed yaw d.
  Proof. unfold reset_cache. destruct (_ && _)%bool eqn:E; [|discriminate]. intros H. apply assoc_map in H as [H1 H2]. split; [lia|]. split; assumption. Qed.

  Lemma istep_pos : (0 < interp_step gres ires)%Z.
  Proof. unfold interp_step. lia. Qed.

  (** Every cell of a straight motion is within the range. *)
  Lemma straight_cells i d m : (0 <= i < pr_angle C)%Z -> In d (stored C) -> straight_page C i d = true ->
    In m (pg_motion (page_of C gres ires computed i d)) ->
    (vt m = i /\ (0 <= vx m <= vx d \/ vx d <= vx m <= 0) /\ (0 <= vy m <= vy d \/ vy d <= vy m <= 0))%Z.
  Proof. intros Hi Hd Hs H. unfold page_of in H. rewrite Hs in H. apply straight_page_ok in H; [exact H|exact Hi|]. pose proof (total_two d Hd). lia. Qed.

  (** So is every cell of a curve that can be driven. *)
  Lemma curve_cells i p m : faithful C gres computed -> (0 <= i < pr_angle C)%Z -> in_range C p -> curve C i p -> In (goes C i p) (stored C) ->
    straight_page C i (goes C i p) = false -> In m (pg_motion (page_of C gres ires computed i (goes C i p))) ->
    (0 <= vt m < pr_angle C /\ - pr_range C <= vx m <= pr_range C /\ - pr_range C <= vy m <= pr_range C)%Z.
  Proof.
    intros HF Hi Hp Hc Hd Hs H. unfold page_of in H. rewrite Hs in H. apply build_loop_origin in H. destruct H as [[]|(q & Hq & -> & _)].
    destruct (HF i _ Hi Hd Hs) as (HL & _ & HN). apply In_nth_error in Hq as [k Hk]. pose proof (HN k q Hk) as [N1 N2].
    assert (Hkl : (k < Z.to_nat (total_step gres (goes C i p)))%nat) by (rewrite <- HL; apply nth_error_Some; congruence).
    pose proof (total_two _ Hd) as T2. set (T := total_step gres (goes C i p)) in *.
    assert (TR : 2 <= IZR T) by (apply (IZR_le 2); exact T2).
    assert (Hs01 : 0 <= INR k / IZR T <= 1).
    { split; [apply Rmult_le_pos; [apply pos_INR|left; apply Rinv_0_lt_compat; lra]|].
      apply (Rmult_le_reg_r (IZR T)); [lra|]. unfold Rdiv. rewrite Rmult_assoc, Rinv_l by lra. rewrite INR_IZR_INZ, Rmult_1_r, Rmult_1_l. apply IZR_le. lia. }
    assert (Hnz : fst p <> (0, 0)%Z). { intros E. destruct Hc as (_ & H9 & _). rewrite E in H9. cbn in H9. lia. }
    pose proof (C09_curves_stay_within_their_length C S i p _ Hi Hp Hnz Hc Hs01) as W. set (cx := fst (curve_point C i (goes C i p) (INR k / IZR T))) in *. set (cy := snd (curve_point C i (goes C i p) (INR k / IZR T))) in *.
    pose proof (proj1 (proj2 (proj2 S))) as R0. pose proof (IZR_le _ _ (proj1 Hp)) as Hl. rewrite (mult_IZR (pr_range C)) in Hl. apply IZR_le in R0.
    set (r := IZR (pr_range C)) in *.
    assert (Wr : cx ^ 2 + cy ^ 2 <= r * r) by lra.
    assert (Bx : - r <= cx <= r) by (split; nra). assert (By : - r <= cy <= r) by (split; nra).
    apply Rabs_def2 in N1, N2. split; [cbn [to_cell vt nth]; apply Z.mod_pos_bound, S|]. cbn [to_cell vx vy nth].
    assert (G : forall v c, - r <= c <= r -> Q2R v - c < 1 / 2 -> - (1 / 2) < Q2R v - c -> (- pr_range C <= lround v <= pr_range C)%Z).
    { intros v c Hc1 H1 H2. split; [apply (lround_ge_R v (Q2R v)); [apply Rle_refl|rewrite opp_IZR; fold r; lra]|apply (lround_le_R v (Q2R v)); [apply Rle_refl|fold r; lra]]. }
    split; [apply (G _ cx)|apply (G _ cy)]; lra.
  Qed.

  (** max_range_ covers the cells of all straight motions. *)
  Lemma widen_ge m c : (vx m <= vx (widen m c) /\ vy m <= vy (widen m c) /\ Z.abs (vx c) <= vx (widen m c) /\ Z.abs (vy c) <= vy (widen m c))%Z.
  Proof. unfold widen. cbn [vx vy nth]. unfold vx, vy. lia. Qed.
  Lemma widen_fold l : forall m, (vx m <= vx (fold_left widen l m) /\ vy m <= vy (fold_left widen l m))%Z /\
    forall c, In c l -> (Z.abs (vx c) <= vx (fold_left widen l m) /\ Z.abs (vy c) <= vy (fold_left widen l m))%Z.
  Proof.
    induction l as [|a l IH]; intros m; cbn [fold_left]; [split; [lia|intros c []]|]. destruct (IH (widen m a)) as [I1 I2]. pose proof (widen_ge m a) as W.
    split; [lia|]. intros c [<-|Hc]; [lia|apply I2; exact Hc].
  Qed.
  Lemma row_fold i l : forall m, let r := fold_left (fun m d => if straight_page C i d then fold_left widen (pg_motion (page_of C gres ires computed i d)) m else m) l m in
    (vx m <= vx r /\ vy m <= vy r)%Z /\ forall d c, In d l -> straight_page C i d = true -> In c (pg_motion (page_of C gres ires computed i d)) -> (Z.abs (vx c) <= vx r /\ Z.abs (vy c) <= vy r)%Z.
  Proof.
    induction l as [|a l IH]; intros m; cbn [fold_left]; [split; [lia|intros d c []]|]. set (m' := if straight_page C i a then _ else m). specialize (IH m'). cbv zeta in IH |- *. destruct IH as [I1 I2].
    assert (M : (vx m <= vx m' /\ vy m <= vy m')%Z) by (unfold m'; destruct (straight_page C i a); [apply widen_fold|lia]).
    split; [lia|]. intros d c [<-|Hd] Hs Hc; [|apply (I2 d c Hd Hs Hc)].
    assert (M2 : (Z.abs (vx c) <= vx m' /\ Z.abs (vy c) <= vy m')%Z) by (unfold m'; rewrite Hs; apply widen_fold; exact Hc). lia.
  Qed.
  Lemma max_range_ge i d c : (0 <= i < pr_angle C)%Z -> In d (stored C) -> straight_page C i d = true -> In c (pg_motion (page_of C gres ires computed i d)) ->
    (Z.abs (vx c) <= vx (max_range C gres ires computed) /\ Z.abs (vy c) <= vy (max_range C gres ires computed))%Z.
  Proof.
    intros Hi Hd Hs Hc. unfold max_range. assert (Ii : In i (range_excl 0 (pr_angle C))) by (apply in_range_excl; lia). revert Ii. generalize (range_excl 0 (pr_angle C)) as l. generalize ([0; 0; 0]%Z : vec) as m.
    assert (Mono : forall l m, let r := fold_left (fun m i => fold_left (fun m d => if straight_page C i d then fold_left widen (pg_motion (page_of C gres ires computed i d)) m else m) (stored C) m) l m in (vx m <= vx r /\ vy m <= vy r)%Z).
    { induction l as [|a l IH]; intros m; cbn [fold_left]; [cbv zeta; lia|]. cbv zeta in *. pose proof (proj1 (row_fold a (stored C) m)) as W. cbv zeta in W. specialize (IH (fold_left (fun m d => if straight_page C a d then fold_left widen (pg_motion (page_of C gres ires computed a d)) m else m) (stored C) m)). lia. }
    intros m l. revert m. induction l as [|a l IH]; intros m Ii; [destruct Ii|]; cbn [fold_left]. destruct Ii as [<-|Ii].
    - pose proof (proj2 (row_fold a (stored C) m) d c Hd Hs Hc) as W. cbv zeta in W. pose proof (Mono l (fold_left (fun m d => if straight_page C a d then fold_left widen (pg_motion (page_of C gres ires computed a d)) m else m) (stored C) m)) as M. cbv zeta in M. lia.
    - apply IH. exact Ii.
  Qed.

  Lemma straight_from_0 x y t : (0 <= t < pr_angle C)%Z -> Rabs (sin (heading C t)) < 1 / 10 -> straight_page C 0 [x; y; t] = true.
  Proof.
    intros Ht H. unfold straight_page, motion_of, rotate. cbn [vx vy vt nth]. rewrite (ang_step C S). replace (- 0 * pr_ang C) with 0 by ring. rewrite Rplus_0_r.
    assert (E : sin (normalize (heading C t)) = sin (heading C t)).
    { unfold normalize. destruct (Rlt_dec _ _); [replace (heading C t - 2 * PI) with (heading C t - 2 * PI * IZR 1) by ring; apply sin_turns|].
      destruct (Rlt_dec _ _); [replace (heading C t + 2 * PI) with (heading C t - 2 * PI * IZR (-1)) by ring; apply sin_turns|reflexivity]. }
    rewrite E. destruct (Rlt_dec _ _); [reflexivity|contradiction].
  Qed.

  Lemma last_sample (r T : Z) : (0 <= r)%Z -> (2 * r <= T)%Z -> (0 < T)%Z -> lround (inject_Z r * ((T - 1) # Z.to_pos T))%Q = r.
  Proof.
    intros R0 HT T0. assert (E : Q2R (inject_Z r * ((T - 1) # Z.to_pos T)) = IZR r * (IZR T - 1) / IZR T).
    { rewrite Q2R_mult. unfold Q2R at 1 2, inject_Z. cbn [Qnum Qden]. rewrite Z2Pos.id by exact T0. rewrite minus_IZR. assert (IZR T <> 0) by (apply not_0_IZR; lia). field. assumption. }
    pose proof (IZR_lt 0 T T0) as TR. assert (R2 : 2 * IZR r <= IZR T) by (rewrite <- (mult_IZR 2); apply IZR_le; exact HT). apply IZR_le in R0.
    assert (B : 0 <= IZR r / IZR T <= 1 / 2).
    { split; [apply Rmult_le_pos; [exact R0|left; apply Rinv_0_lt_compat; exact TR]|]. apply (Rmult_le_reg_r (IZR T)); [exact TR|]. unfold Rdiv. rewrite Rmult_assoc, Rinv_l by lra. lra. }
    assert (V : IZR r * (IZR T - 1) / IZR T = IZR r - IZR r / IZR T) by (field; lra).
    assert (U : (lround (inject_Z r * ((T - 1) # Z.to_pos T)) <= r)%Z) by (apply (lround_le_R _ (IZR r)); [rewrite E, V; lra|lra]).
    apply Z.le_antisymm; [exact U|].
    (* half a cell is rounded away from zero *)
    assert (Hq : (inject_Z r - (1 # 2) <= inject_Z r * ((T - 1) # Z.to_pos T))%Q).
    { apply Rle_Qle. rewrite E, V, Q2R_minus. assert (I : Q2R (inject_Z r) = IZR r) by (unfold Q2R, inject_Z; cbn; lra). rewrite I. assert (H : Q2R (1 # 2) = 1 / 2) by (unfold Q2R; cbn; lra). rewrite H. lra. }
    apply lround_mono in Hq. destruct (Z.eq_dec r 0) as [->|Rn]; [pose proof (lround_between 0 (T - 1) (Z.to_pos T) ltac:(lia)); lia|].
    apply (Z.le_trans _ (lround (inject_Z r - (1 # 2)))); [|exact Hq]. apply le_IZR in R0.
    unfold lround. assert (Qle_bool 0 (inject_Z r - (1 # 2)) = true) as ->. { apply Qle_bool_iff. unfold Qle, Qminus, Qplus, Qopp, inject_Z. cbn. lia. }
    assert (F : (inject_Z r - (1 # 2) + (1 # 2) == inject_Z r)%Q) by ring. rewrite F. rewrite Qround.Qfloor_Z. lia.
  Qed.

  Lemma max_range_covers t : nearly_parallel t -> (pr_range C <= vx (max_range C gres ires computed) /\ pr_range C <= vy (max_range C gres ires computed))%Z.
  Proof.
    intros [Ht Hp]. pose proof (proj1 (proj2 (proj2 S))) as R0. destruct (Z.eq_dec (pr_range C) 0) as [E0|E0].
    { rewrite E0. unfold max_range. assert (St : stored C = []) by (unfold stored; rewrite E0; reflexivity). rewrite St. cbn [fold_left]. generalize (range_excl 0 (pr_angle C)) as l. induction l as [|a l IH]; cbn [fold_left]; [cbn; lia|exact IH]. }
    assert (Len : forall x y, (x = pr_range C /\ y = 0 \/ x = 0 /\ y = pr_range C)%Z -> In [x; y; t] (stored C) /\ (2 * pr_range C <= total_step gres [x; y; t])%Z).
    { intros x y H. split; [apply stored_spec; exists x, y, t; split; [reflexivity|]; split; [lia|]; split; [destruct H as [[-> ->]|[-> ->]]; lia|lia]|].
      unfold total_step. cbn [vx vy nth]. replace (x * x + y * y)%Z with (pr_range C * pr_range C)%Z by (destruct H as [[-> ->]|[-> ->]]; ring). rewrite mult_IZR, sqrt_square by (apply (IZR_le 0); exact R0).
      rewrite <- (lroundR_Z (2 * pr_range C)). apply lroundR_mono. rewrite mult_IZR. apply (IZR_le 0) in R0. apply (Rmult_le_reg_r gres); [lra|]. replace (IZR (pr_range C) / gres * gres) with (IZR (pr_range C)) by (field; lra). nra. }
    assert (Cell : forall x y, (x = pr_range C /\ y = 0 \/ x = 0 /\ y = pr_range C)%Z -> In [x; y; 0%Z] (pg_motion (page_of C gres ires computed 0 [x; y; t]))).
    { intros x y H. destruct (Len x y H) as [Hd HT]. unfold page_of. rewrite (straight_from_0 x y t ltac:(lia) Hp). set (T := total_step gres [x; y; t]) in *.
      set (q := mkPosef (inject_Z x * ((T - 1) # Z.to_pos T)) (inject_Z y * ((T - 1) # Z.to_pos T)) (inject_Z 0)).
      assert (Iq : In q (straight_samples 0 [x; y; t] T)). { unfold straight_samples. cbn [vx vy nth]. apply in_map_iff. exists (T - 1)%Z. split; [reflexivity|]. apply in_range_excl. lia. }
      pose proof (build_loop_cells (pr_angle C) (interp_step gres ires) [x; y; t] (straight_samples 0 [x; y; t] T) 0 [[x; y; t]] [] [] ltac:(auto) q Iq) as B.
      assert (E : to_cell (pr_angle C) q = [x; y; 0]%Z).
      { unfold to_cell, q. cbn [px py pt]. rewrite (last_sample x T), (last_sample y T) by lia. rewrite lround_Z, Z.mod_0_l by lia. reflexivity. }
      rewrite E in B. destruct B as [B|B]; [exfalso; injection B as B; lia|exact B]. }
    assert (Get : forall x y, (x = pr_range C /\ y = 0 \/ x = 0 /\ y = pr_range C)%Z -> (Z.abs x <= vx (max_range C gres ires computed) /\ Z.abs y <= vy (max_range C gres ires computed))%Z).
    { intros x y H. apply (max_range_ge 0 [x; y; t] [x; y; 0%Z]); [lia|apply Len; exact H|apply straight_from_0; [lia|exact Hp]|apply Cell; exact H]. }
    pose proof (Get (pr_range C) 0%Z ltac:(left; lia)). pose proof (Get 0%Z (pr_range C) ltac:(right; lia)). lia.
  Qed.
  (** The premise of C09 on the motion cache is met by the cache the code fills, for the moves the code tries: those that can be driven (near the start) and those that keep the heading (farther
      away). *)
  Definition planner_tries (yaw : Z) (d : vec) : Prop := exists p, d = goes C yaw p /\ in_range C p /\ (drivable C yaw p \/ snd p = 0%Z).
  Theorem C09_cache_is_fit_for_the_moves t : nearly_parallel t -> faithful C gres computed ->
    cache_ok planner_tries (reset_cache C gres ires computed) (pr_angle C) (pr_angle C) (max_range C gres ires computed).
  Proof.
    intros Ht HF yaw d pg m Hy (p & Ed & Hr & Hp) Ha Hm. apply assoc_reset in Ha as (_ & Hd & ->). destruct (max_range_covers t Ht) as [M1 M2]. pose proof (stored_box d Hd) as [B1 B2].
    destruct (straight_page C yaw d) eqn:Hs.
    - destruct (straight_cells yaw d m Hy Hd Hs Hm) as (G1 & G2 & G3). split; [lia|]. split; [intros _; split; assumption|]. intros _. lia.
    - assert (Hc : curve C yaw p).
      { destruct Hp as [[[P1 P2]|[(P1 & P2)|P]]|P1]; [| |exact P|].
        - exfalso. rewrite Ed in Hd. apply stored_spec in Hd as (x & y & t' & E & Hn & _). unfold goes in E. rewrite P1 in E. cbn [fst snd] in E. injection E as <- <- _. lia.
        - exfalso. revert Hs. rewrite Ed. unfold goes. rewrite P1, Z.add_0_r, Z.mod_small by lia. unfold straight_page, motion_of, rotate. cbn [vt nth]. replace (IZR yaw * pr_ang C + - IZR yaw * pr_ang C) with 0 by ring. pose proof PI_RGT_0.
          unfold normalize. destruct (Rlt_dec PI 0); [lra|]. destruct (Rlt_dec 0 (- PI)); [lra|]. rewrite sin_0, Rabs_R0. destruct (Rlt_dec 0 (1 / 10)); [discriminate|lra].
        - exfalso. revert Hs. rewrite Ed. unfold goes. rewrite P1, Z.add_0_r, Z.mod_small by lia. unfold straight_page, motion_of, rotate. cbn [vt nth]. replace (IZR yaw * pr_ang C + - IZR yaw * pr_ang C) with 0 by ring. pose proof PI_RGT_0.
          unfold normalize. destruct (Rlt_dec PI 0); [lra|]. destruct (Rlt_dec 0 (- PI)); [lra|]. rewrite sin_0, Rabs_R0. destruct (Rlt_dec 0 (1 / 10)); [discriminate|lra]. }
      subst d. destruct (curve_cells yaw p m HF Hy Hr Hc Hd Hs Hm) as (G1 & G2 & G3). split; [exact G1|]. split; [|intros _; lia].
      (* a curve ends with another heading *)
      intros E. exfalso. destruct Hc as (N & _). unfold goes in E. cbn [vt nth] in E. destruct Hr as [_ Hr]. apply N. rewrite (next_mod C) in E by assumption. unfold next_of in E. cbv zeta in E. destruct (_ <=? _)%Z; lia.
  Qed.

  Theorem C19_cache_starts_at_origin : faithful C gres computed -> starts_at_origin (reset_cache C gres ires computed).
  Proof.
    intros HF yaw d pg H. apply assoc_reset in H as (Hy & Hd & ->). pose proof (total_two d Hd) as T2. pose proof istep_pos as I0.
    assert (G : forall p rest, px p == 0 /\ py p == 0 /\ pt p == inject_Z yaw -> exists q rest', pg_interp (build_page (pr_angle C) (interp_step gres ires) d (p :: rest)) = q :: rest' /\ px q == 0 /\ py q == 0 /\ pt q == inject_Z yaw).
    { intros p rest Hp. unfold build_page. cbn [build_loop]. rewrite Z.rem_0_l by lia. cbn [Z.eqb app]. match goal with |- context [build_loop _ _ _ rest ?a ?b ?c ?e] => destruct (build_loop_head (pr_angle C) (interp_step gres ires) d rest a b c e) as [tl ->] end.
      exists p, tl. split; [reflexivity|exact Hp]. }
    unfold page_of. destruct (straight_page C yaw d) eqn:Hs.
    - assert (E : exists p rest, straight_samples yaw d (total_step gres d) = p :: rest /\ px p == 0 /\ py p == 0 /\ pt p == inject_Z yaw).
      { unfold straight_samples, range_excl, range_incl. replace (Z.to_nat (total_step gres d - 1 - 0 + 1)) with (Datatypes.S (Z.to_nat (total_step gres d - 1))) by lia. cbn [seq map]. eexists _, _. split; [reflexivity|]. cbn [px py pt].
        repeat split; try reflexivity; unfold Qeq, Qmult, inject_Z; cbn; lia. }
      destruct E as (p & rest & -> & Hp). apply G. exact Hp.
    - destruct (HF yaw d Hy Hd Hs) as (_ & (p & rest & -> & Hp) & _). apply G. exact Hp.
  Qed.
  Theorem C09_cache_covers_its_poses : cache_covered (reset_cache C gres ires computed) (pr_angle C).
  Proof.
    intros yaw d pg p H Hp. apply assoc_reset in H as (_ & _ & ->). destruct (page_interp_covered _ _ _ _ p Hp) as (c & Hc & ->). eexists. split; [exact Hc|apply to_cell_in_cell].
  Qed.
End Cache.

(** *** The planner with the cache it fills *)
Theorem C09_planner_with_its_own_cache {F} (K : cost_ops F) (L : cost_laws K) C gres ires computed t
    cm cm_hyst hyst thr N estim grids max_b fuel O ntask limit cl sts en rb ok ab path :
  let cache := reset_cache C gres ires computed in
  let band := max_range C gres ires computed in
  let M := planner_model K cm cm_hyst hyst thr cache (pr_angle C) (pr_range C) band max_b N estim grids in
  let size := [cm_w cm; cm_h cm; cm_a cm] in
  sane C -> 0 < gres <= 1 / 2 -> nearly_parallel C t -> faithful C gres computed ->
  cm_a cm = pr_angle C -> cm_w cm_hyst = cm_w cm -> cm_h cm_hyst = cm_h cm -> cm_a cm_hyst = cm_a cm ->
  (vx max_b = cm_w cm - vx band)%Z -> (vy max_b = cm_h cm - vy band)%Z ->
  (forall p ss e m, In m (grids p ss e) -> exists q, m = [fst (fst q); snd (fst q); snd q] /\ in_range C q /\ ((0 <= vt p < pr_angle C)%Z -> drivable C (vt p) q \/ snd q = 0%Z)) ->
  well_typed 2 size M sts en -> fair_sched O -> Forall (fun s => fleb K (fzero K) (snd s) = true) sts ->
  search K 2 size M fuel O ntask limit cl sts en rb = SDone ok ab path -> (ok = true \/ rb = true /\ path <> []) ->
  linked (fun a b => forall p, swept cache (pr_angle C) cm a b p -> free cm p) path /\ Forall (valid size) path /\
  exists r, interpolatePath cache (pr_angle C) path = Ok r /\ visits path r /\
    ((2 <= length path)%nat -> forall p, In p r -> exists c, free cm c /\ in_cell (pr_angle C) p c).
Proof.
  intros cache band M size S Hg Ht HF Ea Hw Hh Ha Bx By HG HT HO H0 E Hok.
  pose proof (A_pos C S) as Ap.
  assert (HG' : forall p ss e d, In d (grids p ss e) -> (Z.abs (vx d) <= pr_range C /\ Z.abs (vy d) <= pr_range C)%Z).
  { intros p ss e d Hd. destruct (HG p ss e d Hd) as (q & -> & [Hl _] & _). cbn [vx vy nth]. pose proof (proj1 (proj2 (proj2 S))). nia. }
  assert (HC : cache_ok (tried_by (cm_a cm) grids) cache (cm_a cm) (pr_angle C) band).
  { intros yaw d pg m Hy (p & ss & e & m' & Hm' & <- & Ed) Has Hm. rewrite Ea in *. destruct (HG p ss e m' Hm') as (q & -> & Hr & Hq). cbn [vx vy vt nth] in Ed.
    apply (C09_cache_is_fit_for_the_moves C S gres ires Hg computed t Ht HF (vt p) d pg m Hy); [|exact Has|exact Hm]. exists q. split; [exact Ed|]. split; [exact Hr|]. apply Hq. exact Hy. }
  destruct (C09_planned_path_sweeps_free_cells K L cm cm_hyst hyst thr cache (pr_angle C) (pr_range C) band max_b N estim grids fuel O ntask limit cl sts en rb ok ab path
    HT HO H0 HG' Hw Hh Ha (eq_sym Ea) Bx By HC E Hok) as [P1 P2].
  split; [exact P1|]. split; [exact P2|].
  destruct path as [|v rest]; [exists []; split; [reflexivity|]; split; [constructor|intros Hl; cbn in Hl; lia]|].
  destruct (interp_total cache (pr_angle C) Ap rest v) as [r Er]. exists r. split; [exact Er|]. split.
  - apply (interp_visits cache (pr_angle C) Ap (C19_cache_starts_at_origin C S gres ires Hg computed HF) rest v r); [|exact Er].
    eapply Forall_impl; [|exact P2]. intros a Va. apply valid3 in Va. rewrite <- Ea. tauto.
  - intros Hl p Hp. pose proof (C09_published_poses_lie_in_free_cells cache cm (v :: rest) r) as Q. rewrite Ea in Q. apply Q; try assumption.
    + apply C09_cache_covers_its_poses.
    + rewrite <- Ea. exact P2.
Qed.

(** *** The hypotheses are met *)
(** Points rounded to half cells. *)
Definition rounded (C : prim_cfg) (gres : R) (i : Z) (d : vec) : list posef :=
  map (fun k => let '(x, y) := curve_point C i d (INR k / IZR (total_step gres d)) in mkPosef (lroundR (2 * x) # 2) (lroundR (2 * y) # 2) (inject_Z i))
      (seq 0 (Z.to_nat (total_step gres d))).
Lemma rounded_faithful C gres : sane C -> 0 < gres <= 1 / 2 -> faithful C gres (rounded C gres).
Proof.
  intros S Hg i d Hi Hd Hs. pose proof (total_two C S gres Hg d Hd) as T2. unfold rounded. set (T := total_step gres d) in *. split; [rewrite map_length, seq_length; reflexivity|].
  assert (Near : forall x, Rabs (Q2R (lroundR (2 * x) # 2) - x) < 1 / 2).
  { intros x. pose proof (lroundR_near (2 * x)) as H. unfold Q2R. cbn [Qnum Qden]. apply Rabs_le_inv in H. apply Rabs_def1; lra. }
  split.
  - replace (Z.to_nat T) with (Datatypes.S (Z.to_nat (T - 1))) by lia. cbn [seq map]. change (INR 0) with 0. replace (0 / IZR T) with 0 by (unfold Rdiv; ring).
    assert (E : curve_point C i d 0 = (0, 0)).
    { unfold curve_point. destruct (motion_of C i d) as [[mx my] mt]. set (a := arc_r1 mx my mt). rewrite !Rmult_0_l, Rplus_0_r. f_equal; unfold Rdiv; ring. }
    rewrite E. eexists _, _. split; [reflexivity|]. cbn [px py pt]. rewrite Rmult_0_r, (lroundR_Z 0). repeat split; reflexivity.
  - intros k p Hk. rewrite nth_error_map in Hk. destruct (nth_error (seq 0 (Z.to_nat T)) k) as [k'|] eqn:Ek; [|discriminate]. cbn [option_map] in Hk.
    assert (k' = k). { assert (Hl : (k < Z.to_nat T)%nat) by (rewrite <- (seq_length (Z.to_nat T) 0); apply nth_error_Some; congruence). apply (nth_error_nth _ _ 0%nat) in Ek. rewrite seq_nth in Ek by exact Hl. lia. } subst k'.
    destruct (curve_point C i d (INR k / IZR T)) as [x y]. injection Hk as <-. cbn [px py fst snd]. split; apply Near.
Qed.
(** 16 headings, 5 cells: the cache is fit, and the curve 3 cells ahead, 1 to the left, turning by 45 degrees is in it. *)
Example ex_cache_fit : cache_ok (planner_tries ex_prim) (reset_cache ex_prim (1/10) (1/2) (rounded ex_prim (1/10))) 16 16 (max_range ex_prim (1/10) (1/2) (rounded ex_prim (1/10))) /\
  exists pg, assoc [3; 1; 2]%Z (reset_cache ex_prim (1/10) (1/2) (rounded ex_prim (1/10)) 0%Z) = Some pg.
Proof.
  assert (Hg : 0 < 1/10 <= 1/2) by lra. split.
  - apply (C09_cache_is_fit_for_the_moves ex_prim ex_prim_sane (1/10) (1/2) Hg _ 8%Z); [apply (even_parallel ex_prim ex_prim_sane 8%Z); reflexivity|apply rounded_faithful; [exact ex_prim_sane|exact Hg]].
  - unfold reset_cache. change (pr_angle ex_prim) with 16%Z. change ((0 <=? 0) && (0 <? 16))%Z%bool with true. cbv iota.
    assert (I : In [3; 1; 2]%Z (stored ex_prim)) by (apply (stored_spec ex_prim ex_prim_sane); exists 3%Z, 1%Z, 2%Z; split; [reflexivity|]; cbn [pr_range pr_angle ex_prim]; lia).
    revert I. generalize (stored ex_prim) as l. induction l as [|a l IH]; intros []; cbn [map assoc].
    + subst a. rewrite veq_refl. eauto.
    + destruct (veq a [3; 1; 2]%Z); [eauto|apply IH; assumption].
Qed.
Example ex_curve_tried l : moves_from ex_prim 0%Z l -> In (3, 1, 2)%Z l -> planner_tries ex_prim 0%Z [3; 1; 2]%Z.
Proof.
  intros M H. apply (moves_from_iff ex_prim 0%Z l _ ex_prim_sane) in H; [|cbn; lia|exact M]. exists (3, 1, 2)%Z. split; [reflexivity|]. split; [apply H|left; apply H].
Qed.

Print Assumptions C09_curves_stay_within_their_length.
Print Assumptions C09_cache_is_fit_for_the_moves.
Print Assumptions C09_cache_covers_its_poses.
Print Assumptions C19_cache_starts_at_origin.
Print Assumptions C09_planner_with_its_own_cache.
