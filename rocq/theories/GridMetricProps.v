(** Property C18: grid and metric coordinates round-trip. *)
From Coq Require Import Reals Lra ZifyBool.
From Flocq Require Import Core Relative.
From Verif Require Import Common GridMetric.
Local Open Scope R_scope.

(** *** Specification: the square of a cell, the sector of a heading. *)
Definition in_cell (m : mapinfo) (x y : Z) (gx gy : R) : Prop :=
  mi_ox m + IZR x * mi_res m <= gx < mi_ox m + (IZR x + 1) * mi_res m /\
  mi_oy m + IZR y * mi_res m <= gy < mi_oy m + (IZR y + 1) * mi_res m.
Definition in_sector (m : mapinfo) (yaw : Z) (gyaw : R) : Prop :=
  Rabs (gyaw - IZR yaw * mi_ang m) <= mi_ang m / 2.
Definition int32 (z : Z) : Prop := (- 2 ^ 31 <= z < 2 ^ 31)%Z.

Lemma to_int_ok z : int32 z -> to_int z = Ok z.
Proof. unfold int32, to_int. intros H. replace (_ && _)%bool with true by lia. reflexivity. Qed.

(** C18, exact arithmetic: the centre of every cell converts back to that cell. *)
Theorem C18_round_trip m x y yaw : 0 < mi_res m -> 0 < mi_ang m -> int32 x -> int32 y ->
  let '(gx, gy, gyaw) := grid2Metric exact exact m x y yaw in
  metric2Grid exact exact m gx gy gyaw = Ok (x, y, yaw).
Proof.
  intros Hr Ha Hx Hy. unfold grid2Metric, metric2Grid, exact.
  replace (((IZR x + 1 / 2) * mi_res m + mi_ox m - mi_ox m) / mi_res m) with (IZR x + 1/2) by (field; lra).
  replace (((IZR y + 1 / 2) * mi_res m + mi_oy m - mi_oy m) / mi_res m) with (IZR y + 1/2) by (field; lra).
  replace (IZR yaw * mi_ang m / mi_ang m) with (IZR yaw) by (field; lra).
  rewrite (Zfloor_imp x), (Zfloor_imp y) by (rewrite plus_IZR; lra).
  rewrite !to_int_ok by assumption. cbn [bind].
  rewrite (Znearest_imp _ _ yaw); [reflexivity|].
  replace (IZR yaw - IZR yaw) with 0 by ring. rewrite Rabs_R0. lra.
Qed.

(** C18, exact arithmetic: every metric position converts to the cell whose square
    contains it and to the nearest heading, and only to that cell. *)
Theorem C18_position_converts_to_its_cell m gx gy gyaw x y yaw : 0 < mi_res m -> 0 < mi_ang m ->
  metric2Grid exact exact m gx gy gyaw = Ok (x, y, yaw) ->
  in_cell m x y gx gy /\ in_sector m yaw gyaw.
Proof.
  intros Hr Ha. unfold metric2Grid, exact, to_int.
  destruct (_ && _)%bool; [|discriminate]. cbn [bind].
  destruct (_ && _)%bool; [|discriminate]. cbn [bind]. intros E. injection E as <- <- <-.
  assert (F : forall g o, o + IZR (Zfloor ((g - o) / mi_res m)) * mi_res m <= g <
                          o + (IZR (Zfloor ((g - o) / mi_res m)) + 1) * mi_res m).
  { intros g o. pose proof (Zfloor_lb ((g - o) / mi_res m)) as H1. pose proof (Zfloor_ub ((g - o) / mi_res m)) as H2.
    assert (E : (g - o) / mi_res m * mi_res m = g - o) by (field; lra).
    apply (Rmult_le_compat_r (mi_res m)) in H1; [|lra]. apply (Rmult_lt_compat_r (mi_res m)) in H2; [|lra].
    rewrite E in H1, H2. lra. }
  split; [split; apply F|]. unfold in_sector.
  pose proof (Znearest_half (Z.leb 0) (gyaw / mi_ang m)) as H.
  replace (gyaw - IZR (Znearest (Z.leb 0) (gyaw / mi_ang m)) * mi_ang m)
    with ((gyaw / mi_ang m - IZR (Znearest (Z.leb 0) (gyaw / mi_ang m))) * mi_ang m) by (field; lra).
  rewrite Rabs_mult, (Rabs_pos_eq (mi_ang m)) by lra.
  replace (mi_ang m / 2) with (/ 2 * mi_ang m) by field. apply Rmult_le_compat_r; lra.
Qed.
(** ... and the conversion is defined exactly for the positions whose cell numbers fit an int. *)
Theorem C18_conversion_defined_iff m gx gy gyaw : 0 < mi_res m ->
  (exists r, metric2Grid exact exact m gx gy gyaw = Ok r) <->
  (mi_ox m - 2147483648 * mi_res m <= gx < mi_ox m + 2147483648 * mi_res m /\
   mi_oy m - 2147483648 * mi_res m <= gy < mi_oy m + 2147483648 * mi_res m).
Proof.
  intros Hr.
  assert (F : forall g o, ((- 2 ^ 31 <=? Zfloor ((g - o) / mi_res m)) && (Zfloor ((g - o) / mi_res m) <? 2 ^ 31))%Z = true
            <-> o - 2147483648 * mi_res m <= g < o + 2147483648 * mi_res m).
  { intros g o. rewrite Bool.andb_true_iff, Z.leb_le, Z.ltb_lt.
    change (- 2 ^ 31)%Z with (-2147483648)%Z. change (2 ^ 31)%Z with 2147483648%Z.
    assert (E : g - o = (g - o) / mi_res m * mi_res m) by (field; lra).
    pose proof (Zfloor_lb ((g - o) / mi_res m)) as L. pose proof (Zfloor_ub ((g - o) / mi_res m)) as U.
    set (q := (g - o) / mi_res m) in *. split.
    - intros [A B]. apply IZR_le in A. assert (B' : (Zfloor q + 1 <= 2147483648)%Z) by lia.
      apply IZR_le in B'. rewrite plus_IZR in B'. split; nra.
    - intros [A B]. split.
      + apply Zfloor_lub. nra.
      + apply lt_IZR. apply Rle_lt_trans with q; [exact L|]. nra. }
  unfold metric2Grid, exact, to_int. pose proof (F gx (mi_ox m)) as Fx. pose proof (F gy (mi_oy m)) as Fy.
  destruct (_ && _)%bool.
  - cbn [bind]. destruct (_ && _)%bool; cbn [bind].
    + split; [intros _; tauto|eauto].
    + split; [intros [r E]; discriminate|intros [_ H]; apply Fy in H; discriminate].
  - cbn [bind]. split; [intros [r E]; discriminate|intros [H _]; apply Fx in H; discriminate].
Qed.
Theorem C18_cell_is_found m gx gy gyaw x y : 0 < mi_res m -> int32 x -> int32 y -> in_cell m x y gx gy ->
  exists yaw, metric2Grid exact exact m gx gy gyaw = Ok (x, y, yaw).
Proof.
  intros Hr Hx Hy [H1 H2]. unfold metric2Grid, exact.
  assert (F : forall g o k, o + IZR k * mi_res m <= g < o + (IZR k + 1) * mi_res m ->
                Zfloor ((g - o) / mi_res m) = k).
  { intros g o k [A B]. apply Zfloor_imp. rewrite plus_IZR.
    assert (E : g - o = (g - o) / mi_res m * mi_res m) by (field; lra). split.
    - apply (Rmult_le_reg_r (mi_res m)); [lra|]. rewrite <- E. lra.
    - apply (Rmult_lt_reg_r (mi_res m)); [lra|]. rewrite <- E. lra. }
  rewrite (F _ _ _ H1), (F _ _ _ H2), !to_int_ok by assumption. cbn [bind]. eexists. reflexivity.
Qed.

(** C18, exact arithmetic: an interpolated grid position within half a cell of a cell is published inside the square of that cell,
    with the heading unchanged up to the scale. *)
Theorem C18_path_position_stays_in_its_cell m x y yaw kx ky : 0 < mi_res m ->
  IZR kx - 1/2 <= x < IZR kx + 1/2 -> IZR ky - 1/2 <= y < IZR ky + 1/2 ->
  let '(gx, gy, gyaw) := grid2MetricF exact exact m x y yaw in in_cell m kx ky gx gy /\ gyaw = yaw * mi_ang m.
Proof. intros Hr Hx Hy. unfold grid2MetricF, exact, in_cell. split; [|reflexivity]. split; split; nra. Qed.
(** The two conversions with float grid positions are not inverse: one counts from cell centres, the other from cell corners. *)
Theorem C18_float_positions_shift_half_a_cell m x y yaw : 0 < mi_res m -> 0 < mi_ang m ->
  let '(gx, gy, gyaw) := grid2MetricF exact exact m x y yaw in metric2GridF exact exact m gx gy gyaw = (x + 1/2, y + 1/2, yaw).
Proof. intros Hr Ha. unfold grid2MetricF, metric2GridF, exact. f_equal; [f_equal|]; field; lra. Qed.
Example C18_path_position_example : IZR 3 - 1/2 <= 27/10 < IZR 3 + 1/2.
Proof. lra. Qed.

(** Adjacent cells have disjoint squares: the answer is unique. *)
Theorem C18_cells_are_disjoint m x y x' y' gx gy : 0 < mi_res m ->
  in_cell m x y gx gy -> in_cell m x' y' gx gy -> x = x' /\ y = y'.
Proof.
  intros Hr [A B] [C D].
  assert (F : forall g o j k, o + IZR j * mi_res m <= g < o + (IZR j + 1) * mi_res m ->
                o + IZR k * mi_res m <= g < o + (IZR k + 1) * mi_res m -> (j <= k)%Z).
  { intros g o j k [J1 J2] [K1 K2]. apply Z.lt_succ_r. apply lt_IZR. unfold Z.succ. rewrite plus_IZR.
    apply (Rmult_lt_reg_r (mi_res m)); lra. }
  split; apply Z.le_antisymm; eapply F; eassumption.
Qed.

(** *** The same with IEEE rounding of every operation. *)
Definition near_id (u h : R) (r : R -> R) : Prop := forall x, Rabs (r x - x) <= u * Rabs x + h.

Lemma rnd32_near : near_id (/ 16777216) (bpow radix2 (-150)) rnd32.
Proof.
  intros x. destruct (error_N_FLT radix2 (-149) 24 eq_refl (fun z => negb (Z.even z)) x) as (e & h & He & Hh & _ & E).
  unfold rnd32. rewrite E. replace (x * (1 + e) + h - x) with (e * x + h) by ring.
  eapply Rle_trans; [apply Rabs_triang|]. rewrite Rabs_mult. apply Rplus_le_compat.
  - apply Rmult_le_compat_r; [apply Rabs_pos|]. eapply Rle_trans; [exact He|].
    change (bpow radix2 (-24 + 1)) with (/ IZR (Z.pow_pos 2 23)). simpl. lra.
  - eapply Rle_trans; [exact Hh|]. change (-149)%Z with (1 + -150)%Z. rewrite bpow_plus. simpl (bpow radix2 1).
    pose proof (bpow_gt_0 radix2 (-150)). lra.
Qed.
Lemma rnd64_near : near_id (/ 9007199254740992) (bpow radix2 (-1075)) rnd64.
Proof.
  intros x. destruct (error_N_FLT radix2 (-1074) 53 eq_refl (fun z => negb (Z.even z)) x) as (e & h & He & Hh & _ & E).
  unfold rnd64. rewrite E. replace (x * (1 + e) + h - x) with (e * x + h) by ring.
  eapply Rle_trans; [apply Rabs_triang|]. rewrite Rabs_mult. apply Rplus_le_compat.
  - apply Rmult_le_compat_r; [apply Rabs_pos|]. eapply Rle_trans; [exact He|].
    change (bpow radix2 (-53 + 1)) with (/ IZR (Z.pow_pos 2 52)). simpl. lra.
  - eapply Rle_trans; [exact Hh|]. change (-1074)%Z with (1 + -1075)%Z. rewrite bpow_plus. simpl (bpow radix2 1).
    pose proof (bpow_gt_0 radix2 (-1075)). lra.
Qed.

Lemma near_id_weaken u h h' r : h <= h' -> near_id u h r -> near_id u h' r.
Proof. intros H N x. specialize (N x). lra. Qed.

Lemma step_bound u h r x e M : near_id u h r -> 0 <= u -> Rabs x <= M -> u * M + h <= e -> x - e <= r x <= x + e.
Proof.
  intros N Hu HM He. specialize (N x). apply Rabs_le_inv in N.
  assert (u * Rabs x <= u * M) by (apply Rmult_le_compat_l; assumption). lra.
Qed.

Section Float.
  Variables (r32 r64 : R -> R) (h : R).
  Hypothesis (N32 : near_id (/ 16777216) h r32) (N64 : near_id (/ 9007199254740992) h r64).

  Lemma axis_float (res o : R) (x : Z) : 0 < res -> h <= res / 1048576 -> h <= / 1048576 ->
    (Z.abs x <= 1048576)%Z -> Rabs o <= 1048576 * res ->
    Zfloor (r64 (r64 (r32 (r64 (r64 ((IZR x + 1/2) * res) + o)) - o) / res)) = x.
  Proof.
    intros Hr Hh Hh1 Hx Ho. apply Rabs_le_inv in Ho.
    assert (Hx' : -1048576 <= IZR x <= 1048576).
    { split; apply IZR_le; lia. }
    set (a := (IZR x + 1/2) * res).
    assert (Ha : -1048577 * res <= a <= 1048577 * res) by (unfold a; split; nra).
    assert (P1 : a - res / 1000000 <= r64 a <= a + res / 1000000).
    { apply (step_bound _ _ r64 a _ (1048577 * res) N64); [lra|apply Rabs_le; lra|lra]. }
    set (p1 := r64 a) in *. clearbody p1.
    assert (P2 : p1 + o - res / 1000000 <= r64 (p1 + o) <= p1 + o + res / 1000000).
    { apply (step_bound _ _ r64 (p1 + o) _ (2097155 * res) N64); [lra|apply Rabs_le; lra|lra]. }
    set (p2 := r64 (p1 + o)) in *. clearbody p2.
    assert (P3 : p2 - res * (13/100) <= r32 p2 <= p2 + res * (13/100)).
    { apply (step_bound _ _ r32 p2 _ (2097157 * res) N32); [lra|apply Rabs_le; lra|lra]. }
    set (g := r32 p2) in *. clearbody g.
    assert (P4 : g - o - res / 1000000 <= r64 (g - o) <= g - o + res / 1000000).
    { apply (step_bound _ _ r64 (g - o) _ (1048580 * res) N64); [lra|apply Rabs_le; lra|lra]. }
    set (d := r64 (g - o)) in *. clearbody d.
    assert (Hd : IZR x + 1/2 - 14/100 <= d / res <= IZR x + 1/2 + 14/100).
    { assert (E : d = d / res * res) by (field; lra). unfold a in *. split; apply (Rmult_le_reg_r res); try lra; rewrite <- E; lra. }
    assert (P5 : d / res - 1/1000 <= r64 (d / res) <= d / res + 1/1000).
    { apply (step_bound _ _ r64 (d / res) _ 1048580 N64); [lra|apply Rabs_le; lra|lra]. }
    apply Zfloor_imp. rewrite plus_IZR. lra.
  Qed.

  Lemma yaw_float (ang : R) (k : Z) : 0 < ang -> h <= ang / 1048576 -> h <= / 1048576 ->
    (Z.abs k <= 1048576)%Z ->
    Znearest (Z.leb 0) (r32 (r32 (r32 (IZR k) * ang) / ang)) = k.
  Proof.
    intros Ha Hh Hh1 Hk.
    assert (Hk' : -1048576 <= IZR k <= 1048576) by (split; apply IZR_le; lia).
    assert (Q0 : IZR k - 7/100 <= r32 (IZR k) <= IZR k + 7/100).
    { apply (step_bound _ _ r32 (IZR k) _ 1048576 N32); [lra|apply Rabs_le; lra|lra]. }
    set (k0 := r32 (IZR k)) in *. clearbody k0.
    assert (Hm : -1048577 * ang <= k0 * ang <= 1048577 * ang) by (split; nra).
    assert (Q1 : k0 * ang - ang * (7/100) <= r32 (k0 * ang) <= k0 * ang + ang * (7/100)).
    { apply (step_bound _ _ r32 (k0 * ang) _ (1048577 * ang) N32); [lra|apply Rabs_le; lra|lra]. }
    set (g := r32 (k0 * ang)) in *. clearbody g.
    assert (Hd : k0 - 7/100 <= g / ang <= k0 + 7/100).
    { assert (E : g = g / ang * ang) by (field; lra). split; apply (Rmult_le_reg_r ang); try lra; rewrite <- E; lra. }
    assert (Q2 : g / ang - 7/100 <= r32 (g / ang) <= g / ang + 7/100).
    { apply (step_bound _ _ r32 (g / ang) _ 1048577 N32); [lra|apply Rabs_le; lra|lra]. }
    apply Znearest_imp. apply Rabs_lt. lra.
  Qed.
End Float.

(** C18, floating point: with every operation rounded as in IEEE single/double
    arithmetic, the round trip still returns the same cell for every map of up to about
    a million cells per axis whose origin is within a million cells of zero. *)
Theorem C18_round_trip_ieee m x y yaw :
  / 1048576 <= mi_res m -> / 1048576 <= mi_ang m ->
  (Z.abs x <= 1048576)%Z -> (Z.abs y <= 1048576)%Z -> (Z.abs yaw <= 1048576)%Z ->
  Rabs (mi_ox m) <= 1048576 * mi_res m -> Rabs (mi_oy m) <= 1048576 * mi_res m ->
  let '(gx, gy, gyaw) := grid2Metric rnd32 rnd64 m x y yaw in
  metric2Grid rnd32 rnd64 m gx gy gyaw = Ok (x, y, yaw).
Proof.
  intros Hr Ha Hx Hy Hk Hox Hoy. unfold grid2Metric, metric2Grid.
  pose proof rnd32_near as N32. pose proof rnd64_near as N64.
  assert (H0 : bpow radix2 (-1075) <= bpow radix2 (-150)) by (apply bpow_le; lia).
  assert (H1 : bpow radix2 (-150) <= / 1048576 / 1048576).
  { eapply Rle_trans; [apply (bpow_le radix2 (-150) (-40)); lia|].
    change (bpow radix2 (-40)) with (/ IZR (Z.pow_pos 2 40)). simpl. lra. }
  apply (near_id_weaken _ _ _ _ H0) in N64.
  rewrite !(axis_float rnd32 rnd64 _ N32 N64) by (assumption || lra).
  rewrite !to_int_ok by (unfold int32; lia). cbn [bind].
  rewrite (yaw_float rnd32 _ N32) by (assumption || lra). reflexivity.
Qed.

(** Non-vacuity: a 5 cm grid with a negative origin, 16 headings. *)
Example C18_example : let m := mkMI (5/100) (PI / 8) (-10) (-20) in
  0 < mi_res m /\ 0 < mi_ang m /\ / 1048576 <= mi_res m /\ Rabs (mi_oy m) <= 1048576 * mi_res m /\
  in_cell m 200 400 (1/100) (2/100).
Proof.
  pose proof PI_RGT_0. cbn [mi_res mi_ang mi_oy]. repeat split; cbn [mi_ox mi_oy mi_res]; try lra.
  apply Rabs_le. lra.
Qed.

Print Assumptions C18_round_trip.
Print Assumptions C18_position_converts_to_its_cell.
Print Assumptions C18_cell_is_found.
Print Assumptions C18_conversion_defined_iff.
Print Assumptions C18_cells_are_disjoint.
Print Assumptions C18_round_trip_ieee.

Print Assumptions C18_path_position_stays_in_its_cell.
Print Assumptions C18_float_positions_shift_half_a_cell.
