(** C79: the ends of the two links keep clear of each other along every planned motion. *)
From Coq Require Import List ZArith QArith Qround Qreals Qabs Lia Lra Psatz FunctionalExtensionality Reals.
From Flocq Require Import Core.Core IEEE754.BinarySingleNaN.
From Verif Require Import Common CyclicVec CyclicVecSpec CyclicVecProofs CostAlg CostF32 FloatLib MotionCache Motion3DProofs SafetyLimiter BbfFloat Joint2D Joint2DProofs Joint2DProps DummyRobotProps LinkBody.
Import ListNotations.
Local Open Scope R_scope.

(** ** Specification *)
(** Distance in the plane. *)
Definition away (a b : R * R) : R := sqrt ((fst a - fst b) * (fst a - fst b) + (snd a - snd b) * (snd a - snd b)).
(** Where the end of a link is when its joint is at the angle [th]. *)
Definition end_at (l : link) (th : R) (p : R * R) : Prop := fst p = k_x l + k_len l * cos (k_th l + k_gain l * th) /\ snd p = k_y l + k_len l * sin (k_th l + k_gain l * th).
(** The discs around the ends of both links, and around the end of one and the joint of the other, do not overlap, up to the way that the ends move when
    the joints turn by [m]. *)
Definition clear (m : R) (l0 l1 : link) (a b : R) : Prop := forall p0 p1, end_at l0 a p0 -> end_at l1 b p1 ->
  k_re l0 + k_re l1 - m * (Rabs (k_gain l0 * k_len l0) + Rabs (k_gain l1 * k_len l1)) <= away p0 p1 /\
  k_re l0 + k_rj l1 - m * Rabs (k_gain l0 * k_len l0) <= away p0 (k_x l1, k_y l1) /\
  k_re l1 + k_rj l0 - m * Rabs (k_gain l1 * k_len l1) <= away p1 (k_x l0, k_y l0).
Definition whole_gain (l : link) : Prop := exists g : Z, k_gain l = IZR g.

(** ** Geometry *)
Lemma away_sym a b : away a b = away b a.
Proof. unfold away. f_equal. ring. Qed.
Lemma dist_away a b : dist a b = away a b.
Proof. unfold dist, away. f_equal. ring. Qed.
Lemma away_triangle a b c : away a c <= away a b + away b c.
Proof.
  unfold away. assert (H := norm_triangle (fst a - fst b) (snd a - snd b) (fst b - fst c) (snd b - snd c)).
  replace (fst a - fst b + (fst b - fst c)) with (fst a - fst c) in H by ring. replace (snd a - snd b + (snd b - snd c)) with (snd a - snd c) in H by ring. exact H.
Qed.
Lemma end_tip l th p : end_at l th p <-> p = tip l th.
Proof.
  unfold end_at, tip. destruct p as [x y]. cbn [fst snd]. rewrite (Rmult_comm (k_gain l) th), (Rmult_comm (k_len l)), (Rmult_comm (k_len l)).
  split; [intros [-> ->]; reflexivity|intros [= -> ->]; auto].
Qed.
Lemma chord a b : (cos a - cos b) * (cos a - cos b) + (sin a - sin b) * (sin a - sin b) <= (a - b) * (a - b).
Proof.
  assert (E : (cos a - cos b) * (cos a - cos b) + (sin a - sin b) * (sin a - sin b) = 2 - 2 * cos (a - b)).
  { rewrite cos_minus. assert (A := sin2_cos2 a). assert (B := sin2_cos2 b). unfold Rsqr in *. nra. }
  rewrite E. replace (a - b) with (2 * ((a - b) / 2)) at 1 by field. rewrite cos_2a_sin. set (h := (a - b) / 2).
  assert (L := sin_lip h 0). rewrite sin_0, !Rminus_0_r in L.
  assert (Q : sin h * sin h <= h * h). { assert (Q := Rmult_le_compat _ _ _ _ (Rabs_pos _) (Rabs_pos _) L L). rewrite <- !Rabs_mult, !Rabs_right in Q by nra. exact Q. }
  replace (a - b) with (2 * h) by (unfold h; field). nra.
Qed.
(** The end of a link moves at most by the length (times the gain) for each radian. *)
Lemma tip_lip l a b : away (tip l a) (tip l b) <= Rabs (k_gain l * k_len l) * Rabs (a - b).
Proof.
  unfold away, tip. cbn [fst snd]. rewrite <- Rabs_mult. apply sqrt_le_left || idtac.
  rewrite <- (sqrt_Rsqr_abs (k_gain l * k_len l * (a - b))). apply sqrt_le_1_alt. unfold Rsqr.
  assert (C := chord (k_th l + a * k_gain l) (k_th l + b * k_gain l)).
  replace (k_th l + a * k_gain l - (k_th l + b * k_gain l)) with (k_gain l * (a - b)) in C by ring.
  set (c := cos (k_th l + a * k_gain l)) in *. set (c' := cos (k_th l + b * k_gain l)) in *. set (s := sin (k_th l + a * k_gain l)) in *. set (s' := sin (k_th l + b * k_gain l)) in *.
  replace ((k_x l + c * k_len l - (k_x l + c' * k_len l)) * (k_x l + c * k_len l - (k_x l + c' * k_len l)) + (k_y l + s * k_len l - (k_y l + s' * k_len l)) * (k_y l + s * k_len l - (k_y l + s' * k_len l)))
    with (k_len l * k_len l * ((c - c') * (c - c') + (s - s') * (s - s'))) by ring.
  replace (k_gain l * k_len l * (a - b) * (k_gain l * k_len l * (a - b))) with (k_len l * k_len l * (k_gain l * (a - b) * (k_gain l * (a - b)))) by ring.
  apply Rmult_le_compat_l; [nra|exact C].
Qed.

(** The test finds exactly the overlaps of the end discs with each other and with the joint of the other link. *)
Theorem C79_test_is_exact_for_the_ends l0 l1 a b : isCollide l0 l1 a b = false <-> clear 0 l0 l1 a b.
Proof.
  unfold isCollide, clear. rewrite !dist_away. rewrite !Rmult_0_l, !Rminus_0_r. split.
  - intros H p0 p1 H0 H1. apply end_tip in H0. apply end_tip in H1. subst.
    destruct (Rlt_dec _ _); [discriminate|]. destruct (Rlt_dec _ _); [discriminate|]. destruct (Rlt_dec _ _); [discriminate|]. unfold joint in *. repeat split; lra.
  - intros H. destruct (H (tip l0 a) (tip l1 b)) as (A & B & C); [apply end_tip; reflexivity|apply end_tip; reflexivity|].
    unfold joint. repeat (destruct (Rlt_dec _ _); [lra|]). reflexivity.
Qed.
Lemma clear_near m l0 l1 a b a' b' : isCollide l0 l1 a b = false -> Rabs (a' - a) <= m -> Rabs (b' - b) <= m -> clear m l0 l1 a' b'.
Proof.
  intros H A B p0 p1 H0 H1. apply C79_test_is_exact_for_the_ends in H. apply end_tip in H0. apply end_tip in H1. subst.
  destruct (H (tip l0 a) (tip l1 b)) as (C & D & E); [apply end_tip; reflexivity|apply end_tip; reflexivity|]. rewrite !Rmult_0_l, !Rminus_0_r in *.
  assert (T0 := tip_lip l0 a' a). assert (T1 := tip_lip l1 b' b). assert (P0 := Rabs_pos (k_gain l0 * k_len l0)). assert (P1 := Rabs_pos (k_gain l1 * k_len l1)).
  assert (U0 : away (tip l0 a) (tip l0 a') <= m * Rabs (k_gain l0 * k_len l0)) by (rewrite away_sym; nra).
  assert (U1 : away (tip l1 b) (tip l1 b') <= m * Rabs (k_gain l1 * k_len l1)) by (rewrite away_sym; nra).
  repeat split.
  - assert (X := away_triangle (tip l0 a) (tip l0 a') (tip l1 b)). assert (Y := away_triangle (tip l0 a') (tip l1 b') (tip l1 b)). rewrite (away_sym (tip l1 b') (tip l1 b)) in Y. lra.
  - assert (X := away_triangle (tip l0 a) (tip l0 a') (k_x l1, k_y l1)). lra.
  - assert (X := away_triangle (tip l1 b) (tip l1 b') (k_x l0, k_y l0)). lra.
Qed.

(** With whole gains the configurations repeat every full turn. *)
Lemma cos_periodic x k : cos (x + 2 * IZR k * PI) = cos x.
Proof.
  destruct (Z.le_gt_cases 0 k) as [H|H].
  - rewrite <- (Z2Nat.id k H), <- INR_IZR_INZ. apply cos_period.
  - rewrite <- (cos_period (x + 2 * IZR k * PI) (Z.to_nat (- k))). f_equal. rewrite INR_IZR_INZ, Z2Nat.id by lia. rewrite opp_IZR. ring.
Qed.
Lemma sin_periodic x k : sin (x + 2 * IZR k * PI) = sin x.
Proof.
  destruct (Z.le_gt_cases 0 k) as [H|H].
  - rewrite <- (Z2Nat.id k H), <- INR_IZR_INZ. apply sin_period.
  - rewrite <- (sin_period (x + 2 * IZR k * PI) (Z.to_nat (- k))). f_equal. rewrite INR_IZR_INZ, Z2Nat.id by lia. rewrite opp_IZR. ring.
Qed.
Lemma tip_periodic l x k : whole_gain l -> tip l (x + 2 * IZR k * PI) = tip l x.
Proof.
  intros [g G]. unfold tip. rewrite G. replace (k_th l + (x + 2 * IZR k * PI) * IZR g) with (k_th l + x * IZR g + 2 * IZR (k * g) * PI) by (rewrite mult_IZR; ring).
  rewrite cos_periodic, sin_periodic. reflexivity.
Qed.
Lemma collide_periodic l0 l1 a b j k : whole_gain l0 -> whole_gain l1 -> isCollide l0 l1 (a + 2 * IZR j * PI) (b + 2 * IZR k * PI) = isCollide l0 l1 a b.
Proof. intros H0 H1. unfold isCollide. rewrite !tip_periodic by assumption. reflexivity. Qed.
Lemma rad_turn res x k : (0 < res)%Z -> rad res (x + IZR k * IZR res) = rad res x + 2 * IZR k * PI.
Proof. intros H. unfold rad. field. apply not_0_IZR. lia. Qed.
Lemma cell_mod l0 l1 res p : (0 < res)%Z -> whole_gain l0 -> whole_gain l1 -> cell_collides l0 l1 res (fst p mod res, snd p mod res)%Z = cell_collides l0 l1 res p.
Proof.
  intros H G0 G1. unfold cell_collides. cbn [fst snd]. rewrite (Zmod_eq_full (fst p) res), (Zmod_eq_full (snd p) res) by lia.
  replace (IZR (fst p - fst p / res * res - res)) with (IZR (fst p - res) + IZR (- (fst p / res)) * IZR res) by (rewrite <- mult_IZR, <- plus_IZR; f_equal; ring).
  replace (IZR (snd p - snd p / res * res - res)) with (IZR (snd p - res) + IZR (- (snd p / res)) * IZR res) by (rewrite <- mult_IZR, <- plus_IZR; f_equal; ring).
  rewrite !rad_turn by exact H. apply collide_periodic; assumption.
Qed.

(** ** Along a move *)
(** Every point of the segment is within 1.1 cells (per joint) of a checked cell or of the end. *)
Lemma near_sample res cur d t : (1 <= res <= 1024)%Z -> in_joint_map res cur = true -> (Z.abs (fst d) <= 512)%Z -> (Z.abs (snd d) <= 512)%Z -> 0 <= t <= 1 ->
  exists p, (In p (sample_cells cur d) \/ p = (fst cur + fst d, snd cur + snd d)%Z) /\
    Rabs (IZR (fst cur) + t * IZR (fst d) - IZR (fst p)) <= 11 / 10 /\ Rabs (IZR (snd cur) + t * IZR (snd d) - IZR (snd p)) <= 11 / 10.
Proof.
  intros Hr Hc D0 D1 Ht. destruct (travel_facts d D0 D1) as (T & T0 & T1).
  destruct (Z.eq_dec (travel d) 0) as [Z0|Z0].
  { pose proof (travel_zero d D0 D1 Z0) as E. exists (fst cur + fst d, snd cur + snd d)%Z. split; [right; reflexivity|]. rewrite E. cbn [fst snd]. rewrite !Z.add_0_r, !Rmult_0_r, !Rplus_0_r, !Rminus_diag_eq by reflexivity. rewrite Rabs_R0. lra. }
  assert (N1 : (1 <= travel d <= 724)%Z) by lia.
  assert (C0 : (0 <= fst cur < 2048)%Z) by (unfold in_joint_map in Hc; lia). assert (C1 : (0 <= snd cur < 2048)%Z) by (unfold in_joint_map in Hc; lia).
  set (n := travel d) in *. assert (Nr : 1 <= IZR n) by (apply IZR_le; lia).
  set (z := Int_part (t * IZR n + 1 / 2)). destruct (base_Int_part (t * IZR n + 1 / 2)) as [B1 B2]. fold z in B1, B2.
  assert (Z1 : (0 <= z)%Z). { assert (-1 < z)%Z; [|lia]. apply lt_IZR. assert (0 <= t * IZR n) by nra. lra. }
  assert (Z2 : (z <= n)%Z). { assert (z < n + 1)%Z; [|lia]. apply lt_IZR. rewrite plus_IZR. assert (t * IZR n <= IZR n) by nra. lra. }
  assert (ST : forall e, (Z.abs e <= n)%Z -> Rabs (t * IZR e - IZR z * (IZR e / IZR n)) <= 1 / 2).
  { intros e He. replace (t * IZR e - IZR z * (IZR e / IZR n)) with ((t * IZR n - IZR z) * (IZR e / IZR n)) by (field; lra). rewrite Rabs_mult.
    assert (A : Rabs (t * IZR n - IZR z) <= 1 / 2) by (apply Rabs_le; lra).
    assert (B : Rabs (IZR e / IZR n) <= 1). { unfold Rdiv. rewrite Rabs_mult, (Rabs_right (/ IZR n)) by (apply Rle_ge, Rlt_le, Rinv_0_lt_compat; lra).
      apply (Rmult_le_reg_r (IZR n)); [lra|]. rewrite Rmult_assoc, Rinv_l, Rmult_1_r, Rmult_1_l by lra. rewrite <- abs_IZR. apply IZR_le. exact He. }
    assert (P := Rabs_pos (t * IZR n - IZR z)). assert (P' := Rabs_pos (IZR e / IZR n)). nra. }
  destruct (Z.eq_dec z n) as [E|E].
  - exists (fst cur + fst d, snd cur + snd d)%Z. split; [right; reflexivity|]. cbn [fst snd]. rewrite !plus_IZR.
    assert (S0 := ST _ T0). assert (S1 := ST _ T1). rewrite E in S0, S1.
    replace (IZR n * (IZR (fst d) / IZR n)) with (IZR (fst d)) in S0 by (field; lra). replace (IZR n * (IZR (snd d) / IZR n)) with (IZR (snd d)) in S1 by (field; lra).
    replace (IZR (fst cur) + t * IZR (fst d) - (IZR (fst cur) + IZR (fst d))) with (t * IZR (fst d) - IZR (fst d)) by ring.
    replace (IZR (snd cur) + t * IZR (snd d) - (IZR (snd cur) + IZR (snd d))) with (t * IZR (snd d) - IZR (snd d)) by ring. split; lra.
  - set (i := Z.to_nat z). assert (Ei : Z.of_nat i = z) by (unfold i; lia). assert (I : (Z.of_nat i < n)%Z) by lia.
    pose proof (axis_close (fst cur) (fst d) n C0 D0 T0 N1 i I) as A0. pose proof (axis_close (snd cur) (snd d) n C1 D1 T1 N1 i I) as A1.
    eexists. split; [left; eapply nth_error_In; unfold sample_cells; fold n; apply (samples_nth (Z.to_nat n) _ _ _ _ i); lia|]. cbn [fst snd].
    unfold Joint2DProofs.ideal in A0, A1. rewrite Ei in A0, A1. assert (S0 := ST _ T0). assert (S1 := ST _ T1).
    apply Rabs_le_inv in A0, A1, S0, S1. split; apply Rabs_le; lra.
Qed.

Lemma shortest_same res p q d d' : (0 < res)%Z -> shortest_way res p q d -> shortest_way res p q d' -> d = d'.
Proof.
  intros H ([k1 A] & [k2 B] & C & D) ([j1 A'] & [j2 B'] & C' & D'). destruct (half_facts res H) as [_ E]. unfold signed_range in *.
  destruct d as [x y], d' as [x' y']. cbn [fst snd] in *. assert (k1 = j1) by nia. assert (k2 = j2) by nia. subst. f_equal; lia.
Qed.

Section Motion.
  Variables (c0 c1 w : f32) (res range : Z) (l0 l1 : link) (cm : jcell -> Z).
  Hypothesis Hc0 : coef_ok c0.
  Hypothesis Hc1 : coef_ok c1.
  Hypothesis Hw : coef_ok w.
  Hypothesis Hres : (2 <= res <= 1024)%Z.
  Hypothesis Hrange : (1 <= range)%Z.
  Hypothesis Hmap : joint_map res range (cell_collides l0 l1 res) = Ok cm.
  Hypothesis G0 : whole_gain l0.
  Hypothesis G1 : whole_gain l1.

  Lemma periodic p : in_joint_map res p = true -> cell_collides l0 l1 res p = cell_collides l0 l1 res (fst p mod res, snd p mod res)%Z.
  Proof. intros _. symmetry. apply cell_mod; [lia|assumption|assumption]. Qed.

  (** The unwrapped move [u] to [u'] of an accepted move from [p] to [q], where [q] is free. *)
  Lemma move_near p q u u' t : in_joint_map res p = true -> in_joint_map res q = true -> accepted c0 c1 w res cm p q -> cell_collides l0 l1 res q = false ->
    same_turns res u p -> shortest_way res p q (fst u' - fst u, snd u' - snd u)%Z -> 0 <= t <= 1 ->
    exists v, cell_collides l0 l1 res v = false /\ Rabs (IZR (fst u) + t * IZR (fst u' - fst u) - IZR (fst v)) <= 11 / 10 /\
      Rabs (IZR (snd u) + t * IZR (snd u' - snd u) - IZR (snd v)) <= 11 / 10.
  Proof.
    intros Ip Iq Acc Fq [[j1 U0] [j2 U1]] SW Ht.
    assert (Sane := the_sane c0 c1 w res range (cell_collides l0 l1 res) cm Hc0 Hc1 Hw ltac:(lia) Hrange Hmap periodic).
    assert (I32 : int32 (fst q) /\ int32 (snd q)) by (unfold in_joint_map in Iq; unfold int32; lia).
    destruct (C20_move_is_accepted_iff_samples_are_free c0 c1 w res cm p q Sane Ip (proj1 I32) (proj2 I32)) as (c' & d & Ec' & SH & P).
    destruct Acc as [c [Ec Lc]]. rewrite Ec in Ec'. injection Ec' as <-. apply P in Lc. destruct Lc as [_ F].
    assert (E := shortest_same res p q _ _ ltac:(lia) SW SH). destruct (shortest_small res p q d ltac:(lia) SH) as [D0 D1].
    destruct (near_sample res p d t ltac:(lia) Ip D0 D1 Ht) as (v & Hv & N0 & N1).
    exists (fst v + j1 * res, snd v + j2 * res)%Z. cbn [fst snd]. split; [|].
    - rewrite <- (cell_mod l0 l1 res (fst v + j1 * res, snd v + j2 * res)%Z ltac:(lia) G0 G1). cbn [fst snd]. rewrite !Z.mod_add by lia.
      destruct Hv as [Hv|Hv].
      + apply (free_iff res range (cell_collides l0 l1 res) cm ltac:(lia) Hrange Hmap periodic). apply F. exact Hv.
      + rewrite Hv. cbn [fst snd]. destruct SH as ([k1 A] & [k2 B] & _ & _). rewrite A, B.
        replace (fst p + (fst q - fst p + k1 * res))%Z with (fst q + k1 * res)%Z by ring. replace (snd p + (snd q - snd p + k2 * res))%Z with (snd q + k2 * res)%Z by ring.
        rewrite !Z.mod_add by lia. rewrite (cell_mod l0 l1 res q ltac:(lia) G0 G1). exact Fq.
    - subst d. cbn [fst snd] in N0, N1. rewrite U0, U1, !plus_IZR. rewrite U0 in N0. rewrite U1 in N1. split.
      + replace (IZR (fst p) + IZR (j1 * res) + t * IZR (fst u' - (fst p + j1 * res)) - (IZR (fst v) + IZR (j1 * res))) with (IZR (fst p) + t * IZR (fst u' - (fst p + j1 * res)) - IZR (fst v)) by ring. exact N0.
      + replace (IZR (snd p) + IZR (j2 * res) + t * IZR (snd u' - (snd p + j2 * res)) - (IZR (snd v) + IZR (j2 * res))) with (IZR (snd p) + t * IZR (snd u' - (snd p + j2 * res)) - IZR (snd v)) by ring. exact N1.
  Qed.

  (** Sent angles, in cells: [a] stands for the cell [u]. *)
  Definition stands (a : jangle) (u : jcell) : Prop :=
    Rabs (Q2R (fst a) - IZR (fst u - res)) <= 1 / 2 /\ Rabs (Q2R (snd a) - IZR (snd u - res)) <= 1 / 2.
  Lemma Q2R_inject z : Q2R (inject_Z z) = IZR z.
  Proof. unfold Q2R, inject_Z. cbn [Qnum Qden]. field. Qed.
  Lemma segment_clear p q u u' a b t : in_joint_map res p = true -> in_joint_map res q = true -> accepted c0 c1 w res cm p q -> cell_collides l0 l1 res q = false ->
    same_turns res u p -> shortest_way res p q (fst u' - fst u, snd u' - snd u)%Z -> stands a u -> stands b u' -> 0 <= t <= 1 ->
    clear (rad res (16 / 10)) l0 l1 (rad res (Q2R (fst a) + t * (Q2R (fst b) - Q2R (fst a)))) (rad res (Q2R (snd a) + t * (Q2R (snd b) - Q2R (snd a)))).
  Proof.
    intros Ip Iq Acc Fq U SW [A0 A1] [B0 B1] Ht. destruct (move_near p q u u' t Ip Iq Acc Fq U SW Ht) as (v & Fv & N0 & N1).
    unfold cell_collides in Fv. assert (Rp : 0 < IZR res) by (apply IZR_lt; lia). assert (PP := PI_RGT_0).
    assert (K : forall x y, Rabs (x - y) <= 16 / 10 -> Rabs (rad res x - rad res y) <= rad res (16 / 10)).
    { intros x y Hxy. unfold rad. replace (x * 2 * PI / IZR res - y * 2 * PI / IZR res) with ((x - y) * (2 * PI / IZR res)) by (field; lra).
      assert (0 < 2 * PI / IZR res) by (apply Rdiv_lt_0_compat; lra). rewrite Rabs_mult, (Rabs_right (2 * PI / IZR res)) by lra.
      replace (16 / 10 * 2 * PI / IZR res) with (16 / 10 * (2 * PI / IZR res)) by (field; lra). apply Rmult_le_compat_r; lra. }
    assert (M : forall x y X Y c, Rabs (x - X) <= 1 / 2 -> Rabs (y - Y) <= 1 / 2 -> Rabs (X + t * (Y - X) - c) <= 11 / 10 -> Rabs (x + t * (y - x) - c) <= 16 / 10).
    { intros x y X Y c HX HY HC. apply Rabs_le_inv in HX, HY, HC. apply Rabs_le. split; nra. }
    apply (clear_near _ l0 l1 _ _ _ _ Fv); apply K; rewrite minus_IZR.
    - apply (M _ _ _ _ _ A0 B0). rewrite minus_IZR in N0. rewrite !minus_IZR.
      replace (IZR (fst u) - IZR res + t * (IZR (fst u') - IZR res - (IZR (fst u) - IZR res)) - (IZR (fst v) - IZR res)) with (IZR (fst u) + t * (IZR (fst u') - IZR (fst u)) - IZR (fst v)) by ring. exact N0.
    - apply (M _ _ _ _ _ A1 B1). rewrite minus_IZR in N1. rewrite !minus_IZR.
      replace (IZR (snd u) - IZR res + t * (IZR (snd u') - IZR res - (IZR (snd u) - IZR res)) - (IZR (snd v) - IZR res)) with (IZR (snd u) + t * (IZR (snd u') - IZR (snd u)) - IZR (snd v)) by ring. exact N1.
  Qed.
  Lemma lround_half g : Rabs (Q2R g - IZR (lround g)) <= 1 / 2.
  Proof.
    assert (H : (- (1 # 2) <= g - inject_Z (lround g) <= 1 # 2)%Q).
    { unfold lround. destruct (Qle_bool 0 g).
      - pose proof (Qfloor_le (g + (1 # 2))) as A. pose proof (Qlt_floor (g + (1 # 2))) as B. rewrite inject_Z_plus in B. change (inject_Z 1) with 1%Q in B. lra.
      - pose proof (Qfloor_le (- g + (1 # 2))) as A. pose proof (Qlt_floor (- g + (1 # 2))) as B. rewrite inject_Z_plus in B. change (inject_Z 1) with 1%Q in B. rewrite inject_Z_opp. lra. }
    destruct H as [H1 H2]. apply Qle_Rle in H1. apply Qle_Rle in H2. rewrite Q2R_minus, Q2R_inject in H1, H2. rewrite Q2R_opp in H1.
    replace (Q2R (1 # 2)) with (1 / 2) in H1, H2 by (unfold Q2R; cbn [Qnum Qden]; lra). apply Rabs_le. lra.
  Qed.
  Lemma stands_metric g : stands g (metric2Grid res g).
  Proof.
    unfold stands, metric2Grid. cbn [fst snd]. rewrite !Z.add_simpl_r. split; apply lround_half.
  Qed.
  Lemma residual_half g : Rabs (Q2R (residual res g)) <= 1 / 2.
  Proof.
    assert (H : (- (1 # 2) <= residual res g <= 1 # 2)%Q).
    { unfold residual. set (x := (lift res g + (1 # 2))%Q). pose proof (Qfloor_le x) as A. pose proof (Qlt_floor x) as B. rewrite inject_Z_plus in B. change (inject_Z 1) with 1%Q in B. lra. }
    destruct H as [H1 H2]. apply Qle_Rle in H1. apply Qle_Rle in H2. rewrite Q2R_opp in H1.
    replace (Q2R (1 # 2)) with (1 / 2) in H1, H2 by (unfold Q2R; cbn [Qnum Qden]; lra). apply Rabs_le. lra.
  Qed.
  Lemma stands_all (r : jangle) : Rabs (Q2R (fst r)) <= 1 / 2 -> Rabs (Q2R (snd r)) <= 1 / 2 ->
    forall l, Forall2 stands (add_to_last (map (grid2Metric res) l) r) l.
  Proof.
    intros R0 R1. assert (Z0 : forall u, stands (grid2Metric res u) u).
    { intros u. unfold stands, grid2Metric. cbn [fst snd]. rewrite !Q2R_inject, !Rminus_diag_eq, Rabs_R0 by reflexivity. lra. }
    induction l as [|u l IH]; [constructor|]. destruct l as [|v l].
    - constructor; [|constructor]. unfold stands, grid2Metric. cbn [fst snd]. rewrite !Q2R_plus, !Q2R_inject.
      replace (IZR (fst u - res) + Q2R (fst r) - IZR (fst u - res)) with (Q2R (fst r)) by ring. replace (IZR (snd u - res) + Q2R (snd r) - IZR (snd u - res)) with (Q2R (snd r)) by ring. auto.
    - change (add_to_last (map (grid2Metric res) (u :: v :: l)) r) with (grid2Metric res u :: add_to_last (map (grid2Metric res) (v :: l)) r). constructor; [apply Z0|exact IH].
  Qed.

  (** Along a list of sent angles. *)
  Definition clear_along (m : R) (out : list jangle) : Prop := forall i a b t, nth_error out i = Some a -> nth_error out (S i) = Some b -> 0 <= t <= 1 ->
    clear m l0 l1 (rad res (Q2R (fst a) + t * (Q2R (fst b) - Q2R (fst a)))) (rad res (Q2R (snd a) + t * (Q2R (snd b) - Q2R (snd a)))).
  Lemma chain_clear : forall path us out, Forall2 (same_turns res) us path -> Forall2 stands out us ->
    (forall q, In q path -> in_joint_map res q = true /\ cell_collides l0 l1 res q = false) ->
    each_move (accepted c0 c1 w res cm) path ->
    each_move (fun a b => shortest_way res (snd a) (snd b) (fst (fst b) - fst (fst a), snd (fst b) - snd (fst a))%Z) (combine us path) ->
    clear_along (rad res (16 / 10)) out.
  Proof.
    induction path as [|p path IH]; intros us out F S Free Acc Ways.
    - inversion F; subst. inversion S; subst. intros i a b t E. destruct i; discriminate.
    - destruct us as [|u us]; [inversion F|]. inversion F as [|? ? ? ? Fu F']; subst. destruct out as [|a out]; [inversion S|]. inversion S as [|? ? ? ? Sa S']; subst.
      destruct path as [|q path].
      + inversion F'; subst. inversion S'; subst. intros i x y t E1 E2. destruct i; discriminate.
      + destruct us as [|u' us]; [inversion F'|]. destruct out as [|b out]; [inversion S'|]. inversion F' as [|? ? ? ? Fu' F'']; subst. inversion S' as [|? ? ? ? Sb S'']; subst.
        destruct Acc as [A1 A2]. cbn [combine each_move] in Ways. destruct Ways as [W1 W2]. cbn [fst snd] in W1.
        assert (Tail : clear_along (rad res (16 / 10)) (b :: out)).
        { apply (IH (u' :: us) (b :: out) F' S'); [intros x Hx; apply Free; right; exact Hx|exact A2|exact W2]. }
        intros i x y t E1 E2 Ht. destruct i as [|i]; [|exact (Tail i x y t E1 E2 Ht)]. cbn [nth_error] in E1, E2. injection E1 as <-. injection E2 as <-.
        destruct (Free p (or_introl eq_refl)) as [Ip _]. destruct (Free q (or_intror (or_introl eq_refl))) as [Iq Fq].
        exact (segment_clear p q u u' a b t Ip Iq A1 Fq Fu W1 Sa Sb Ht).
  Qed.
End Motion.

(** Along the whole motion sent after a search, including the ways between the sent angles, the discs of the ends do not overlap, up to the way the ends
    move in 1.6 cells.  [path] is what the search found: accepted moves from the start to the goal (C06). *)
Theorem C79_searched_motion_keeps_clear c0 c1 w res range l0 l1 cm sg eg path out :
  coef_ok c0 -> coef_ok c1 -> coef_ok w -> (2 <= res <= 1024)%Z -> (1 <= range)%Z -> joint_map res range (cell_collides l0 l1 res) = Ok cm ->
  whole_gain l0 -> whole_gain l1 ->
  makePlan res c0 c1 w cm sg eg (Some path) = Ok (Some out) -> out <> [sg; eg] ->
  hd_error path = Some (metric2Grid res sg) -> last path (metric2Grid res sg) = metric2Grid res eg ->
  (forall q, In q path -> int32 (fst q) /\ int32 (snd q)) -> each_move (accepted c0 c1 w res cm) path ->
  clear_along res l0 l1 (rad res (16 / 10)) out.
Proof.
  intros Hc0 Hc1 Hw Hr Hrg Hm G0 G1 E Nd Hd Hl I32 Acc. set (s := metric2Grid res sg) in *. set (e := metric2Grid res eg) in *.
  assert (Per := periodic res l0 l1 Hr G0 G1).
  unfold makePlan in E. fold s in E. fold e in E.
  destruct (read_joint_map res cm s) as [a|] eqn:Rs; [|discriminate E]. cbn [bind] in E. destruct (a =? 100)%Z; [discriminate E|].
  destruct (read_joint_map res cm e) as [b|] eqn:Re; [|discriminate E]. cbn [bind] in E. destruct (Z.eqb_spec b 100) as [|Nb]; [discriminate E|].
  assert (Is : in_joint_map res s = true) by (unfold read_joint_map in Rs; destruct (in_joint_map res s); [reflexivity|discriminate]).
  assert (Ie : in_joint_map res e = true /\ cm e = b) by (unfold read_joint_map in Re; destruct (in_joint_map res e); [split; congruence|discriminate]). destruct Ie as [Ie Ce].
  destruct (cycle2 res (fst e - fst s, snd e - snd s)%Z) as [d|]; [|discriminate E]. cbn [bind] in E.
  destruct (move_cost res c0 c1 w cm s e) as [c|]; [|discriminate E]. cbn [bind] in E.
  destruct (Bleb (euclid2 c0 c1 d) c); [exfalso; apply Nd; congruence|].
  destruct path as [|p0 path]; [discriminate Hd|]. cbn [hd_error] in Hd. assert (p0 = s) by congruence. subst p0. cbn [tl] in E.
  assert (Ss : same_turns res s s) by (split; exists 0%Z; lia).
  destruct (unwrap_run res ltac:(lia) path s s Ss) as [l (El & F & M)]. rewrite El in E. cbn [bind] in E.
  assert (Fe : cell_collides l0 l1 res e = false).
  { destruct (C20_collision_map_marks_collisions res range (cell_collides l0 l1 res) Hrg) as (cm' & Em & K). assert (cm' = cm) by congruence. subst cm'.
    destruct (K e Ie) as ([_ K1] & _). destruct (cell_collides l0 l1 res e); [exfalso; apply Nb; rewrite <- Ce; apply K1; reflexivity|reflexivity]. }
  destruct (C20_planned_path_is_collision_checked c0 c1 w res range (cell_collides l0 l1 res) cm s path Hc0 Hc1 Hw ltac:(lia) Hrg Hm Per Is
             (fun q Hq => I32 q (or_intror Hq)) Acc) as [_ Free].
  { rewrite Hl. exact Fe. }
  assert (Eo : out = add_to_last (sg :: map (grid2Metric res) l) (residual res (fst eg), residual res (snd eg))) by congruence.
  destruct l as [|u l].
  { rewrite Eo. intros i x y t _ E2. destruct i as [|[|i]]; discriminate. }
  assert (St : Forall2 (stands res) out (s :: u :: l)).
  { rewrite Eo. change (add_to_last (sg :: map (grid2Metric res) (u :: l)) (residual res (fst eg), residual res (snd eg)))
      with (sg :: add_to_last (map (grid2Metric res) (u :: l)) (residual res (fst eg), residual res (snd eg))).
    constructor; [apply stands_metric|]. apply stands_all; apply residual_half. }
  exact (chain_clear c0 c1 w res range l0 l1 cm Hc0 Hc1 Hw Hr Hrg Hm G0 G1 (s :: path) (s :: u :: l) out (Forall2_cons _ _ Ss F) St Free Acc M).
Qed.

(** The same for a motion sent without a search, if the goal is less than half a turn away. *)
Theorem C79_direct_motion_keeps_clear c0 c1 w res range l0 l1 cm sg eg astar :
  coef_ok c0 -> coef_ok c1 -> coef_ok w -> (2 <= res <= 1024)%Z -> (1 <= range)%Z -> joint_map res range (cell_collides l0 l1 res) = Ok cm ->
  whole_gain l0 -> whole_gain l1 ->
  makePlan res c0 c1 w cm sg eg astar = Ok (Some [sg; eg]) -> accepted c0 c1 w res cm (metric2Grid res sg) (metric2Grid res eg) ->
  Rabs (Q2R (fst eg) - Q2R (fst sg)) < IZR res / 2 - 2 -> Rabs (Q2R (snd eg) - Q2R (snd sg)) < IZR res / 2 - 2 ->
  clear_along res l0 l1 (rad res (16 / 10)) [sg; eg].
Proof.
  intros Hc0 Hc1 Hw Hr Hrg Hm G0 G1 E Acc B0 B1. set (s := metric2Grid res sg) in *. set (e := metric2Grid res eg) in *.
  unfold makePlan in E. fold s in E. fold e in E.
  destruct (read_joint_map res cm s) as [a|] eqn:Rs; [|discriminate E]. cbn [bind] in E. destruct (a =? 100)%Z; [discriminate E|].
  destruct (read_joint_map res cm e) as [b|] eqn:Re; [|discriminate E]. cbn [bind] in E. destruct (Z.eqb_spec b 100) as [|Nb]; [discriminate E|].
  assert (Is : in_joint_map res s = true) by (unfold read_joint_map in Rs; destruct (in_joint_map res s); [reflexivity|discriminate]).
  assert (Ie : in_joint_map res e = true /\ cm e = b) by (unfold read_joint_map in Re; destruct (in_joint_map res e); [split; congruence|discriminate]). destruct Ie as [Ie Ce].
  assert (Fe : cell_collides l0 l1 res e = false).
  { destruct (C20_collision_map_marks_collisions res range (cell_collides l0 l1 res) Hrg) as (cm' & Em & K). assert (cm' = cm) by congruence. subst cm'.
    destruct (K e Ie) as ([_ K1] & _). destruct (cell_collides l0 l1 res e); [exfalso; apply Nb; rewrite <- Ce; apply K1; reflexivity|reflexivity]. }
  assert (Ss : same_turns res s s) by (split; exists 0%Z; lia).
  assert (SR : forall x y X Y, Rabs (Q2R x - IZR (X - res)) <= 1 / 2 -> Rabs (Q2R y - IZR (Y - res)) <= 1 / 2 -> Rabs (Q2R y - Q2R x) < IZR res / 2 - 2 -> signed_range res (Y - X)).
  { intros x y X Y H1 H2 H3. apply Rabs_le_inv in H1, H2. apply Rabs_def2 in H3. rewrite minus_IZR in H1, H2.
    assert (L1 : (2 * (Y - X) < res - 2)%Z). { apply lt_IZR. rewrite mult_IZR, !minus_IZR. lra. }
    assert (L2 : (- res + 2 < 2 * (Y - X))%Z). { apply lt_IZR. rewrite plus_IZR, mult_IZR, opp_IZR, !minus_IZR. lra. }
    unfold signed_range. pose proof (Z.div_mod res 2 ltac:(lia)). pose proof (Z.mod_pos_bound res 2 ltac:(lia)). pose proof (Z.div_mod (res + 1) 2 ltac:(lia)). pose proof (Z.mod_pos_bound (res + 1) 2 ltac:(lia)). lia. }
  destruct (stands_metric res sg) as [S0 S1]. destruct (stands_metric res eg) as [T0 T1]. fold s in S0, S1. fold e in T0, T1.
  assert (SW : shortest_way res s e (fst e - fst s, snd e - snd s)%Z).
  { split; [exists 0%Z; cbn [fst]; ring|]. split; [exists 0%Z; cbn [snd]; ring|]. split; [exact (SR _ _ _ _ S0 T0 B0)|exact (SR _ _ _ _ S1 T1 B1)]. }
  intros i x y t E1 E2 Ht. destruct i as [|[|i]]; [|discriminate E2|destruct i; discriminate E2]. cbn [nth_error] in E1, E2. injection E1 as <-. injection E2 as <-.
  exact (segment_clear c0 c1 w res range l0 l1 cm Hc0 Hc1 Hw Hr Hrg Hm G0 G1 s e s e sg eg t Is Ie Acc Fe Ss SW (conj S0 S1) (conj T0 T1) Ht).
Qed.

(** ** The hypotheses are met *)
(** The default links (413-430 of the code), here in metres. *)
Definition link_a : link := Link (22 / 100) 0 0 (-1) (135 / 1000) (7 / 100) (7 / 100).
Definition link_b : link := Link (- (22 / 100)) 0 0 1 (27 / 100) (7 / 100) (7 / 100).
Example defaults_have_whole_gains : whole_gain link_a /\ whole_gain link_b.
Proof. split; [exists (-1)%Z|exists 1%Z]; reflexivity. Qed.
Lemma tip_at_0 x len g rj re : tip (Link x 0 0 g len rj re) 0 = (x + len, 0).
Proof. unfold tip. cbn [k_x k_y k_th k_gain k_len]. rewrite Rmult_0_l, Rplus_0_r, cos_0, sin_0. f_equal; ring. Qed.
Lemma on_axis x y : away (x, 0) (y, 0) = Rabs (x - y).
Proof. unfold away. cbn [fst snd]. replace ((x - y) * (x - y) + (0 - 0) * (0 - 0)) with (Rsqr (x - y)) by (unfold Rsqr; ring). apply sqrt_Rsqr_abs. Qed.
(** Stretched out they are clear; with the first link turned inwards its end is at that of the second. *)
Example default_free : isCollide link_a link_b 0 0 = false.
Proof.
  unfold isCollide. rewrite !dist_away. unfold link_a, link_b, joint. rewrite !tip_at_0. cbn [k_x k_y k_re k_rj]. rewrite !on_axis.
  repeat (destruct (Rlt_dec _ _) as [L|_]; [unfold Rabs in L; destruct (Rcase_abs _); lra|]). reflexivity.
Qed.
Lemma tip_at_pi x len rj re : tip (Link x 0 0 (-1) len rj re) PI = (x - len, 0).
Proof. unfold tip. cbn [k_x k_y k_th k_gain k_len]. replace (0 + PI * -1) with (- PI) by ring. rewrite cos_neg, sin_neg, cos_PI, sin_PI. f_equal; ring. Qed.
Example default_hit : isCollide link_a link_b PI 0 = true.
Proof.
  unfold isCollide. rewrite !dist_away. unfold link_a, link_b. rewrite tip_at_pi, tip_at_0. cbn [k_re]. rewrite on_axis.
  destruct (Rlt_dec _ _) as [L|L]; [reflexivity|]. exfalso. apply L. unfold Rabs. destruct (Rcase_abs _); lra.
Qed.
(** A plan without search for links that never meet. *)
Definition far_link (x : R) : link := Link x 0 0 1 1 1 1.
Lemma far_free a b : isCollide (far_link 0) (far_link 100) a b = false.
Proof.
  assert (K : forall p q : R * R, 90 <= fst q - fst p -> 4 <= away p q).
  { intros p q H. unfold away. rewrite <- (sqrt_square 4) by lra. apply sqrt_le_1_alt. assert (8100 <= (fst q - fst p) * (fst q - fst p)) by nra. assert (Z := Rle_0_sqr (snd p - snd q)). unfold Rsqr in Z. replace ((fst p - fst q) * (fst p - fst q)) with ((fst q - fst p) * (fst q - fst p)) by ring. lra. }
  assert (CA := COS_bound a). assert (CB := COS_bound b).
  unfold isCollide. rewrite !dist_away. unfold tip, far_link, joint. cbn [k_x k_y k_th k_gain k_len k_re k_rj]. rewrite !Rplus_0_l, !Rmult_1_r.
  destruct (Rlt_dec _ _) as [L|_]. { match type of L with away ?p ?q < _ => assert (X := K p q ltac:(cbn [fst snd]; lra)) end. lra. }
  destruct (Rlt_dec _ _) as [L|_]. { match type of L with away ?p ?q < _ => assert (X := K p q ltac:(cbn [fst snd]; lra)) end. lra. }
  destruct (Rlt_dec _ _) as [L|_]; [|reflexivity]. match type of L with away ?p ?q < _ => assert (X := K q p ltac:(cbn [fst snd]; lra)); rewrite (away_sym p q) in L end. lra.
Qed.

Lemma far_cells res : cell_collides (far_link 0) (far_link 100) res = fun _ => false.
Proof. apply functional_extensionality. intros p. apply far_free. Qed.
Lemma one_ok : coef_ok one32.
Proof. destruct (f32_of_Z_exact 1) as [F E]; [lia|]. constructor; [exact F|]. unfold one32. rewrite E. lra. Qed.
Example demo_direct : let cm := mark (fun _ => false) in
  joint_map 16 1 (cell_collides (far_link 0) (far_link 100) 16) = Ok cm /\
  makePlan 16 one32 one32 one32 cm (inject_Z 1, 1 # 3)%Q (inject_Z 4, 1 # 2)%Q None = Ok (Some [(inject_Z 1, 1 # 3)%Q; (inject_Z 4, 1 # 2)%Q]) /\
  accepted one32 one32 one32 16 cm (metric2Grid 16 (inject_Z 1, 1 # 3)%Q) (metric2Grid 16 (inject_Z 4, 1 # 2)%Q).
Proof.
  cbv zeta. rewrite far_cells. split; [vm_compute; reflexivity|]. split; [vm_compute; reflexivity|].
  assert (E : match move_cost 16 one32 one32 one32 (mark (fun _ => false)) (metric2Grid 16 (inject_Z 1, 1 # 3)%Q) (metric2Grid 16 (inject_Z 4, 1 # 2)%Q) with Ok c => Bltb c (B754_zero false) | UB => true end = false) by (vm_compute; reflexivity).
  unfold accepted. destruct (move_cost _ _ _ _ _ _ _) as [c|]; [|discriminate E]. exists c. auto.
Qed.
(** Two facing links whose ends meet exactly in the middle, so that the straight way is blocked and the search finds a way round. *)
Definition west : link := Link (-10) 0 0 1 10 1 1.
Definition east : link := Link 10 0 PI (-1) 10 1 1.
Lemma cos_cell k : (0 < k < 8)%Z -> cos (IZR k * (PI / 4)) <= 8 / 10.
Proof.
  intros Hk. assert (PP := PI_RGT_0).
  assert (C4 : cos (PI / 4) <= 8 / 10).
  { rewrite cos_PI4. assert (S2 : 5 / 4 <= sqrt 2). { rewrite <- (sqrt_square (5 / 4)) by lra. apply sqrt_le_1_alt. lra. }
    apply (Rmult_le_reg_r (sqrt 2)); [lra|]. unfold Rdiv. rewrite Rmult_1_l, Rinv_l by lra. lra. }
  assert (D : forall x, PI / 4 <= x <= PI -> cos x <= 8 / 10).
  { intros x Hx. eapply Rle_trans; [|exact C4]. destruct (Req_dec x (PI / 4)) as [->|N]; [lra|]. left. apply cos_decreasing_1; lra. }
  assert (K1 : 1 <= IZR k <= 7) by (split; apply IZR_le; lia).
  destruct (Z.le_gt_cases k 4) as [L|L].
  - assert (IZR k <= 4) by (apply IZR_le; lia). apply D. split; nra.
  - assert (5 <= IZR k) by (apply IZR_le; lia). rewrite <- cos_neg. rewrite <- (cos_periodic _ 1). apply D. split; nra.
Qed.
Definition meet (p : jcell) : bool := ((fst p mod 8 =? 0) && (snd p mod 8 =? 0))%Z.
Lemma meet_cells : cell_collides west east 8 = meet.
Proof.
  apply functional_extensionality. intros p. rewrite <- (cell_mod west east 8 p ltac:(lia)); [|exists 1%Z; reflexivity|exists (-1)%Z; reflexivity].
  unfold meet. assert (A := Z.mod_pos_bound (fst p) 8 ltac:(lia)). assert (B := Z.mod_pos_bound (snd p) 8 ltac:(lia)).
  set (a := (fst p mod 8)%Z) in *. set (b := (snd p mod 8)%Z) in *. clearbody a b. clear p. unfold cell_collides. cbn [fst snd].
  assert (EA : rad 8 (IZR (a - 8)) = IZR a * (PI / 4) + 2 * IZR (-1) * PI) by (unfold rad; rewrite minus_IZR; field).
  assert (EB : rad 8 (IZR (b - 8)) = IZR b * (PI / 4) + 2 * IZR (-1) * PI) by (unfold rad; rewrite minus_IZR; field).
  rewrite EA, EB, collide_periodic; [|exists 1%Z; reflexivity|exists (-1)%Z; reflexivity]. clear EA EB.
  set (x := IZR a * (PI / 4)). set (y := IZR b * (PI / 4)).
  assert (T0 : tip west x = (-10 + 10 * cos x, 10 * sin x)). { unfold tip, west. cbn [k_x k_y k_th k_gain k_len]. rewrite Rmult_1_r, Rplus_0_l. f_equal; ring. }
  assert (T1 : tip east y = (10 - 10 * cos y, 10 * sin y)).
  { unfold tip, east. cbn [k_x k_y k_th k_gain k_len]. replace (PI + y * -1) with (- y + PI) by ring. rewrite neg_cos, neg_sin, cos_neg, sin_neg. f_equal; ring. }
  assert (W : forall p q : R * R, 2 <= fst q - fst p -> 2 <= away p q).
  { intros p q H. unfold away. rewrite <- (sqrt_square 2) at 1 by lra. apply sqrt_le_1_alt. assert (4 <= (fst q - fst p) * (fst q - fst p)) by nra. assert (Z := Rle_0_sqr (snd p - snd q)). unfold Rsqr in Z. replace ((fst p - fst q) * (fst p - fst q)) with ((fst q - fst p) * (fst q - fst p)) by ring. lra. }
  assert (CX := COS_bound x). assert (CY := COS_bound y).
  unfold isCollide. rewrite !dist_away, T0, T1. unfold joint, west, east. cbn [k_x k_y k_re k_rj].
  assert (X1 := W (-10 + 10 * cos x, 10 * sin x) (10, 0) ltac:(cbn [fst snd]; lra)). assert (X2 := W (-10, 0) (10 - 10 * cos y, 10 * sin y) ltac:(cbn [fst snd]; lra)). rewrite away_sym in X2.
  destruct (Rlt_dec (away (-10 + 10 * cos x, 10 * sin x) (10 - 10 * cos y, 10 * sin y)) (1 + 1)) as [L|L].
  - destruct (Z.eqb_spec a 0) as [->|Na].
    + destruct (Z.eqb_spec b 0) as [->|Nb]; [reflexivity|]. exfalso. assert (CB := cos_cell b ltac:(lia)). fold y in CB.
      assert (X := W (-10 + 10 * cos x, 10 * sin x) (10 - 10 * cos y, 10 * sin y)). cbn [fst snd] in X. assert (2 <= 10 - 10 * cos y - (-10 + 10 * cos x)) by lra. specialize (X H). lra.
    + exfalso. assert (CA := cos_cell a ltac:(lia)). fold x in CA.
      assert (X := W (-10 + 10 * cos x, 10 * sin x) (10 - 10 * cos y, 10 * sin y)). cbn [fst snd] in X. assert (2 <= 10 - 10 * cos y - (-10 + 10 * cos x)) by lra. specialize (X H). lra.
  - destruct (Rlt_dec _ _) as [L2|_]; [lra|]. destruct (Rlt_dec _ _) as [L3|_]; [lra|]. symmetry. apply Bool.not_true_iff_false. intros M. apply Bool.andb_true_iff in M. destruct M as [Ma Mb].
    apply Z.eqb_eq in Ma, Mb. apply L. unfold x, y. rewrite Ma, Mb, !Rmult_0_l, cos_0, sin_0.
    replace (-10 + 10 * 1, 10 * 0) with (0, 0) by (f_equal; ring). replace (10 - 10 * 1, 10 * 0) with (0, 0) by (f_equal; ring). rewrite on_axis, Rminus_diag_eq, Rabs_R0 by reflexivity. lra.
Qed.
Definition from_w : jangle := (inject_Z (-1), 0%Q).
Definition to_e : jangle := (5 # 4, 0%Q)%Q.
Definition way_round : list jcell := [(7, 8); (8, 9); (9, 8)]%Z.
Example demo_searched : let cm := mark meet in
  joint_map 8 1 (cell_collides west east 8) = Ok cm /\
  (exists out, makePlan 8 one32 one32 one32 cm from_w to_e (Some way_round) = Ok (Some out) /\ out <> [from_w; to_e] /\ length out = 3%nat) /\
  hd_error way_round = Some (metric2Grid 8 from_w) /\ last way_round (metric2Grid 8 from_w) = metric2Grid 8 to_e /\
  (forall q, In q way_round -> int32 (fst q) /\ int32 (snd q)) /\ each_move (accepted one32 one32 one32 8 cm) way_round.
Proof.
  cbv zeta. rewrite meet_cells. split; [|split; [|split; [reflexivity|split; [reflexivity|split]]]].
  - vm_compute. reflexivity.
  - eexists. split; [vm_compute; reflexivity|]. split; [discriminate|reflexivity].
  - intros q [<-|[<-|[<-|[]]]]; unfold int32; cbn [fst snd]; lia.
  - assert (K : forall p q, match move_cost 8 one32 one32 one32 (mark meet) p q with Ok c => Bltb c (B754_zero false) | UB => true end = false -> accepted one32 one32 one32 8 (mark meet) p q).
    { intros p q E. unfold accepted. destruct (move_cost _ _ _ _ _ _ _) as [c|]; [|discriminate E]. exists c. auto. }
    split; [apply K; vm_compute; reflexivity|]. split; [apply K; vm_compute; reflexivity|exact I].
Qed.

(** ** What does not hold *)
(** The sides of the links are not tested: two links that cross are taken as free. *)
Definition on_link (l : link) (th : R) (p : R * R) : Prop := exists s q, 0 <= s <= 1 /\ end_at l th q /\ p = (k_x l + s * (fst q - k_x l), k_y l + s * (snd q - k_y l)).
Theorem C79_links_do_not_cross_refuted : exists l0 l1 a b p, whole_gain l0 /\ whole_gain l1 /\ 0 < k_re l0 /\ 0 < k_re l1 /\
  isCollide l0 l1 a b = false /\ on_link l0 a p /\ on_link l1 b p.
Proof.
  exists (Link 0 0 0 1 10 1 1), (Link 5 (-5) (PI / 2) 1 10 1 1), 0, 0, (5, 0).
  assert (T0 : tip (Link 0 0 0 1 10 1 1) 0 = (10, 0)). { rewrite tip_at_0. f_equal. ring. }
  assert (T1 : tip (Link 5 (-5) (PI / 2) 1 10 1 1) 0 = (5, 5)).
  { unfold tip. cbn [k_x k_y k_th k_gain k_len]. rewrite Rmult_0_l, Rplus_0_r, cos_PI2, sin_PI2. f_equal; ring. }
  split; [exists 1%Z; reflexivity|]. split; [exists 1%Z; reflexivity|]. split; [cbn [k_re]; lra|]. split; [cbn [k_re]; lra|]. split; [|split].
  - unfold isCollide. rewrite !dist_away, T0, T1. unfold joint. cbn [k_x k_y k_re k_rj].
    assert (K : forall p q : R * R, 4 <= (fst p - fst q) * (fst p - fst q) + (snd p - snd q) * (snd p - snd q) -> 2 <= away p q).
    { intros p q H. unfold away. rewrite <- (sqrt_square 2) by lra. apply sqrt_le_1_alt. lra. }
    repeat (destruct (Rlt_dec _ _) as [L|_]; [match type of L with away ?p ?q < _ => assert (X := K p q ltac:(cbn [fst snd]; lra)) end; lra|]). reflexivity.
  - exists (1 / 2), (10, 0). split; [lra|]. split; [apply end_tip; symmetry; exact T0|]. cbn [k_x k_y fst snd]. f_equal; field.
  - exists (1 / 2), (5, 5). split; [lra|]. split; [apply end_tip; symmetry; exact T1|]. cbn [k_x k_y fst snd]. f_equal; field.
Qed.
(** With a gain of one half the configurations do not repeat every turn, but the moves are checked modulo full turns. *)
Theorem C79_any_gain_is_checked_refuted : exists l0 l1 res p, (0 < res)%Z /\ in_joint_map res p = true /\
  cell_collides l0 l1 res (fst p mod res, snd p mod res)%Z = false /\ cell_collides l0 l1 res p = true.
Proof.
  exists (Link 0 0 0 (1 / 2) 10 1 1), (Link 11 0 0 1 0 1 1), 4%Z, (4, 0)%Z. split; [lia|]. split; [reflexivity|].
  assert (T : forall x, tip (Link 11 0 0 1 0 1 1) x = (11, 0)) by (intros x; unfold tip; cbn [k_x k_y k_th k_gain k_len]; f_equal; ring).
  assert (A : tip (Link 0 0 0 (1 / 2) 10 1 1) (rad 4 (IZR (0 - 4))) = (- 10, 0)).
  { unfold tip, rad. cbn [k_x k_y k_th k_gain k_len]. replace (0 + IZR (0 - 4) * 2 * PI / 4 * (1 / 2)) with (- PI) by (cbn; field). rewrite cos_neg, sin_neg, cos_PI, sin_PI. f_equal; ring. }
  assert (B : tip (Link 0 0 0 (1 / 2) 10 1 1) (rad 4 (IZR (4 - 4))) = (10, 0)).
  { unfold tip, rad. cbn [k_x k_y k_th k_gain k_len]. replace (0 + IZR (4 - 4) * 2 * PI / 4 * (1 / 2)) with 0 by (cbn; field). rewrite cos_0, sin_0. f_equal; ring. }
  unfold cell_collides. cbn [fst snd]. change (4 mod 4)%Z with 0%Z. change (0 mod 4)%Z with 0%Z. unfold isCollide. rewrite A, B, T, !dist_away. unfold joint. cbn [k_x k_y k_re k_rj].
  rewrite !on_axis. split.
  - repeat (destruct (Rlt_dec _ _) as [L|_]; [unfold Rabs in L; destruct (Rcase_abs _); lra|]). reflexivity.
  - destruct (Rlt_dec _ _) as [L|L]; [reflexivity|]. exfalso. apply L. unfold Rabs. destruct (Rcase_abs _); lra.
Qed.

Print Assumptions C79_test_is_exact_for_the_ends.
Print Assumptions C79_searched_motion_keeps_clear.
Print Assumptions C79_direct_motion_keeps_clear.
Print Assumptions C79_links_do_not_cross_refuted.
Print Assumptions C79_any_gain_is_checked_refuted.
