(** C67: the prediction tests the footprint along the commanded arc; a straight drive stops before the obstacle.
    C68: which points it tests. *)
From Coq Require Import Reals Lra Lia Psatz.
From Flocq Require Import Core.Raux.
From Verif Require Import Common Polygon PolygonProofs PolygonProps SafetyPredict SafetyPredictProps SafetyCollide.
Local Open Scope R_scope.

(** *** Specification *)
(** The pose of the robot after [k] steps of [dt] with a constant command: move along the present heading, then turn. *)
Fixpoint drive (vx_ vy_ w dt : R) (k : nat) : R * R * R :=
  match k with
  | O => (0, 0, 0)
  | S k' => let '(x, y, th) := drive vx_ vy_ w dt k' in
            (x + (cos th * vx_ - sin th * vy_) * dt, y + (sin th * vx_ + cos th * vy_) * dt, th + w * dt)
  end.
(** A point as seen by a robot at a pose. *)
Definition seen_from (pose : R * R * R) (p : vec2) : vec2 :=
  let '(x, y, th) := pose in
  V2 (cos th * (vx p - x) + sin th * (vy p - y)) (- sin th * (vx p - x) + cos th * (vy p - y)).
Definition norm (p : vec2) : R := sqrt (vx p * vx p + vy p * vy p).

(** *** Proofs *)
Lemma aff_mul_app a b p : aff_app (aff_mul a b) p = aff_app a (aff_app b p).
Proof. unfold aff_app, aff_mul. cbn. f_equal; ring. Qed.
Lemma motion_app vx_ vy_ w dt p : aff_app (motion vx_ vy_ w dt) p =
  V2 (cos (w * dt) * (vx p - vx_ * dt) + sin (w * dt) * (vy p - vy_ * dt)) (- sin (w * dt) * (vx p - vx_ * dt) + cos (w * dt) * (vy p - vy_ * dt)).
Proof.
  unfold motion. rewrite aff_mul_app. unfold aff_app, aff_rot, aff_trans. cbn. replace (- w * dt) with (- (w * dt)) by ring. rewrite cos_neg, sin_neg. f_equal; ring.
Qed.
Lemma motion_inv_app vx_ vy_ w dt p : aff_app (motion_inv vx_ vy_ w dt) p =
  V2 (cos (w * dt) * vx p - sin (w * dt) * vy p + vx_ * dt) (sin (w * dt) * vx p + cos (w * dt) * vy p + vy_ * dt).
Proof. unfold motion_inv. rewrite aff_mul_app. unfold aff_app, aff_rot, aff_trans. cbn. f_equal; ring. Qed.

Section Arc.
  Variables (vx_ vy_ w dt : R).
  Local Notation pose := (drive vx_ vy_ w dt).

  Lemma heading k : snd (pose k) = INR k * (w * dt).
  Proof.
    induction k as [|k IH]; [cbn; ring|]. rewrite S_INR. cbn [drive]. destruct (pose k) as [[x y] th]. cbn [snd] in *. rewrite IH. ring.
  Qed.
  (** The pose as a chain from the front: first one step, then the rest from there. *)
  Lemma steps_inv_spec k p : aff_app (steps (motion_inv vx_ vy_ w dt) k) p =
    let '(x, y, th) := pose k in V2 (cos th * vx p - sin th * vy p + x) (sin th * vx p + cos th * vy p + y).
  Proof.
    revert p. induction k as [|k IH]; intros p.
    - cbn [steps drive]. unfold aff_app, aff_id. cbn. rewrite cos_0, sin_0. f_equal; ring.
    - cbn [steps drive]. rewrite aff_mul_app, IH, motion_inv_app. destruct (pose k) as [[x y] th]. cbn [vx vy]. rewrite cos_plus, sin_plus. f_equal; ring.
  Qed.
  Lemma cs th : cos th * cos th + sin th * sin th = 1.
  Proof. pose proof (sin2_cos2 th) as H. unfold Rsqr in H. lra. Qed.
  Lemma steps_comm m k : aff_mul (steps m k) m = aff_mul m (steps m k).
  Proof.
    assert (A : forall a b c, aff_mul (aff_mul a b) c = aff_mul a (aff_mul b c)) by (intros; unfold aff_mul; cbn; f_equal; ring).
    assert (I1 : forall a, aff_mul aff_id a = a) by (intros [? ? ? ? ? ?]; unfold aff_mul, aff_id; cbn; f_equal; ring).
    assert (I2 : forall a, aff_mul a aff_id = a) by (intros [? ? ? ? ? ?]; unfold aff_mul, aff_id; cbn; f_equal; ring).
    induction k as [|k IH]; cbn [steps]; [rewrite I1, I2; reflexivity|]. rewrite A. rewrite <- A. rewrite IH at 1. rewrite A. reflexivity.
  Qed.
  Lemma steps_spec k p : aff_app (steps (motion vx_ vy_ w dt) k) p = seen_from (pose k) p.
  Proof.
    revert p. induction k as [|k IH]; intros p.
    - cbn [steps drive seen_from]. unfold aff_app, aff_id. cbn. rewrite cos_0, sin_0. f_equal; ring.
    - cbn [steps drive]. rewrite steps_comm, aff_mul_app, IH, motion_app. destruct (pose k) as [[x y] th]. cbn [seen_from vx vy]. rewrite cos_plus, sin_plus.
      pose proof (cs th) as E. set (c := cos th) in *. set (s := sin th) in *. set (c' := cos (w * dt)). set (s' := sin (w * dt)). clearbody c s c' s'.
      assert (E1 : vx_ = (c * c + s * s) * vx_) by (rewrite E; ring). assert (E2 : vy_ = (c * c + s * s) * vy_) by (rewrite E; ring).
      f_equal.
      + replace (c' * (c * (vx p - x) + s * (vy p - y) - vx_ * dt) + s' * (- s * (vx p - x) + c * (vy p - y) - vy_ * dt))
          with (c' * (c * (vx p - x) + s * (vy p - y) - (c * c + s * s) * vx_ * dt) + s' * (- s * (vx p - x) + c * (vy p - y) - (c * c + s * s) * vy_ * dt)) by (rewrite <- E1, <- E2; reflexivity). ring.
      + replace (- s' * (c * (vx p - x) + s * (vy p - y) - vx_ * dt) + c' * (- s * (vx p - x) + c * (vy p - y) - vy_ * dt))
          with (- s' * (c * (vx p - x) + s * (vy p - y) - (c * c + s * s) * vx_ * dt) + c' * (- s * (vx p - x) + c * (vy p - y) - (c * c + s * s) * vy_ * dt)) by (rewrite <- E1, <- E2; reflexivity). ring.
  Qed.
  Lemma near_seen k r p : 0 <= r -> near (aff_app (steps (motion_inv vx_ vy_ w dt) k) (V2 0 0)) r p = true <-> norm (seen_from (pose k) p) < r.
  Proof.
    intros R. rewrite steps_inv_spec. unfold near, norm. destruct (pose k) as [[x y] th]. cbn [seen_from vx vy]. rewrite !Rmult_0_r. 
    set (u := vx p - (0 - 0 + x)). set (v := vy p - (0 + 0 + y)).
    assert (Q : (cos th * (vx p - x) + sin th * (vy p - y)) * (cos th * (vx p - x) + sin th * (vy p - y)) + (- sin th * (vx p - x) + cos th * (vy p - y)) * (- sin th * (vx p - x) + cos th * (vy p - y)) = u * u + v * v).
    { unfold u, v. pose proof (cs th) as E. set (c := cos th) in *. set (s := sin th) in *. clearbody c s.
      transitivity ((c * c + s * s) * ((vx p - x) * (vx p - x) + (vy p - y) * (vy p - y))); [ring|]. rewrite E. ring. }
    rewrite Q. unfold Rltb. assert (H : 0 <= u * u + v * v) by (apply Rplus_le_le_0_compat; apply (Rle_0_sqr _)). clear Q. clearbody u v. destruct (Rlt_dec (u * u + v * v) (r * r)) as [L|L]; split; intros H0; try reflexivity; try discriminate.
    - assert (P2 : 0 <= r * r) by (apply (Rle_0_sqr _)). pose proof (sqrt_lt_1 _ _ H P2 L) as Q2. rewrite (sqrt_square r R) in Q2. exact Q2.
    - exfalso. apply L. apply sqrt_lt_0_alt. rewrite (sqrt_square r R). exact H0.
  Qed.
End Arc.

Definition rstep (r : R) (p : vec2) : R := if Rltb r (norm p) then norm p else r.
Lemma radius_rstep l : radius l = fold_left rstep l 0. Proof. reflexivity. Qed.
Lemma radius_acc l r : r <= fold_left rstep l r /\ forall p, In p l -> norm p <= fold_left rstep l r.
Proof.
  revert r. induction l as [|a l IH]; intros r; cbn [fold_left]; [split; [lra|intros p []]|].
  destruct (IH (rstep r a)) as [I1 I2]. assert (H : r <= rstep r a /\ norm a <= rstep r a) by (unfold rstep, Rltb; destruct (Rlt_dec r (norm a)); lra).
  split; [lra|]. intros p [<-|Hp]; [lra|apply I2; exact Hp].
Qed.
Lemma radius_nonneg l : 0 <= radius l. Proof. rewrite radius_rstep. apply radius_acc. Qed.
Lemma radius_in l p : In p l -> norm p <= radius l. Proof. rewrite radius_rstep. apply radius_acc. Qed.

Lemma any_inside_spec fp m l : fp <> [] -> exists b, any_inside fp m l = Ok b /\ (b = true <-> exists p, In p l /\ inside fp (aff_app m p) = Ok true).
Proof.
  intros N. induction l as [|p l IH]; cbn [any_inside]; [exists false; split; [reflexivity|]; split; [discriminate|intros (p & [] & _)]|].
  destruct (inside fp (aff_app m p)) as [b|] eqn:E; [|destruct fp; [contradiction|discriminate]]. cbn [bind]. destruct b.
  - exists true. split; [reflexivity|]. split; [|reflexivity]. intros _. exists p. split; [left; reflexivity|exact E].
  - destruct IH as (b & -> & Hb). exists b. split; [reflexivity|]. rewrite Hb. split; intros (q & Hq & Iq).
    + exists q. split; [right; exact Hq|exact Iq].
    + destruct Hq as [<-|Hq]; [congruence|]. exists q. auto.
Qed.

(** *** C67 *)
(** The points in the footprint are at most as far away as its farthest vertex. *)
Theorem C67_search_radius_covers_the_footprint points fp a : polygon_of points = Some fp -> inside fp a = Ok true -> norm a <= radius fp.
Proof.
  intros F I. destruct (C32_inside_points_are_within_the_hull points fp a (- vx a) (- vy a) F I) as (v & Hv & H).
  assert (Hv' : In v fp). { apply polygon_of_close in F as [-> _]. unfold close. destruct points as [|p0 points]; [destruct Hv|]. apply in_or_app. left. exact Hv. }
  eapply Rle_trans; [|apply radius_in; exact Hv']. unfold norm. apply sqrt_le_1_alt.
  destruct a as [a1 a2], v as [v1 v2]. cbn [vx vy] in *. pose proof (Rle_0_sqr (a1 - v1)) as S1. pose proof (Rle_0_sqr (a2 - v2)) as S2. unfold Rsqr in S1, S2. lra.
Qed.

(** A predicted pose counts as colliding exactly if some point in the height range, seen from the pose on the arc, is inside of the footprint (points
    exactly as far away as the farthest vertex are not looked at). *)
Theorem C67_a_pose_collides_iff_a_point_is_in_the_footprint vx_ vy_ w dt z0 z1 ds points fp cloud k : polygon_of points = Some fp ->
  exists b, collides_at vx_ vy_ w dt fp (prepared z0 z1 ds cloud) k = Ok b /\
    (b = true <-> exists p, In p (ds cloud) /\ z0 <= pz p <= z1 /\
       let q := seen_from (drive vx_ vy_ w dt k) (V2 (px p) (py p)) in inside fp q = Ok true /\ norm q <> radius fp).
Proof.
  intros F. assert (N : fp <> []). { intros ->. unfold polygon_of in F. destruct points as [|? [|? [|? ?]]]; try discriminate F. }
  unfold collides_at. destruct (any_inside_spec fp (steps (motion vx_ vy_ w dt) k) (filter (near (aff_app (steps (motion_inv vx_ vy_ w dt) k) (V2 0 0)) (radius fp)) (prepared z0 z1 ds cloud)) N) as (b & -> & H).
  exists b. split; [reflexivity|]. rewrite H. cbv zeta. split.
  - intros (q & Hq & Iq). apply filter_In in Hq as [Hq Nq]. unfold prepared in Hq. apply in_map_iff in Hq as (p & <- & Hp). apply filter_In in Hp as [Hp Zp].
    exists p. split; [exact Hp|]. apply near_seen in Nq; [|apply radius_nonneg]. rewrite steps_spec in Iq. split; [|split; [exact Iq|lra]].
    unfold in_height, Rltb in Zp. destruct (Rlt_dec (pz p) z0); [discriminate|]. destruct (Rlt_dec z1 (pz p)); [discriminate|]. lra.
  - intros (p & Hp & Zp & Iq & Nq). exists (V2 (px p) (py p)). rewrite steps_spec. split; [|exact Iq]. apply filter_In. split.
    + unfold prepared. apply in_map_iff. exists p. split; [reflexivity|]. apply filter_In. split; [exact Hp|]. unfold in_height, Rltb. destruct (Rlt_dec (pz p) z0); [lra|]. destruct (Rlt_dec z1 (pz p)); [lra|reflexivity].
    + apply near_seen; [apply radius_nonneg|]. pose proof (C67_search_radius_covers_the_footprint points fp _ F Iq). lra.
Qed.

Lemma first_true (col : nat -> bool) n : (forall j, (j < n)%nat -> col j = false) \/ exists j, (j < n)%nat /\ col j = true /\ forall i, (i < j)%nat -> col i = false.
Proof.
  induction n as [|n [IH|(j & J1 & J2 & J3)]]; [left; lia| |right; exists j; split; [lia|auto]].
  destruct (col n) eqn:E; [right; exists n; auto|]. left. intros j Hj. destruct (Nat.eq_dec j n) as [->|]; [exact E|apply IH; lia].
Qed.
Lemma drive_straight v dt k : drive v 0 0 dt k = (INR k * (v * dt), 0, 0).
Proof.
  induction k as [|k IH]; [cbn; rewrite Rmult_0_l; reflexivity|]. rewrite S_INR. cbn [drive]. rewrite IH. rewrite cos_0, sin_0. apply f_equal2; [apply f_equal2|]; ring.
Qed.
Lemma seen_straight v dt k p : seen_from (drive v 0 0 dt k) p = V2 (vx p - INR k * (v * dt)) (vy p).
Proof. rewrite drive_straight. cbn [seen_from]. rewrite cos_0, sin_0. f_equal; ring. Qed.
Lemma tmax_braking c : good_pcfg c -> 3 / 2 * (p_vel_v c / p_acc_v c) <= tmax c.
Proof.
  intros (Hhz & Hdt & Hav & Haw & Hmv & Hmw & Hvv & Hvw). unfold tmax. set (t0 := p_vel_v c / p_acc_v c). set (t1 := p_vel_w c / p_acc_w c).
  assert (0 < t0) by (apply Rdiv_lt_0_compat; assumption). rewrite (Rlt_bool_true 0 t0) by assumption.
  assert (0 <= Rmax (p_margin_v c / p_vel_v c) (p_margin_w c / p_vel_w c)).
  { eapply Rle_trans; [|apply Rmax_l]. apply Rmult_le_pos; [lra|]. apply Rlt_le, Rinv_0_lt_compat. lra. }
  destruct (Rlt_bool_spec t0 t1); lra.
Qed.
Lemma corner_norm x0 x1 y0 y1 a b : x0 < a < x1 -> y0 <= b < y1 -> norm (V2 a b) < radius [V2 x0 y0; V2 x1 y0; V2 x1 y1; V2 x0 y1; V2 x0 y0].
Proof.
  intros A B.
  assert (G : forall q, In q [V2 x0 y0; V2 x1 y0; V2 x1 y1; V2 x0 y1] -> a * a + b * b < vx q * vx q + vy q * vy q -> norm (V2 a b) < radius [V2 x0 y0; V2 x1 y0; V2 x1 y1; V2 x0 y1; V2 x0 y0]).
  { intros q Hq L. eapply Rlt_le_trans; [|apply (radius_in _ q)]; [|destruct Hq as [<-|[<-|[<-|[<-|[]]]]]; cbn; auto 6].
    unfold norm. cbn [vx vy]. apply sqrt_lt_1; [apply Rplus_le_le_0_compat; apply (Rle_0_sqr _)|apply Rplus_le_le_0_compat; apply (Rle_0_sqr _)|exact L]. }
  assert (X : a * a < x0 * x0 \/ a * a < x1 * x1) by (destruct (Rle_dec 0 a); [right|left]; nra).
  assert (Y : b * b <= y0 * y0 \/ b * b <= y1 * y1) by (destruct (Rle_dec 0 b); [right|left]; nra).
  destruct X as [X|X], Y as [Y|Y]; [apply (G (V2 x0 y0))|apply (G (V2 x0 y1))|apply (G (V2 x1 y0))|apply (G (V2 x1 y1))]; cbn; auto; lra.
Qed.

(** A rectangular robot drives straight ahead towards a point in its way, possibly among other points, and is not in collision.  At the limited speed, going on for the
    reaction time and then braking, it stops before the point: steps shorter than the robot do not jump over it, and the horizon is long enough. *)
Theorem C67_straight_drive_stops_before_the_obstacle c x0 x1 y0 y1 fp v z0 z1 ds cloud p r :
  good_pcfg c -> 0 < v <= p_vel_v c -> reaction c + p_dt c <= p_vel_v c / p_acc_v c ->
  x0 < x1 -> y0 < y1 -> polygon_of [V2 x0 y0; V2 x1 y0; V2 x1 y1; V2 x0 y1] = Some fp -> v * p_dt c < x1 - x0 ->
  In p (ds cloud) -> z0 <= pz p <= z1 -> y0 <= py p < y1 -> x1 <= px p ->
  collides_at v 0 0 (p_dt c) fp (prepared z0 z1 ds cloud) 0 = Ok false ->
  0 <= r <= predict_cloud v 0 0 (p_dt c) z0 z1 ds fp c cloud -> r <= 1 ->
  r * v = 0 \/ stopping_distance (r * v) (reaction c) (p_acc_v c) <= px p - x1.
Proof.
  intros Hc [V0 V1] Hre X Y F St Hp Zp Yp Xp C0 Hr R1. pose proof Hc as (Hhz & Hdt & Hav & Haw & Hmv & Hmw & Hvv & Hvw).
  unfold predict_cloud in Hr. set (pts := prepared z0 z1 ds cloud) in *.
  assert (Hpts : In (V2 (px p) (py p)) pts).
  { unfold pts, prepared. apply in_map_iff. exists p. split; [reflexivity|]. apply filter_In. split; [exact Hp|]. unfold in_height, Rltb. destruct (Rlt_dec (pz p) z0); [lra|]. destruct (Rlt_dec z1 (pz p)); [lra|reflexivity]. }
  set (col := fun k => match collides_at v 0 0 (p_dt c) fp pts k with Ok b => b | UB => false end) in *.
  assert (Hr' : 0 <= r <= predict c v 0 (CloudPoints col)).
  { replace (sqrt (v * v + 0 * 0)) with v in Hr by (rewrite Rmult_0_l, Rplus_0_r, sqrt_square by lra; reflexivity). destruct pts; [destruct Hpts|exact Hr]. }
  clear Hr. assert (Vd : 0 < v * p_dt c) by (apply Rmult_lt_0_compat; lra).
  set (D := px p - x1) in *. assert (HD : 0 <= D) by (unfold D; lra).
  set (K := S (Z.to_nat (Zfloor (D / (v * p_dt c))))).
  assert (Fl : (0 <= Zfloor (D / (v * p_dt c)))%Z). { apply Zfloor_lub. apply Rmult_le_pos; [exact HD|left; apply Rinv_0_lt_compat; exact Vd]. }
  assert (IK : INR (K - 1) = IZR (Zfloor (D / (v * p_dt c)))) by (unfold K; rewrite Nat.sub_succ, Nat.sub_0_r, INR_IZR_INZ, Z2Nat.id by exact Fl; reflexivity).
  assert (IK' : INR K = INR (K - 1) + 1) by (unfold K; rewrite Nat.sub_succ, Nat.sub_0_r, S_INR; reflexivity).
  assert (Ed : D / (v * p_dt c) * (v * p_dt c) = D) by (field; lra).
  assert (K1 : INR (K - 1) * (v * p_dt c) <= D). { rewrite IK. rewrite <- Ed at 2. apply Rmult_le_compat_r; [lra|apply Zfloor_lb]. }
  assert (K2 : D < INR K * (v * p_dt c)). { rewrite IK', IK. rewrite <- Ed at 1. apply Rmult_lt_compat_r; [lra|apply Zfloor_ub]. }
  assert (CK : col K = true).
  { unfold col. destruct (C67_a_pose_collides_iff_a_point_is_in_the_footprint v 0 0 (p_dt c) z0 z1 ds _ fp cloud K F) as (b & E & Hb). fold pts in E. rewrite E. apply Hb.
    exists p. split; [exact Hp|]. split; [exact Zp|]. cbv zeta. rewrite seen_straight. cbn [vx vy]. set (a := px p - INR K * (v * p_dt c)).
    assert (A : x0 < a < x1). { unfold a. unfold D in *. rewrite IK' in *. lra. }
    split. { destruct (C32_rectangle_is_exact x0 x1 y0 y1 fp (V2 a (py p)) X Y F) as (bb & -> & Hbb). f_equal. apply Hbb. cbn [vx vy]. lra. }
    injection F as <-. pose proof (corner_norm x0 x1 y0 y1 a (py p) A Yp) as Cn. apply Rlt_not_eq. exact Cn. }
  assert (Col0 : col 0%nat = false) by (unfold col; rewrite C0; reflexivity).
  destruct (first_true col (n_steps c)) as [Free|(j & J1 & J2 & J3)].
  - right. assert (NK : (n_steps c <= K)%nat). { destruct (Nat.le_gt_cases (n_steps c) K) as [|G]; [assumption|]. rewrite (Free K G) in CK. discriminate. }
    assert (Tk : tmax c <= INR K * p_dt c).
    { unfold n_steps in NK. assert (NZ : (Zceil (tmax c / p_dt c) <= Z.of_nat K)%Z) by lia. apply IZR_le in NZ. rewrite <- INR_IZR_INZ in NZ. pose proof (Zceil_ub (tmax c / p_dt c)).
      apply (Rmult_le_reg_r (/ p_dt c)); [apply Rinv_0_lt_compat; lra|]. rewrite Rmult_assoc, Rinv_r, Rmult_1_r by lra. unfold Rdiv in *. lra. }
    pose proof (tmax_braking c Hc) as Tb.
    assert (Sv : stopping_distance (r * v) (reaction c) (p_acc_v c) <= stopping_distance v (reaction c) (p_acc_v c)).
    { apply stopping_mono; [lra|rewrite reaction_delay; pose proof (delay_pos c Hc); lra|]. split; [nra|]. nra. }
    assert (Sd : stopping_distance v (reaction c) (p_acc_v c) = v * (reaction c + v / p_acc_v c * / 2)) by (unfold stopping_distance; field; lra).
    assert (Vm : v / p_acc_v c <= p_vel_v c / p_acc_v c) by (apply Rmult_le_compat_r; [left; apply Rinv_0_lt_compat; lra|lra]).
    assert (T : reaction c + v / p_acc_v c * / 2 <= INR (K - 1) * p_dt c) by (rewrite IK' in Tk; lra).
    eapply Rle_trans; [exact Sv|]. rewrite Sd. eapply Rle_trans; [|exact K1]. replace (INR (K - 1) * (v * p_dt c)) with (v * (INR (K - 1) * p_dt c)) by ring. apply Rmult_le_compat_l; [lra|exact T].
  - destruct (C36_brakes_before_collision c v 0 col Hc (Rlt_le _ _ V0) j r J1 Col0 J2 J3 Hr') as [[B|B] _]; [left; exact B|right].
    assert (JK : (j <= K)%nat). { destruct (Nat.le_gt_cases j K) as [|G]; [assumption|]. rewrite (J3 K G) in CK. discriminate. }
    assert (INR (j - 1) <= INR (K - 1)) by (apply le_INR; lia). assert (INR (j - 1) * (v * p_dt c) <= INR (K - 1) * (v * p_dt c)) by (apply Rmult_le_compat_r; lra). lra.
Qed.

(** Any motion, sideways and turning too: if the k-th pose on the arc is the first to hit a point, then at the limited speed, going on for the reaction time and then braking, the robot
    moves and turns less far than up to the pose before, less the margins. *)
Definition hits vx_ vy_ w dt z0 z1 (ds : list pt3 -> list pt3) fp cloud k : Prop :=
  exists p, In p (ds cloud) /\ z0 <= pz p <= z1 /\ let q := seen_from (drive vx_ vy_ w dt k) (V2 (px p) (py p)) in inside fp q = Ok true /\ norm q <> radius fp.
Theorem C67_any_motion_stops_before_the_obstacle c points fp vx_ vy_ w z0 z1 ds cloud k r :
  good_pcfg c -> polygon_of points = Some fp -> (0 < k < n_steps c)%nat ->
  hits vx_ vy_ w (p_dt c) z0 z1 ds fp cloud k -> (forall j, (j < k)%nat -> ~ hits vx_ vy_ w (p_dt c) z0 z1 ds fp cloud j) ->
  0 <= r <= predict_cloud vx_ vy_ w (p_dt c) z0 z1 ds fp c cloud ->
  (r * norm (V2 vx_ vy_) = 0 \/ stopping_distance (r * norm (V2 vx_ vy_)) (reaction c) (p_acc_v c) <= norm (V2 vx_ vy_) * (INR (k - 1) * p_dt c) - p_margin_v c) /\
  (r * Rabs w = 0 \/ stopping_distance (r * Rabs w) (reaction c) (p_acc_w c) <= Rabs w * (INR (k - 1) * p_dt c) - p_margin_w c).
Proof.
  intros Hc F Hk Hh Hn Hr. unfold predict_cloud in Hr. set (pts := prepared z0 z1 ds cloud) in *.
  set (col := fun k => match collides_at vx_ vy_ w (p_dt c) fp pts k with Ok b => b | UB => false end) in *.
  assert (Hcol : forall j, col j = true <-> hits vx_ vy_ w (p_dt c) z0 z1 ds fp cloud j).
  { intros j. unfold col. destruct (C67_a_pose_collides_iff_a_point_is_in_the_footprint vx_ vy_ w (p_dt c) z0 z1 ds _ fp cloud j F) as (b & E & Hb). fold pts in E. rewrite E. exact Hb. }
  assert (Hf : forall j, (j < k)%nat -> col j = false). { intros j J. destruct (col j) eqn:E; [|reflexivity]. apply Hcol in E. destruct (Hn j J E). }
  assert (Ne : pts <> []).
  { destruct Hh as (p & Hp & Zp & _). intros E. assert (I : In (V2 (px p) (py p)) pts); [|rewrite E in I; destruct I]. unfold pts, prepared. apply in_map_iff. exists p. split; [reflexivity|]. apply filter_In.
    split; [exact Hp|]. unfold in_height, Rltb. destruct (Rlt_dec (pz p) z0); [lra|]. destruct (Rlt_dec z1 (pz p)); [lra|reflexivity]. }
  assert (Hr' : 0 <= r <= predict c (norm (V2 vx_ vy_)) w (CloudPoints col)).
  { change (norm (V2 vx_ vy_)) with (sqrt (vx_ * vx_ + vy_ * vy_)). destruct pts; [contradiction Ne; reflexivity|exact Hr]. }
  destruct (C36_brakes_before_collision c (norm (V2 vx_ vy_)) w col Hc (sqrt_pos _) k r (proj2 Hk) (Hf 0%nat (proj1 Hk)) (proj2 (Hcol k) Hh) Hf Hr') as [B1 B2].
  replace (norm (V2 vx_ vy_) * (INR (k - 1) * p_dt c)) with (INR (k - 1) * (norm (V2 vx_ vy_) * p_dt c)) by ring. replace (Rabs w * (INR (k - 1) * p_dt c)) with (INR (k - 1) * (Rabs w * p_dt c)) by ring.
  split; [exact B1|exact B2].
Qed.

(** Steps longer than the robot jump over an obstacle: it is not limited although it would drive over the point. *)
Theorem C67_long_steps_jump_over_the_obstacle_refuted : exists c x0 x1 y0 y1 fp v cloud p,
  good_pcfg c /\ 0 < v <= p_vel_v c /\ reaction c + p_dt c <= p_vel_v c / p_acc_v c /\ x0 < x1 /\ y0 < y1 /\
  polygon_of [V2 x0 y0; V2 x1 y0; V2 x1 y1; V2 x0 y1] = Some fp /\ In p cloud /\ y0 <= py p < y1 /\ x1 <= px p /\
  collides_at v 0 0 (p_dt c) fp (prepared (-1) 1 (fun l => l) cloud) 0 = Ok false /\
  predict_cloud v 0 0 (p_dt c) (-1) 1 (fun l => l) fp c cloud = 1 /\ px p - x1 < stopping_distance v (reaction c) (p_acc_v c).
Proof.
  set (c := Pcfg 1 1 4 1 0 0 4 1 0 0 false).
  exists c, 0, 1, (-1), 1. eexists. exists 4, [Pt3 2 0 0], (Pt3 2 0 0).
  split. { unfold good_pcfg, c. cbn. lra. } split; [unfold c; cbn; lra|]. split; [unfold c, reaction; cbn; lra|]. split; [lra|]. split; [lra|].
  split; [reflexivity|]. split; [left; reflexivity|]. split; [cbn; lra|]. split; [cbn; lra|].
  set (fp := [V2 0 (-1); V2 1 (-1); V2 1 1; V2 0 1] ++ [V2 0 (-1)]).
  assert (Col : forall k, collides_at 4 0 0 (p_dt c) fp (prepared (-1) 1 (fun l => l) [Pt3 2 0 0]) k = Ok false).
  { intros k. destruct (C67_a_pose_collides_iff_a_point_is_in_the_footprint 4 0 0 (p_dt c) (-1) 1 (fun l => l) [V2 0 (-1); V2 1 (-1); V2 1 1; V2 0 1] fp [Pt3 2 0 0] k eq_refl) as (b & -> & Hb).
    f_equal. destruct b; [|reflexivity]. exfalso. destruct (proj1 Hb eq_refl) as (p & Hp & _ & Ip & _). destruct Hp as [<-|[]]. rewrite seen_straight in Ip. cbn [vx vy px py] in Ip.
    destruct (C32_rectangle_is_exact 0 1 (-1) 1 fp (V2 (2 - INR k * (4 * p_dt c)) 0) ltac:(lra) ltac:(lra) eq_refl) as (bb & E & Hbb). rewrite E in Ip. injection Ip as ->.
    destruct (proj1 Hbb eq_refl) as [I1 _]. cbn [vx] in I1. change (p_dt c) with 1 in I1. destruct k as [|k]; [cbn in I1; lra|]. rewrite S_INR in I1. pose proof (pos_INR k). lra. }
  split; [apply (Col 0%nat)|]. split; [|unfold stopping_distance, reaction, c; cbn; lra].
  unfold predict_cloud. assert (P1 : prepared (-1) 1 (fun l => l) [Pt3 2 0 0] = [V2 2 0]).
  { unfold prepared. cbn [filter]. unfold in_height, Rltb. cbn [pz]. destruct (Rlt_dec 0 (-1)); [lra|]. destruct (Rlt_dec 1 0); [lra|]. reflexivity. }
  rewrite P1 in *. apply C36_free_motion_is_not_limited.
  - unfold good_pcfg, c. cbn. lra.
  - apply sqrt_pos.
  - intros j _. rewrite Col. reflexivity.
Qed.

(** With no point in the height range after the downsampling, be the cloud empty or all its points above or below, the speed is not limited or the robot is stopped, as allow_empty_cloud says. *)
Theorem C67_nothing_in_the_height_range vx0 vy0 w dt z0 z1 ds fp c cloud : (forall p, In p (ds cloud) -> pz p < z0 \/ z1 < pz p) ->
  predict_cloud vx0 vy0 w dt z0 z1 ds fp c cloud = if p_allow_empty c then 1 else 0.
Proof.
  intros H. unfold predict_cloud. destruct (prepared z0 z1 ds cloud) as [|q l] eqn:E; [reflexivity|]. exfalso.
  assert (I : In q (prepared z0 z1 ds cloud)) by (rewrite E; left; reflexivity). unfold prepared in I. apply in_map_iff in I as (p & _ & I). apply filter_In in I as [I K].
  unfold in_height, Rltb in K. destruct (H p I); destruct (Rlt_dec (pz p) z0), (Rlt_dec z1 (pz p)); cbn in K; try discriminate; lra.
Qed.

(** *** C68 *)
(** The points of the clouds that arrived after the last prediction or time-out of a history; None: no cloud did. *)
Definition newest (es : list cev) : option (list pt3) :=
  fold_left (fun o e => match e with
                        | KCloud None => o
                        | KCloud (Some pts) => Some (match o with Some l => l ++ pts | None => pts end)
                        | KPredict _ | KTimeout => None
                        end) es None.
Lemma newest_snoc es e : newest (es ++ [e]) =
  match e with KCloud None => newest es | KCloud (Some pts) => Some (match newest es with Some l => l ++ pts | None => pts end) | KPredict _ | KTimeout => None end.
Proof. unfold newest. rewrite fold_left_app. reflexivity. Qed.
Lemma crun_snoc es e : crun (es ++ [e]) = cstep (crun es) e.
Proof. unfold crun. apply fold_left_app. Qed.
Lemma acc_inv es : match newest es with
                   | Some l => a_points (crun es) = l /\ a_clear (crun es) = false /\ a_has (crun es) = true
                   | None => a_clear (crun es) = true \/ a_points (crun es) = [] end /\ (a_has (crun es) = false -> a_points (crun es) = []).
Proof.
  induction es as [|e es IH] using rev_ind; [cbn; auto|]. rewrite newest_snoc, crun_snoc. set (s := crun es) in *. destruct e as [[pts|]|tf|]; cbn [cstep].
  - cbn [a_points a_clear a_has]. destruct IH as [IH Hh]. destruct (newest es) as [l|].
    + destruct IH as (I1 & I2 & _). rewrite I1, I2. split; [auto|discriminate].
    + split; [|discriminate]. destruct IH as [-> | ->]; [auto|]. destruct (a_clear s); auto.
  - exact IH.
  - destruct (a_has s) eqn:H; cbn [negb]; [|split; [right; apply IH; reflexivity|intros _; apply IH; reflexivity]].
    destruct (a_points s); [cbn; auto|]. destruct tf; cbn; split; auto; discriminate.
  - destruct (a_has s) eqn:H; cbn [negb]; [|split; [right; apply IH; reflexivity|intros _; apply IH; reflexivity]]. cbn. auto.
Qed.

(** If clouds arrived since the last prediction, the prediction tests exactly their points, in order of arrival, as seen from the robot; earlier clouds
    are forgotten. *)
Theorem C68_prediction_tests_the_clouds_since_the_last_one es f l : newest es = Some l ->
  a_tested (crun (es ++ [KPredict (Some f)])) = a_tested (crun es) ++ [map f l].
Proof.
  intros N. rewrite crun_snoc. destruct (acc_inv es) as [A _]. rewrite N in A. destruct A as (A1 & _ & A3). cbn [cstep]. rewrite A1, A3. cbn [negb]. destruct l; reflexivity.
Qed.
(** Without a cloud since the start or since the last time-out, nothing is tested. *)
Theorem C68_nothing_is_tested_without_a_cloud es f : (forall pts, ~ In (KCloud (Some pts)) es) ->
  a_tested (crun (es ++ [KTimeout; KPredict f])) = a_tested (crun (es ++ [KTimeout])) /\ a_tested (crun es) = [].
Proof.
  intros H. assert (G : a_has (crun es) = false /\ a_tested (crun es) = []).
  { clear f. induction es as [|e es IH] using rev_ind; [auto|]. rewrite crun_snoc. destruct IH as [I1 I2]; [intros pts Hp; apply (H pts); apply in_or_app; auto|].
    destruct e as [[pts|]|tf|]; cbn [cstep]; [exfalso; apply (H pts); apply in_or_app; right; left; reflexivity|auto| |]; rewrite I1; cbn; auto. }
  destruct G as [G1 G2]. split; [|exact G2]. change [KTimeout; KPredict f] with ([KTimeout] ++ [KPredict f]). rewrite app_assoc, !crun_snoc. cbn [cstep]. rewrite G1. cbn [negb]. rewrite G1. reflexivity.
Qed.
Theorem C68_a_timeout_forgets_the_clouds es f : a_tested (crun (es ++ [KTimeout; KPredict f])) = a_tested (crun es).
Proof.
  change [KTimeout; KPredict f] with ([KTimeout] ++ [KPredict f]). rewrite app_assoc, !crun_snoc. cbn [cstep]. destruct (a_has (crun es)) eqn:E; cbn [negb a_has]; [reflexivity|]. rewrite E. reflexivity.
Qed.

(** Without a transformation to the robot, waiting points are not tested, and the next cloud replaces them. *)
Theorem C68_nothing_is_tested_without_a_transform es l pts f : newest es = Some l -> l <> [] ->
  a_tested (crun (es ++ [KPredict None])) = a_tested (crun es) /\
  a_tested (crun (es ++ [KPredict None; KCloud (Some pts); KPredict (Some f)])) = a_tested (crun es) ++ [map f pts].
Proof.
  intros N L. change [KPredict None; KCloud (Some pts); KPredict (Some f)] with ([KPredict None] ++ [KCloud (Some pts)] ++ [KPredict (Some f)]). rewrite !app_assoc, !crun_snoc.
  destruct (acc_inv es) as [A _]. rewrite N in A. destruct A as (A1 & _ & A3). cbn [cstep]. rewrite A1, A3. cbn [negb]. destruct l as [|p l]; [contradiction L; reflexivity|].
  cbn [a_points a_clear a_has a_tested negb app]. split; [reflexivity|]. destruct pts; reflexivity.
Qed.
(** A second prediction without a new cloud transforms the points again: a robot that stands still, one metre from the origin of the fixed frame, sees the
    obstacle first where it is, then one metre nearer. *)
Definition to_robot : pt3 -> pt3 := fun p => Pt3 (px p - 1) (py p) (pz p).
Theorem C68_a_second_prediction_sees_the_same_points_refuted :
  a_tested (crun [KCloud (Some [Pt3 3 0 0]); KPredict (Some to_robot); KPredict (Some to_robot)]) = [[to_robot (Pt3 3 0 0)]; [to_robot (to_robot (Pt3 3 0 0))]] /\
  px (to_robot (Pt3 3 0 0)) = 2 /\ px (to_robot (to_robot (Pt3 3 0 0))) = 1.
Proof. split; [reflexivity|]. unfold to_robot. cbn. lra. Qed.
(** In general. *)
Theorem C68_points_are_transformed_again es f g p l : a_tested (crun (es ++ [KPredict (Some f)])) = a_tested (crun es) ++ [p :: l] ->
  a_tested (crun (es ++ [KPredict (Some f); KPredict (Some g)])) = a_tested (crun es) ++ [p :: l; map g (p :: l)].
Proof.
  change [KPredict (Some f); KPredict (Some g)] with ([KPredict (Some f)] ++ [KPredict (Some g)]). rewrite app_assoc, !crun_snoc. set (s := crun es). cbn [cstep].
  destruct (a_has s) eqn:H; cbn [negb].
  2:{ intros E. exfalso. apply (f_equal (@length _)) in E. rewrite app_length in E. cbn in E. lia. }
  destruct (a_points s) as [|q ps] eqn:Ep; cbn [a_has a_points a_tested negb map].
  - intros E. apply app_inj_tail in E as [_ E]. discriminate.
  - intros E. apply app_inj_tail in E as [_ E]. injection E as E1 E2. rewrite E1, E2. rewrite <- app_assoc. reflexivity.
Qed.

(** *** The hypotheses are met *)
Definition ex_fp : list vec2 := [V2 (-3/10) (-2/10); V2 (3/10) (-2/10); V2 (3/10) (2/10); V2 (-3/10) (2/10)].
Example ex_straight : good_pcfg ex_p /\ 0 < 1/2 <= p_vel_v ex_p /\ reaction ex_p + p_dt ex_p <= p_vel_v ex_p / p_acc_v ex_p /\
  exists fp, polygon_of ex_fp = Some fp /\ 1/2 * p_dt ex_p < 3/10 - -3/10 /\
    collides_at (1/2) 0 0 (p_dt ex_p) fp (prepared 0 1 (fun l => l) [Pt3 (4/10) 0 (1/2); Pt3 (-2) 0 0]) 0 = Ok false.
Proof.
  split. { unfold good_pcfg, ex_p. cbn. lra. } split; [unfold ex_p; cbn; lra|]. split; [unfold reaction, ex_p; cbn; lra|]. eexists. split; [reflexivity|]. split; [unfold ex_p; cbn; lra|].
  set (fp := ex_fp ++ _).
  destruct (C67_a_pose_collides_iff_a_point_is_in_the_footprint (1/2) 0 0 (p_dt ex_p) 0 1 (fun l => l) ex_fp fp [Pt3 (4/10) 0 (1/2); Pt3 (-2) 0 0] 0 eq_refl) as (b & -> & Hb).
  f_equal. destruct b; [|reflexivity]. exfalso. destruct (proj1 Hb eq_refl) as (p & Hp & _ & Ip & _). rewrite seen_straight in Ip.
  destruct (C32_rectangle_is_exact (-3/10) (3/10) (-2/10) (2/10) fp (V2 (px p - INR 0 * (1 / 2 * p_dt ex_p)) (py p)) ltac:(lra) ltac:(lra) eq_refl) as (bb & E & Hbb).
  cbn [vx vy] in Ip. rewrite E in Ip. injection Ip as ->. destruct (proj1 Hbb eq_refl) as [I1 _]. cbn [vx] in I1. change (INR 0) with 0 in I1. destruct Hp as [<-|[<-|[]]]; cbn [px] in I1; lra.
Qed.
(** Sideways, to the left. *)
Example ex_sideways : good_pcfg ex_p /\ (0 < 2 < n_steps ex_p)%nat /\ exists fp, polygon_of ex_fp = Some fp /\
  hits 0 (1/2) 0 (p_dt ex_p) 0 1 (fun l => l) fp [Pt3 0 (26/100) (1/2)] 2 /\ (forall j, (j < 2)%nat -> ~ hits 0 (1/2) 0 (p_dt ex_p) 0 1 (fun l => l) fp [Pt3 0 (26/100) (1/2)] j).
Proof.
  split. { unfold good_pcfg, ex_p. cbn. lra. } split. { unfold n_steps. rewrite ex_tmax. unfold ex_p. cbn [p_dt]. rewrite (Zceil_imp 10) by (rewrite minus_IZR; lra). cbn. lia. }
  eexists. split; [reflexivity|]. set (fp := ex_fp ++ _).
  assert (Sn : forall k, seen_from (drive 0 (1/2) 0 (p_dt ex_p) k) (V2 0 (26/100)) = V2 0 (26/100 - INR k / 20)).
  { intros k. assert (D : drive 0 (1/2) 0 (p_dt ex_p) k = (0, INR k / 20, 0)). { unfold ex_p. cbn [p_dt]. induction k as [|k IH]; cbn [drive]; [change (INR 0) with 0; repeat f_equal; lra|]. rewrite IH, S_INR, cos_0, sin_0. f_equal; [f_equal|]; lra. }
    rewrite D. unfold seen_from. cbn [vx vy]. rewrite cos_0, sin_0. f_equal; lra. }
  split.
  - exists (Pt3 0 (26/100) (1/2)). split; [left; reflexivity|]. split; [cbn; lra|]. cbn [px py]. cbv zeta. rewrite Sn.
    assert (I2 : INR 2 = 2) by (cbn; lra). rewrite I2. split.
    + destruct (C32_rectangle_is_exact (-3/10) (3/10) (-2/10) (2/10) fp (V2 0 (26/100 - 2 / 20)) ltac:(lra) ltac:(lra) eq_refl) as (bb & -> & Hbb). f_equal. apply Hbb. cbn [vx vy]. lra.
    + apply Rlt_not_eq. apply (corner_norm (-3/10) (3/10) (-2/10) (2/10) 0 (26/100 - 2 / 20)); lra.
  - intros j J (p & [<-|[]] & _ & I & _). cbn [px py] in I. rewrite Sn in I.
    destruct (C32_rectangle_is_exact (-3/10) (3/10) (-2/10) (2/10) fp (V2 0 (26/100 - INR j / 20)) ltac:(lra) ltac:(lra) eq_refl) as (bb & E & Hbb). rewrite E in I. injection I as ->.
    destruct (proj1 Hbb eq_refl) as [_ I2]. cbn [vy] in I2. assert (INR j <= 1) by (apply (le_INR j 1); lia). lra.
Qed.
Example ex_newest : newest [KCloud (Some [Pt3 0 0 0]); KPredict None; KCloud (Some [Pt3 1 0 0]); KCloud None; KCloud (Some [Pt3 2 0 0])] = Some [Pt3 1 0 0; Pt3 2 0 0].
Proof. reflexivity. Qed.

Print Assumptions C67_search_radius_covers_the_footprint.
Print Assumptions C67_a_pose_collides_iff_a_point_is_in_the_footprint.
Print Assumptions C67_straight_drive_stops_before_the_obstacle.
Print Assumptions C67_long_steps_jump_over_the_obstacle_refuted.
Print Assumptions C68_prediction_tests_the_clouds_since_the_last_one.
Print Assumptions C68_nothing_is_tested_without_a_cloud.
Print Assumptions C68_a_timeout_forgets_the_clouds.
Print Assumptions C68_points_are_transformed_again.
Print Assumptions C68_nothing_is_tested_without_a_transform.
Print Assumptions C67_nothing_in_the_height_range.
Print Assumptions C67_any_motion_stops_before_the_obstacle.
