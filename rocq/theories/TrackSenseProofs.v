(** Proofs about [TrackSense]: the measurements are defined and do not depend on the frame. *)
From Coq Require Import Reals Lra Lia Psatz.
From Flocq Require Import Core.Core IEEE754.BinarySingleNaN.
From Verif Require Import Common CostF32 BasicControl Path2D Path2DProps PathGeom PathGeomProps Tracker TrackerProps.
From Verif Require Import TrackSense.
Local Open Scope R_scope.

(** * The frame of the robot *)
Definition seen_pt (r : rpose) (p : vec) : vec :=
  (cos (r_yaw r) * (fst p - r_x r) + sin (r_yaw r) * (snd p - r_y r), - sin (r_yaw r) * (fst p - r_x r) + cos (r_yaw r) * (snd p - r_y r)).
Definition back (r : rpose) (p : vec) : vec :=
  (r_x r + (cos (r_yaw r) * fst p - sin (r_yaw r) * snd p), r_y r + (sin (r_yaw r) * fst p + cos (r_yaw r) * snd p)).
Lemma cs1 a : cos a * cos a + sin a * sin a = 1.
Proof. pose proof (sin2_cos2 a) as H. unfold Rsqr in H. lra. Qed.
Lemma seen_back r p : seen_pt r (back r p) = p.
Proof.
  destruct p as [x y]. unfold seen_pt, back. cbn [fst snd]. pose proof (cs1 (r_yaw r)) as H.
  set (C := cos (r_yaw r)) in *. set (S := sin (r_yaw r)) in *. f_equal.
  - replace (_ + _) with ((C * C + S * S) * x) by ring. rewrite H. ring.
  - replace (_ + _) with ((C * C + S * S) * y) by ring. rewrite H. ring.
Qed.
Lemma seen_dot r p q p' q' : dot (vsub (seen_pt r p) (seen_pt r q)) (vsub (seen_pt r p') (seen_pt r q')) = dot (vsub p q) (vsub p' q').
Proof.
  destruct p as [x y], q as [x1 y1], p' as [x' y'], q' as [x1' y1']. unfold dot, vsub, seen_pt. cbn [fst snd].
  pose proof (cs1 (r_yaw r)) as H. set (C := cos (r_yaw r)) in *. set (S := sin (r_yaw r)) in *.
  transitivity ((C * C + S * S) * ((x - x1) * (x' - x1') + (y - y1) * (y' - y1'))); [ring|]. rewrite H. ring.
Qed.
Lemma seen_dist r p q : dist2 (seen_pt r p) (seen_pt r q) = dist2 p q.
Proof. rewrite <- !nrm_dist. unfold nrm. rewrite seen_dot. reflexivity. Qed.
Lemma seen_pos r p : pos (seen r p) = seen_pt r (pos p).
Proof. reflexivity. Qed.
Lemma seen_xy r l i : (i < length l)%nat -> xy (map (seen r) l) i = seen_pt r (xy l i).
Proof.
  intros H. unfold xy. rewrite (nth_indep _ p0 (seen r p0)) by (rewrite map_length; exact H). rewrite map_nth. reflexivity.
Qed.
Lemma seen_inj r p q : seen_pt r p = seen_pt r q -> p = q.
Proof.
  intros E. assert (D : dot (vsub p q) (vsub p q) = 0).
  { rewrite <- (seen_dot r), E. unfold dot, vsub. cbn [fst snd]. ring. }
  destruct p as [x y], q as [x' y']. unfold dot, vsub in D. cbn [fst snd] in D.
  pose proof (sq_nn (x - x')). pose proof (sq_nn (y - y')). f_equal; nra.
Qed.

Lemma sq_dot a b : sq a b = dot (vsub (pos a) (pos b)) (vsub (pos a) (pos b)).
Proof. reflexivity. Qed.
Lemma seen_sq r a b : sq (seen r a) (seen r b) = sq a b.
Proof. rewrite !sq_dot, !seen_pos, seen_dot. reflexivity. Qed.
Lemma seen_sign r a b : sign_vel (seen r a) (seen r b) = sign_vel a b.
Proof.
  unfold sign_vel, seen. cbn [p_x p_y p_yaw]. replace (- r_yaw r + p_yaw b) with (p_yaw b - r_yaw r) by ring. rewrite cos_minus, sin_minus.
  pose proof (cs1 (r_yaw r)) as H. set (C := cos (r_yaw r)) in *. set (S := sin (r_yaw r)) in *. set (c := cos (p_yaw b)). set (s := sin (p_yaw b)).
  transitivity ((C * C + S * S) * ((p_x b - p_x a) * c + (p_y b - p_y a) * s)); [ring|]. rewrite H. ring.
Qed.

Lemma seen_at r l i : at_ (map (seen r) l) i = bind (at_ l i) (fun p => Ok (seen r p)).
Proof. unfold at_. rewrite nth_error_map. destruct (nth_error l i); reflexivity. Qed.
Lemma seen_flg_loop r l sb tn eps n : forall it pr s, flg_loop (map (seen r) l) sb tn eps n it pr s = flg_loop l sb tn eps n it pr s.
Proof.
  induction n as [|n IH]; intros it pr s; cbn [flg_loop]; [reflexivity|]. rewrite !seen_at.
  destruct (at_ l it) as [p|]; cbn [bind]; [|reflexivity]. destruct (at_ l pr) as [q|]; cbn [bind]; [|reflexivity].
  rewrite seen_sq, seen_sign, !IH. reflexivity.
Qed.
Lemma seen_flg r l sb tn eps b e : findLocalGoal (map (seen r) l) sb tn eps b e = findLocalGoal l sb tn eps b e.
Proof. unfold findLocalGoal. rewrite map_length, seen_flg_loop. reflexivity. Qed.
Lemma seen_travelled r l n : forall b, (b + n < length l)%nat -> travelled (map (seen r) l) b n = travelled l b n.
Proof.
  induction n as [|n IH]; intros b H; cbn [travelled]; [reflexivity|]. rewrite IH by lia. rewrite !seen_xy, seen_dist by lia. reflexivity.
Qed.
Lemma seen_norm2 r a b : norm2 (seen r a) (seen r b) = norm2 a b.
Proof. unfold norm2. rewrite seen_sq. reflexivity. Qed.
Lemma seen_length r l : path_length (map (seen r) l) = path_length l.
Proof.
  destruct l as [|p l]; [reflexivity|]. cbn [map path_length]. revert p. induction l as [|q l IH]; intros p; cbn [map len_loop]; [reflexivity|].
  rewrite seen_norm2, IH. reflexivity.
Qed.

(** * Geometry *)
(** [q] is the foot of the perpendicular from [p] on the line through [a] and [b]. *)
Definition foot (a b p q : R * R) : Prop :=
  (exists t, fst q = fst a + t * (fst b - fst a) /\ snd q = snd a + t * (snd b - snd a)) /\
  (fst p - fst q) * (fst b - fst a) + (snd p - snd q) * (snd b - snd a) = 0.
Lemma projection_foot a b p : a <> b -> foot a b p (projection2d a b p).
Proof.
  destruct a as [ax ay], b as [bx by_], p as [x y]. intros N. unfold foot, projection2d, dot, vsub. cbn [fst snd].
  assert (D : 0 < (bx - ax) * (bx - ax) + (by_ - ay) * (by_ - ay)).
  { pose proof (sq_nn (bx - ax)). pose proof (sq_nn (by_ - ay)). destruct (Req_dec (bx - ax) 0) as [Z|Z].
    - assert (by_ - ay <> 0) by (intros W; apply N; f_equal; lra). nra.
    - nra. }
  set (k := (bx - ax) * (bx - ax) + (by_ - ay) * (by_ - ay)) in *. split.
  - exists (((bx - ax) * (x - ax) + (by_ - ay) * (y - ay)) / k). split; field; lra.
  - unfold k in *. field. lra.
Qed.
Lemma foot_back r a b p q : foot (seen_pt r a) (seen_pt r b) (seen_pt r p) q -> foot a b p (back r q).
Proof.
  intros [(t & X & Y) P]. pose proof (seen_back r q) as E. set (q' := back r q) in *.
  assert (Eq : q' = (fst a + t * (fst b - fst a), snd a + t * (snd b - snd a))).
  { apply (seen_inj r). rewrite E. destruct q as [qx qy], a as [ax ay], b as [bx by_]. unfold seen_pt in *. cbn [fst snd] in *. rewrite X, Y. f_equal; ring. }
  split.
  - exists t. rewrite Eq. cbn [fst snd]. split; reflexivity.
  - rewrite <- E in P. pose proof (seen_dot r p q' b a) as D. unfold dot, vsub in D. cbn [fst snd] in D. rewrite <- D. exact P.
Qed.
Lemma back_dist r q x : dist2 q (seen_pt r x) = dist2 (back r q) x.
Proof. rewrite <- (seen_dist r (back r q) x), seen_back. reflexivity. Qed.

Lemma dist2_triangle a b c : dist2 a c <= dist2 a b + dist2 b c.
Proof. unfold dist2. pose proof (triangle (fst a) (snd a) (fst c) (snd c) (fst b) (snd b)) as T. unfold dist_euc in T. exact T. Qed.
Lemma dist2_self a : dist2 a a = 0.
Proof. unfold dist2. rewrite !Rminus_diag_eq by reflexivity. unfold Rsqr. replace (0 * 0 + 0 * 0) with 0 by ring. apply sqrt_0. Qed.
Lemma travelled_straight l b n : dist2 (xy l b) (xy l (b + n)) <= travelled l b n.
Proof.
  induction n as [|n IH].
  - rewrite Nat.add_0_r, dist2_self. cbn [travelled]. lra.
  - rewrite travelled_S. replace (b + S n)%nat with (S (b + n)) by lia.
    pose proof (dist2_triangle (xy l b) (xy l (b + n)) (xy l (S (b + n)))). lra.
Qed.
Lemma travelled_nonneg l b n : 0 <= travelled l b n.
Proof. pose proof (travelled_straight l b n). pose proof (dist2_nonneg (xy l b) (xy l (b + n))). lra. Qed.

(** The remaining distance is at least the straight one. *)
Lemma remained_at_least l i e q : (1 <= i < e)%nat -> (e <= length l)%nat ->
  exists d, remainedDistance l 0 i e q = Ok d /\ dist2 q (xy l (e - 1)) <= Rabs d.
Proof.
  intros H1 H2. unfold remainedDistance. destruct (at_xy l i ltac:(lia)) as (p & -> & Ep). cbn [bind]. rewrite Ep, nrm_dist.
  destruct (Nat.leb_spec e (i + 1)) as [L|L].
  - destruct (Nat.ltb_spec e (0 + 2)); [lia|]. assert (e = S i) by lia. subst e.
    replace (S i - 1)%nat with i by lia. replace (S i - 2)%nat with (i - 1)%nat by lia.
    destruct (at_xy l i ltac:(lia)) as (p' & -> & Ep'). destruct (at_xy l (i - 1) ltac:(lia)) as (p1 & -> & Eq). cbn [bind].
    pose proof (dist2_nonneg (xy l i) q) as N. rewrite (dist2_sym q).
    destruct (Rle_dec 0 _); eexists; (split; [reflexivity|]); [rewrite Rabs_pos_eq; lra|rewrite Rabs_Ropp, Rabs_pos_eq; lra].
  - rewrite rd_loop_spec by lia. eexists. split; [reflexivity|]. replace (S i - 1)%nat with i by lia.
    pose proof (travelled_straight l i (e - S i)) as T. replace (i + (e - S i))%nat with (e - 1)%nat in T by lia.
    pose proof (dist2_triangle q (xy l i) (xy l (e - 1))) as T2. rewrite (dist2_sym q (xy l i)) in T2.
    pose proof (dist2_nonneg (xy l i) q). pose proof (travelled_nonneg l i (e - S i)). rewrite Rabs_pos_eq; lra.
Qed.
Lemma remained_ok l i e q : (i < e)%nat -> (e <= length l)%nat -> exists d, remainedDistance l 0 i e q = Ok d.
Proof.
  intros H1 H2. destruct (Nat.eq_dec i 0) as [->|N].
  - unfold remainedDistance. destruct (at_xy l 0 ltac:(lia)) as (p & -> & Ep). cbn [bind].
    destruct (Nat.leb_spec e (0 + 1)) as [L|L]; [destruct (Nat.ltb_spec e (0 + 2)); [eauto|lia]|]. rewrite rd_loop_spec by lia. eauto.
  - destruct (remained_at_least l i e q ltac:(lia) H2) as (d & E & _). eauto.
Qed.

(** * The direction of a strip *)
Lemma atan2_dir x y : (x, y) <> (0, 0) -> x = sqrt (x * x + y * y) * cos (atan2 y x) /\ y = sqrt (x * x + y * y) * sin (atan2 y x).
Proof.
  intros N. set (m := sqrt (x * x + y * y)).
  assert (A : forall z, 0 < sqrt (1 + z * z) /\ cos (atan z) = / sqrt (1 + z * z) /\ sin (atan z) = z / sqrt (1 + z * z)).
  { intros z. assert (P : 0 < 1 + z * z) by nra. assert (S : 0 < sqrt (1 + z * z)) by (apply sqrt_lt_R0; exact P). split; [exact S|].
    assert (C : 0 < cos (atan z)) by (apply cos_gt_0; pose proof (atan_bound z); lra).
    assert (T : sin (atan z) = z * cos (atan z)).
    { pose proof (tan_atan z) as T. unfold tan in T. rewrite <- T at 2. field. lra. }
    pose proof (cs1 (atan z)) as E. rewrite T in E.
    assert (E2 : (cos (atan z) * sqrt (1 + z * z)) * (cos (atan z) * sqrt (1 + z * z)) = 1 * 1).
    { replace (_ * _) with (cos (atan z) * cos (atan z) * (sqrt (1 + z * z) * sqrt (1 + z * z))) by ring. rewrite sqrt_sqrt by lra. lra. }
    assert (E3 : cos (atan z) * sqrt (1 + z * z) = 1).
    { pose proof (Rmult_lt_0_compat _ _ C S) as CS. set (u := cos (atan z) * sqrt (1 + z * z)) in *. clearbody u. clear - E2 CS. destruct (Rtotal_order u 1) as [L|[L|L]]; [nra|exact L|nra]. }
    assert (E4 : cos (atan z) = / sqrt (1 + z * z)) by (apply Rmult_eq_reg_r with (sqrt (1 + z * z)); [rewrite E3; field; lra|lra]).
    split; [exact E4|]. rewrite T, E4. reflexivity. }
  assert (Q : x <> 0 -> m = Rabs x * sqrt (1 + y / x * (y / x))).
  { intros X. unfold m. rewrite <- (sqrt_Rsqr_abs x), <- sqrt_mult_alt by (unfold Rsqr; nra). f_equal. unfold Rsqr. field. exact X. }
  unfold atan2. destruct (Rlt_dec 0 x) as [X|X].
  - destruct (A (y / x)) as (S & C & D). rewrite C, D, (Q ltac:(lra)), Rabs_pos_eq by lra. split; field; lra.
  - destruct (Rlt_dec x 0) as [X'|X'].
    + destruct (A (y / x)) as (S & C & D). assert (CS : forall a, cos (a + PI) = - cos a /\ sin (a + PI) = - sin a) by (intros; split; [apply neg_cos|apply neg_sin]).
      assert (CS' : forall a, cos (a - PI) = - cos a /\ sin (a - PI) = - sin a).
      { intros a. rewrite <- (cos_period (a - PI) 1), <- (sin_period (a - PI) 1). replace (a - PI + 2 * INR 1 * PI) with (a + PI) by (cbn; ring). apply CS. }
      destruct (Rle_dec 0 y); [rewrite (proj1 (CS _)), (proj2 (CS _))|rewrite (proj1 (CS' _)), (proj2 (CS' _))];
        rewrite C, D, (Q ltac:(lra)), Rabs_left by lra; split; field; lra.
    + assert (x = 0) by lra. subst x. unfold m. replace (0 * 0 + y * y) with (y * y) by ring.
      destruct (Rlt_dec 0 y); [rewrite cos_PI2, sin_PI2, sqrt_square; lra|].
      destruct (Rlt_dec y 0); [|exfalso; apply N; f_equal; lra].
      rewrite cos_neg, sin_neg, cos_PI2, sin_PI2. replace (y * y) with ((- y) * (- y)) by ring. rewrite sqrt_square; lra.
Qed.
Lemma normalized_turns a : exists k, normalized a = a - 2 * PI * IZR k.
Proof. exists (Int_part ((a + PI) / (2 * PI))). reflexivity. Qed.
Lemma cos_turns a k : cos (a - 2 * PI * IZR k) = cos a /\ sin (a - 2 * PI * IZR k) = sin a.
Proof.
  destruct (Z_le_gt_dec 0 k) as [P|P].
  - pose proof (cos_period (a - 2 * PI * IZR k) (Z.to_nat k)) as C. pose proof (sin_period (a - 2 * PI * IZR k) (Z.to_nat k)) as S.
    rewrite INR_IZR_INZ, Z2Nat.id in C, S by lia. replace (a - 2 * PI * IZR k + 2 * IZR k * PI) with a in C, S by ring. auto.
  - pose proof (cos_period a (Z.to_nat (- k))) as C. pose proof (sin_period a (Z.to_nat (- k))) as S.
    rewrite INR_IZR_INZ, Z2Nat.id, opp_IZR in C, S by lia. replace (a + 2 * - IZR k * PI) with (a - 2 * PI * IZR k) in C, S by ring. auto.
Qed.

(** * The kept poses *)
Lemma thin_all l : forall n i, (i + n = length l)%nat -> thin 1 n i l = skipn i l.
Proof.
  induction n as [|n IH]; intros i H; cbn [thin].
  - rewrite skipn_all2 by lia. reflexivity.
  - destruct (nth_error l i) as [p|] eqn:E; [|apply nth_error_None in E; lia]. rewrite IH by lia.
    replace (i + 1)%nat with (S i) by lia. apply nth_error_split in E. destruct E as (l1 & l2 & -> & <-).
    rewrite !skipn_app, (skipn_all2 (n := S (length l1)) l1), (skipn_all2 (n := length l1) l1) by lia. replace (length l1 - length l1)%nat with 0%nat by lia. replace (S (length l1) - length l1)%nat with 1%nat by lia. reflexivity.
Qed.
Lemma kept_all l : kept 1 l = l.
Proof. unfold kept. rewrite thin_all by reflexivity. reflexivity. Qed.
Lemma kept_some step l : l <> [] -> (0 < length (kept step l))%nat.
Proof. destruct l; [congruence|]. intros _. unfold kept. cbn. lia. Qed.

(** * A measurement *)
Lemma fn_index l target range eps n : forall it near m s, (1 <= it)%nat -> (it + n <= length l)%nat ->
  exists i d, fn_loop l target range eps n it near m s = Ok (i, d) /\ (i = near \/ (it <= i < it + n)%nat).
Proof.
  induction n as [|n IH]; intros it near m s H1 H2; cbn [fn_loop]; [eauto|].
  destruct (at_xy l it ltac:(lia)) as (p & -> & _). destruct (at_xy l (it - 1) ltac:(lia)) as (q & -> & _). cbn [bind]. cbv zeta.
  match goal with |- context [if ?b then Ok _ else _] => destruct b end; [eauto|].
  match goal with |- context [if ?b then fn_loop _ _ _ _ _ _ _ _ _ else _] => destruct b end.
  - edestruct IH as (i & d & -> & A); [| |exists i, d; split; [reflexivity|]; right]; lia.
  - edestruct IH as (i & d & -> & A); [| |exists i, d; split; [reflexivity|]]; lia.
Qed.

(** The stop ahead of pose [k]. *)
Definition next_stop (M : mcfg) (K : list pose2) (k : nat) : option nat :=
  match findLocalGoal K (m_backward M) true (1 / 1000000) k (length K) with Ok g => g | UB => None end.
Definition until (M : mcfg) (K : list pose2) (k : nat) : nat := match next_stop M K k with Some g => g | None => length K end.
Notation stops_from M K := (stop K (m_backward M) true (1 / 1000000)).
Lemma next_stop_spec M K k : (k < length K)%nat ->
  findLocalGoal K (m_backward M) true (1 / 1000000) k (length K) = Ok (next_stop M K k) /\
  match next_stop M K k with
  | None => forall i, (k < i < length K)%nat -> ~ stops_from M K k i
  | Some g => (k < g < length K)%nat /\ stops_from M K k g /\ forall i, (k < i < g)%nat -> ~ stops_from M K k i
  end.
Proof.
  intros H. unfold next_stop. destruct (flg_spec K (m_backward M) true (1 / 1000000) k (length K) H ltac:(lia)) as (r & -> & S). split; [reflexivity|exact S].
Qed.
Lemma until_spec M K k : (k < length K)%nat -> (k < until M K k <= length K)%nat /\ (forall i, (k < i < until M K k)%nat -> ~ stops_from M K k i).
Proof.
  intros H. destruct (next_stop_spec M K k H) as [_ S]. unfold until. destruct (next_stop M K k).
  - destruct S as (S1 & _ & S3). split; [lia|exact S3].
  - split; [lia|exact S].
Qed.
(** It stays the stop ahead while the robot is at least two poses before it. *)
Lemma next_stop_stays M K k k' : (k < length K)%nat -> (k <= k')%nat -> (k' + 2 <= until M K k)%nat -> next_stop M K k' = next_stop M K k.
Proof.
  intros H1 H2 H3. destruct (until_spec M K k H1) as [U _]. destruct (next_stop_spec M K k H1) as [_ S]. destruct (next_stop_spec M K k' ltac:(lia)) as [_ S'].
  unfold until in *. 
  assert (D : forall i, stops_from M K k' i -> stops_from M K k i).
  { intros i [A|(A & B & C)]; [left; exact A|right; repeat split; try apply C; try exact A; lia]. }
  assert (D' : forall i, (k' + 2 <= i)%nat -> stops_from M K k i -> stops_from M K k' i).
  { intros i L [A|(A & B & C)]; [left; exact A|right; repeat split; try apply C; try exact A; lia]. }
  destruct (next_stop M K k) as [g|]; destruct (next_stop M K k') as [g'|]; [| | |reflexivity].
  - destruct S as (S1 & S2 & S3). destruct S' as (T1 & T2 & T3). f_equal. destruct (lt_eq_lt_dec g' g) as [[L|E]|L]; [|exact E|].
    + exfalso. apply (S3 g'); [lia|apply D; exact T2].
    + exfalso. apply (T3 g); [lia|apply D'; [lia|exact S2]].
  - destruct S as (S1 & S2 & S3). exfalso. apply (S' g); [lia|apply D'; [lia|exact S2]].
  - destruct S' as (T1 & T2 & T3). exfalso. apply (S g'); [lia|apply D; exact T2].
Qed.

(** Neighbouring poses are at most 1 m apart. *)
Definition dense (K : list pose2) : Prop := forall i, (S i < length K)%nat -> dist2 (xy K i) (xy K (S i)) <= 1.

Section Look.
  Variable M : mcfg.
  Variable c : tcfg.

  Definition predicted (r : rpose) (v w : R) : R * R :=
    (r_x r + v * m_look M * cos (r_yaw r + w * m_look M / 2), r_y r + v * m_look M * sin (r_yaw r + w * m_look M / 2)).
  Lemma predicted_seen r v w : ahead M v w = seen_pt r (predicted r v w).
  Proof.
    rewrite <- (seen_back r (ahead M v w)). f_equal. unfold back, ahead, predicted. cbn [fst snd]. rewrite cos_plus, sin_plus. f_equal; ring.
  Qed.

  Variables (path : list pose2) (stp : nat) (pl : place) (v w : R) (k : nat).
  Notation K := (kept stp path).
  Notation r := (pl_robot pl).
  Notation lg := (until M K k).
  Notation P := (predicted r v w).

  (** What a measurement says. *)
  Record says (z : sensed) (i : nat) : Prop := Says {
    y_size : z_size z = length K;
    y_near : z_nearest z = Some i;
    y_goal : z_local_goal z = lg;
    y_len : z_path_length z = path_length K;
    y_range : (k <= i < lg)%nat;
    y_ahead : dense K -> 0 <= m_eps M -> (k < i)%nat \/ (i = k /\ lg = S k);
    y_place : z_in_place z = true <-> xy K (i - 1) = xy K i;
    y_goal_yaw : exists t, z_goal_angle z = r_yaw r - p_yaw (nth (lg - 1) K p0) - 2 * PI * IZR t;
    y_dist : z_in_place z = false -> m_no_pos M <= path_length K -> (1 <= i)%nat /\
      exists q, foot (xy K (i - 1)) (xy K i) P q /\
        dist2 q (xy K (lg - 1)) <= Rabs (z_remain_local z) /\ dist2 q (xy K (length K - 1)) <= Rabs (z_dist_remains z) /\
        (on_strip K i q -> z_dist_remains z = dist2 q (xy K i) + travelled K i (length K - 1 - i));
    y_angle : z_in_place z = false -> exists s d, (s = 1 \/ (s = -1 /\ m_backward M = true)) /\ 0 < d /\
      fst (xy K i) - fst (xy K (i - 1)) = s * d * cos (r_yaw r - z_angle z) /\
      snd (xy K i) - snd (xy K (i - 1)) = s * d * sin (r_yaw r - z_angle z) }.

  Lemma measure_says : (k < length K)%nat -> exists z i, measure M path stp pl v w k = Ok z /\ says z i.
  Proof.
    intros Hk. unfold measure. cbv zeta. rewrite map_length, seen_flg, seen_length. set (L := map (seen r) K).
    destruct (next_stop_spec M K k Hk) as [-> _]. cbn [bind]. fold lg. destruct (until_spec M K k Hk) as [U1 U2].
    assert (LL : length L = length K) by (unfold L; apply map_length).
    set (range := if Nat.ltb 0 k then 1 else 0). set (origin := ahead M v w).
    assert (F : exists i d, findNearestWithDistance L k lg origin range (m_eps M) = Ok (i, d) /\ (k <= i < lg)%nat /\
                (dense K -> 0 <= m_eps M -> (k < i)%nat \/ (i = k /\ lg = S k))).
    { unfold findNearestWithDistance at 1. destruct (Nat.eqb_spec k lg); [lia|]. destruct (at_xy L k ltac:(lia)) as (p & Ap & _). rewrite Ap. cbn [bind].
      destruct (fn_index L origin range (m_eps M) (lg - S k) (S k) k (nrm (vsub (pos p) origin) + m_eps M) 0 ltac:(lia) ltac:(lia)) as (i & d & E & I).
      rewrite E. cbn [bind fst snd]. exists i, (Some d). split; [reflexivity|]. split; [lia|]. intros De Ee.
      destruct (Nat.eq_dec lg (S k)) as [X|X]; [right; split; [lia|exact X]|left].
      assert (Rc : range <= 0 \/ travelled L k (k + 1 - k) <= range).
      { unfold range. destruct (Nat.ltb_spec 0 k); [right|left; lra]. replace (k + 1 - k)%nat with 1%nat by lia. cbn [travelled].
        unfold L. rewrite !seen_xy, seen_dist by lia. pose proof (De k ltac:(lia)). lra. }
      destruct (C59_nearest_strip L origin k lg range (m_eps M) ltac:(lia) ltac:(lia) Ee Rc) as (i' & d' & E' & I' & _).
      unfold findNearestWithDistance in E'. destruct (Nat.eqb_spec k lg); [lia|]. rewrite Ap in E'. cbn [bind] in E'. rewrite E in E'. cbn [bind fst snd] in E'.
      injection E' as -> _. lia. }
    destruct F as (i & d & -> & I & I2). cbn [bind fst]. destruct (Nat.eqb_spec i (length K)); [lia|].
    destruct (at_xy L (i - 1) ltac:(lia)) as (a & -> & Ea). destruct (at_xy L i ltac:(lia)) as (b & Ab & Eb). rewrite Ab.
    assert (At : at_ L (lg - 1) = Ok (seen r (nth (lg - 1) K p0))).
    { unfold L. rewrite seen_at. unfold at_. rewrite (nth_error_nth' K p0) by lia. reflexivity. }
    rewrite At. cbn [bind]. rewrite Ea, Eb.
    assert (Xa : xy L (i - 1) = seen_pt r (xy K (i - 1))) by (unfold L; apply seen_xy; lia).
    assert (Xb : xy L i = seen_pt r (xy K i)) by (unfold L; apply seen_xy; lia).
    set (q := projection2d (xy L (i - 1)) (xy L i) origin). set (q' := projection2d (xy L (i - 1)) (xy L i) (pl_off pl)).
    destruct (remained_ok L i lg q ltac:(lia) ltac:(lia)) as (rl & Erl). destruct (remained_ok L i (length K) q ltac:(lia) ltac:(lia)) as (dr & Edr).
    destruct (remained_ok L i (length K) q' ltac:(lia) ltac:(lia)) as (drr & ->). rewrite Erl, Edr. cbn [bind].
    set (ip := if Req_EM_T (snd (vsub (xy L i) (xy L (i - 1)))) 0 then _ else false).
    assert (IP : ip = true <-> xy K (i - 1) = xy K i).
    { assert (Q : ip = true <-> xy L (i - 1) = xy L i).
      { unfold ip, vsub. cbn [fst snd]. destruct (xy L (i - 1)) as [x1 y1], (xy L i) as [x2 y2]. cbn [fst snd].
        destruct (Req_EM_T (y2 - y1) 0), (Req_EM_T (x2 - x1) 0); split; intros E; try discriminate E; try reflexivity; try (f_equal; lra); injection E; intros; lra. }
      rewrite Q, Xa, Xb. split; [apply seen_inj|congruence]. }
    exists (Sensed (length K) (Some i) lg (path_length K)
       (if (ip || (if Rlt_dec (path_length K) (m_no_pos M) then true else false))%bool then 0 else rl)
       (if (ip || (if Rlt_dec (path_length K) (m_no_pos M) then true else false))%bool then 0 else dr)
       (if (ip || (if Rlt_dec (path_length K) (m_no_pos M) then true else false))%bool then 0 else drr)
       (if ip then 0 else lineDistance (xy L (i - 1)) (xy L i) origin)
       (nrm (vsub (xy L i) origin))
       (normalized (if Rlt_dec (cos (atan2 (snd (vsub (xy L i) (xy L (i - 1)))) (fst (vsub (xy L i) (xy L (i - 1))))) *
           cos (if m_backward M then p_yaw b else atan2 (snd (vsub (xy L i) (xy L (i - 1)))) (fst (vsub (xy L i) (xy L (i - 1))))) +
           sin (atan2 (snd (vsub (xy L i) (xy L (i - 1)))) (fst (vsub (xy L i) (xy L (i - 1))))) *
           sin (if m_backward M then p_yaw b else atan2 (snd (vsub (xy L i) (xy L (i - 1)))) (fst (vsub (xy L i) (xy L (i - 1)))))) 0
         then - atan2 (snd (vsub (xy L i) (xy L (i - 1)))) (fst (vsub (xy L i) (xy L (i - 1)))) + PI
         else - atan2 (snd (vsub (xy L i) (xy L (i - 1)))) (fst (vsub (xy L i) (xy L (i - 1))))))
       (normalized (- p_yaw (seen r (nth (lg - 1) K p0)))) (pl_off_yaw pl)
       (if Rlt_dec (Rabs (m_rotate M)) PI then
          if Rlt_dec (cos (normalized (if Rlt_dec (cos (atan2 (snd (vsub (xy L i) (xy L (i - 1)))) (fst (vsub (xy L i) (xy L (i - 1))))) *
           cos (if m_backward M then p_yaw b else atan2 (snd (vsub (xy L i) (xy L (i - 1)))) (fst (vsub (xy L i) (xy L (i - 1))))) +
           sin (atan2 (snd (vsub (xy L i) (xy L (i - 1)))) (fst (vsub (xy L i) (xy L (i - 1))))) *
           sin (if m_backward M then p_yaw b else atan2 (snd (vsub (xy L i) (xy L (i - 1)))) (fst (vsub (xy L i) (xy L (i - 1)))))) 0
         then - atan2 (snd (vsub (xy L i) (xy L (i - 1)))) (fst (vsub (xy L i) (xy L (i - 1)))) + PI
         else - atan2 (snd (vsub (xy L i) (xy L (i - 1)))) (fst (vsub (xy L i) (xy L (i - 1))))))) (cos (m_rotate M)) then true else false else false) ip), i.
    split; [reflexivity|].
    constructor; cbn [z_size z_nearest z_local_goal z_path_length z_in_place z_goal_angle z_remain_local z_dist_remains z_angle]; try reflexivity; auto.
    - destruct (normalized_turns (- p_yaw (seen r (nth (lg - 1) K p0)))) as [t ->]. exists t. cbn [seen p_yaw]. ring.
    - intros E0 En. rewrite E0. destruct (Rlt_dec (path_length K) (m_no_pos M)); [lra|]. cbn [orb].
      assert (Hi : (1 <= i)%nat).
      { destruct i; [|lia]. exfalso. assert (ip = true) by (apply IP; reflexivity). congruence. }
      split; [exact Hi|]. exists (back r q).
      assert (Fq : foot (xy K (i - 1)) (xy K i) P (back r q)).
      { apply foot_back. rewrite <- Xa, <- Xb, <- predicted_seen. apply projection_foot. rewrite Xa, Xb. intros E. apply seen_inj, IP in E. congruence. }
      split; [exact Fq|].
      assert (G : forall e d0, (1 <= i < e)%nat -> (e <= length K)%nat -> remainedDistance L 0 i e q = Ok d0 -> dist2 (back r q) (xy K (e - 1)) <= Rabs d0).
      { intros e d0 A1 A2 A3. destruct (remained_at_least L i e q A1 ltac:(lia)) as (d1 & E1 & B1). rewrite A3 in E1. injection E1 as <-.
        rewrite <- back_dist. unfold L in B1. rewrite seen_xy in B1 by lia. exact B1. }
      split; [apply (G lg); [lia|lia|exact Erl]|]. split; [apply (G (length K)); [lia|lia|exact Edr]|].
      intros (t & T & X & Y). assert (OS : on_strip L i q).
      { exists t. split; [exact T|]. rewrite Xa, Xb. rewrite <- (seen_back r q). destruct (back r q) as [bx by_]. cbn [fst snd] in X, Y. subst bx by_.
        unfold seen_pt. cbn [fst snd]. split; ring. }
      pose proof (C60_remaining_is_length_ahead L 0 i (length K) q ltac:(lia) ltac:(lia) OS) as E. rewrite Edr in E. injection E as ->.
      unfold L at 2. rewrite seen_travelled by lia. rewrite Xb, back_dist. reflexivity.
    - intros E0. set (vx := fst (vsub (xy L i) (xy L (i - 1)))). set (vy := snd (vsub (xy L i) (xy L (i - 1)))).
      assert (N : (vx, vy) <> (0, 0)).
      { intros E. injection E as E1 E2. assert (ip = true); [|congruence]. unfold ip. fold vx vy. rewrite E1, E2.
        destruct (Req_EM_T 0 0); [reflexivity|congruence]. }
      destruct (atan2_dir vx vy N) as [Dx Dy]. set (th := atan2 vy vx) in *. set (m := sqrt (vx * vx + vy * vy)) in *.
      assert (Mp : 0 < m).
      { unfold m. apply sqrt_lt_R0. pose proof (sq_nn vx). pose proof (sq_nn vy). destruct (Req_dec vx 0) as [Z|Z]; [|nra].
        assert (vy <> 0) by (intros W; apply N; f_equal; assumption). nra. }
      set (pose := if m_backward M then p_yaw b else th).
      assert (W : forall x y, fst (xy L i) - fst (xy L (i - 1)) = x -> snd (xy L i) - snd (xy L (i - 1)) = y ->
         fst (xy K i) - fst (xy K (i - 1)) = cos (r_yaw r) * x - sin (r_yaw r) * y /\ snd (xy K i) - snd (xy K (i - 1)) = sin (r_yaw r) * x + cos (r_yaw r) * y).
      { intros x y <- <-. rewrite Xa, Xb. unfold seen_pt. cbn [fst snd]. pose proof (cs1 (r_yaw r)) as H. set (C := cos (r_yaw r)) in *. set (S := sin (r_yaw r)) in *.
        set (x1 := fst (xy K (i - 1))). set (x2 := fst (xy K i)). set (y1 := snd (xy K (i - 1))). set (y2 := snd (xy K i)). split.
        - transitivity ((C * C + S * S) * (x2 - x1)); [rewrite H; ring|ring].
        - transitivity ((C * C + S * S) * (y2 - y1)); [rewrite H; ring|ring]. }
      destruct (W vx vy eq_refl eq_refl) as [Wx Wy]. rewrite Wx, Wy, Dx, Dy. fold m.
      destruct (Rlt_dec (cos th * cos pose + sin th * sin pose) 0) as [B|B].
      + exists (-1), m. split; [right; split; [reflexivity|]|].
        { destruct (m_backward M) eqn:Eb'; [reflexivity|]. exfalso. unfold pose in B. pose proof (cs1 th). lra. }
        split; [exact Mp|]. destruct (normalized_turns (- th + PI)) as [t ->].
        replace (r_yaw r - (- th + PI - 2 * PI * IZR t)) with ((r_yaw r + th) - PI - 2 * PI * IZR (- t)) by (rewrite opp_IZR; ring).
        destruct (cos_turns (r_yaw r + th - PI) (- t)) as [-> ->].
        rewrite <- (cos_period (r_yaw r + th - PI) 1), <- (sin_period (r_yaw r + th - PI) 1).
        replace (r_yaw r + th - PI + 2 * INR 1 * PI) with (r_yaw r + th + PI) by (cbn [INR]; ring). rewrite neg_cos, neg_sin, cos_plus, sin_plus. split; ring.
      + exists 1, m. split; [left; reflexivity|]. split; [exact Mp|]. destruct (normalized_turns (- th)) as [t ->].
        replace (r_yaw r - (- th - 2 * PI * IZR t)) with ((r_yaw r + th) - 2 * PI * IZR (- t)) by (rewrite opp_IZR; ring).
        destruct (cos_turns (r_yaw r + th) (- t)) as [-> ->]. rewrite cos_plus, sin_plus. split; ring.
  Qed.
End Look.
