(** C59 nearest point, C60 remaining distance, C61 curvature. *)
From Coq Require Import Reals Lra Lia Psatz.
From Verif Require Import Common Path2D Path2DProps PathGeom.
Local Open Scope R_scope.

(** * Specification *)
Definition dist2 (p q : R * R) : R := sqrt ((fst p - fst q)² + (snd p - snd q)²).
(** [q] lies on the straight segment from [a] to [b]. *)
Definition on_seg (a b q : R * R) : Prop :=
  exists t, 0 <= t <= 1 /\ fst q = fst a + t * (fst b - fst a) /\ snd q = snd a + t * (snd b - snd a).
Definition p0 : pose2 := mkP2 0 0 0 None.
Definition xy (l : list pose2) (i : nat) : R * R := let p := nth i l p0 in (p_x p, p_y p).
(** [q] lies on the part of the path that ends at pose [i]. *)
Definition on_strip (l : list pose2) (i : nat) (q : R * R) : Prop := on_seg (xy l (i - 1)) (xy l i) q.
(** Poses [b] (included) to [e] (excluded). *)
Definition slice (l : list pose2) (b e : nat) : list pose2 := firstn (e - b) (skipn b l).

(** * Segment distance *)
Lemma sq_nn x : 0 <= x * x. Proof. nra. Qed.
Lemma nrm_dist a b : nrm (vsub a b) = dist2 a b.
Proof. reflexivity. Qed.
Lemma dist2_sym a b : dist2 a b = dist2 b a.
Proof. unfold dist2. f_equal. unfold Rsqr. ring. Qed.
Lemma dist2_nonneg a b : 0 <= dist2 a b. Proof. apply sqrt_pos. Qed.

Lemma strip_distance a b c :
  (forall q, on_seg a b q -> Rabs (lineStripDistanceSigned a b c) <= dist2 q c) /\
  exists q, on_seg a b q /\ Rabs (lineStripDistanceSigned a b c) = dist2 q c.
Proof.
  unfold lineStripDistanceSigned. destruct a as [ax ay], b as [bx by_], c as [x y].
  rewrite !nrm_dist. unfold vsub, dot. cbn [fst snd].
  destruct (Rle_dec _ 0) as [E1|E1].
  { rewrite Rabs_Ropp, Rabs_pos_eq by apply dist2_nonneg. split.
    - intros [qx qy] (t & T & Q1 & Q2). cbn [fst snd] in *. subst. unfold dist2, Rsqr. cbn [fst snd]. apply sqrt_le_1_alt.
      assert (0 <= t * - ((bx - ax) * (x - ax) + (by_ - ay) * (y - ay))) by (apply Rmult_le_pos; lra).
      pose proof (sq_nn (t * (bx - ax))). pose proof (sq_nn (t * (by_ - ay))). lra.
    - exists (ax, ay). split; [exists 0; cbn; repeat split; lra|apply dist2_sym]. }
  destruct (Rle_dec ((ax - bx) * (x - bx) + (ay - by_) * (y - by_)) 0) as [E2|E2].
  { rewrite Rabs_pos_eq by apply dist2_nonneg. split.
    - intros [qx qy] (t & T & Q1 & Q2). cbn [fst snd] in *. subst. unfold dist2, Rsqr. cbn [fst snd]. apply sqrt_le_1_alt.
      assert (0 <= (1 - t) * - ((ax - bx) * (x - bx) + (ay - by_) * (y - by_))) by (apply Rmult_le_pos; lra).
      pose proof (sq_nn ((1 - t) * (bx - ax))). pose proof (sq_nn ((1 - t) * (by_ - ay))).
      replace (ax + t * (bx - ax) - x) with (- ((x - bx) + (1 - t) * (bx - ax))) by ring.
      replace (ay + t * (by_ - ay) - y) with (- ((y - by_) + (1 - t) * (by_ - ay))) by ring. lra.
    - exists (bx, by_). split; [exists 1; cbn; repeat split; lra|apply dist2_sym]. }
  rewrite Rabs_Rabsolu.
  set (dx := bx - ax) in *. set (dy := by_ - ay) in *. set (D := dx * dx + dy * dy). set (s := dx * (x - ax) + dy * (y - ay)) in *.
  assert (SD : s < D). { replace ((ax - bx) * (x - bx) + (ay - by_) * (y - by_)) with (D - s) in E2 by (unfold D, s, dx, dy; ring). lra. }
  assert (DP : 0 < D) by lra.
  assert (LL : Rabs (lineDistance (ax, ay) (bx, by_) (x, y)) = dist2 (ax + s / D * dx, ay + s / D * dy) (x, y)).
  { unfold lineDistance, nrm, dist2, cross2, vsub, dot. cbn [fst snd]. fold dx dy. fold D.
    rewrite <- sqrt_Rsqr_abs. f_equal. unfold Rsqr.
    assert (Hs : sqrt D <> 0) by (apply Rgt_not_eq; apply sqrt_lt_R0; assumption).
    replace ((dx * (y - ay) - dy * (x - ax)) / sqrt D * ((dx * (y - ay) - dy * (x - ax)) / sqrt D))
      with ((dx * (y - ay) - dy * (x - ax)) * (dx * (y - ay) - dy * (x - ax)) / (sqrt D * sqrt D)) by (field; assumption).
    rewrite sqrt_sqrt by lra. unfold s, D. field. fold D. lra. }
  rewrite LL. split.
  - intros [qx qy] (t & T & Q1 & Q2). cbn [fst snd] in *. subst. unfold dist2, Rsqr. cbn [fst snd]. fold dx dy. apply sqrt_le_1_alt.
    assert (E : (ax + t * dx - x) * (ax + t * dx - x) + (ay + t * dy - y) * (ay + t * dy - y)
      = (ax + s / D * dx - x) * (ax + s / D * dx - x) + (ay + s / D * dy - y) * (ay + s / D * dy - y) + D * ((t - s / D) * (t - s / D))).
    { unfold s, D. field. fold D. lra. }
    rewrite E. pose proof (sq_nn (t - s / D)). nra.
  - eexists. split; [|reflexivity]. exists (s / D). cbn [fst snd]. split; [|split; reflexivity]. split.
    + apply Rmult_le_pos; [lra|]. left. apply Rinv_0_lt_compat. assumption.
    + apply (Rmult_le_reg_r D); [assumption|]. unfold Rdiv. rewrite Rmult_assoc, Rinv_l by lra. lra.
Qed.

(** * C59 *)
Section Nearest.
  Variables (l : list pose2) (target : R * R).

  Lemma at_xy i : (i < length l)%nat -> exists p, at_ l i = Ok p /\ pos p = xy l i.
  Proof.
    intros H. unfold at_, xy, pos. destruct (nth_error l i) eqn:E; [|apply nth_error_None in E; lia].
    exists p. split; [reflexivity|]. rewrite (nth_error_nth _ _ p0 E). reflexivity.
  Qed.

  Definition strip (i : nat) : R := Rabs (lineStripDistanceSigned (xy l (i - 1)) (xy l i) target).

  (** Length of the path from pose [b] to the pose [n] steps later. *)
  Fixpoint travelled (b n : nat) : R :=
    match n with O => 0 | S n' => dist2 (xy l b) (xy l (S b)) + travelled (S b) n' end.
  Lemma travelled_S b n : travelled b (S n) = travelled b n + dist2 (xy l (b + n)) (xy l (S (b + n))).
  Proof.
    revert b. induction n as [|n IH]; intros b.
    - cbn [travelled]. rewrite Nat.add_0_r. lra.
    - change (travelled b (S (S n))) with (dist2 (xy l b) (xy l (S b)) + travelled (S b) (S n)).
      rewrite IH. cbn [travelled]. replace (S b + n)%nat with (b + S n)%nat by lia. lra.
  Qed.
  Lemma travelled_mono b n m : (n <= m)%nat -> travelled b n <= travelled b m.
  Proof.
    induction 1; [lra|]. rewrite travelled_S. pose proof (dist2_nonneg (xy l (b + m)) (xy l (S (b + m)))). lra.
  Qed.

  (** The loop: among the strips searched, the result is nearest up to one
      [eps] per strip. *)
  Lemma fn_loop_spec range eps n : forall b it near mind,
    0 <= eps -> (0 < it)%nat -> (it + n <= length l)%nat -> (b < it)%nat -> (near < it)%nat ->
    let reach j := range <= 0 \/ travelled b (j - b) <= range in
    exists i d, fn_loop l target range eps n it near mind (travelled b (it - 1 - b)) = Ok (i, d) /\
      ((i = near /\ d = mind) \/ ((it <= i < it + n)%nat /\ d = strip i /\ reach i)) /\
      d <= mind + INR n * eps /\
      (forall j, (it <= j < it + n)%nat -> reach j -> d <= strip j + INR (it + n - 1 - j) * eps) /\
      ((0 < n)%nat -> reach it -> strip it <= mind -> i <> near).
  Proof.
    induction n as [|n IH]; intros b it near mind He Hit Hl Hb Hnear reach.
    - exists near, mind. cbn [fn_loop]. split; [reflexivity|]. split; [auto|]. split; [cbn; lra|].
      split; [intros; lia|lia].
    - cbn [fn_loop]. destruct (at_xy it ltac:(lia)) as (p & -> & Ep). destruct (at_xy (it - 1) ltac:(lia)) as (q & -> & Eq).
      cbn [bind]. rewrite Ep, Eq.
      assert (Et : travelled b (it - 1 - b) + nrm (vsub (xy l it) (xy l (it - 1))) = travelled b (it - b)).
      { replace (it - b)%nat with (S (it - 1 - b)) by lia. rewrite travelled_S, nrm_dist, dist2_sym.
        replace (b + (it - 1 - b))%nat with (it - 1)%nat by lia. replace (S (it - 1)) with it by lia. reflexivity. }
      rewrite Et. cbv zeta.
      assert (Cases : (~ reach it /\ 0 < range /\ range < travelled b (it - b)) \/ (reach it /\ ~ (0 < range /\ range < travelled b (it - b)))).
      { unfold reach. destruct (Rlt_dec 0 range); destruct (Rlt_dec range (travelled b (it - b)));
          [left; split; lra|right; split; lra..]. }
      destruct Cases as [(NR & R1 & R2)|(RR & NB)].
      { destruct (Rlt_dec 0 range); [|lra]. destruct (Rlt_dec range (travelled b (it - b))); [|lra].
        exists near, mind. split; [reflexivity|]. split; [auto|]. split; [pose proof (pos_INR (S n)); nra|].
        split; [|intros _ A; contradiction]. intros j Hj [A|A]; [lra|].
        pose proof (travelled_mono b (it - b) (j - b) ltac:(lia)). lra. }
      assert (EB : (if Rlt_dec 0 range then if Rlt_dec range (travelled b (it - b)) then true else false else false) = false).
      { destruct (Rlt_dec 0 range); [|reflexivity]. destruct (Rlt_dec range _); [lra|reflexivity]. }
      rewrite EB. set (d := lineStripDistanceSigned (xy l (it - 1)) (xy l it) target).
      set (dc := if Rlt_dec 0 d then d else - d - eps).
      assert (Hdc : strip it - eps <= dc <= strip it).
      { unfold dc, strip. fold d. destruct (Rlt_dec 0 d); [rewrite Rabs_pos_eq; lra|]. rewrite Rabs_left1; lra. }
      change (Rabs d) with (strip it).
      assert (Hsub : forall near' mind' (K : mind' <= strip it), (near' = it /\ mind' = strip it /\ mind' <= mind + eps \/ near' = near /\ mind' = mind) ->
        (reach it -> strip it <= mind -> near' = it) ->
        exists i d0, fn_loop l target range eps n (S it) near' mind' (travelled b (it - b)) = Ok (i, d0) /\
          ((i = near /\ d0 = mind) \/ ((it <= i < it + S n)%nat /\ d0 = strip i /\ reach i)) /\
          d0 <= mind + INR (S n) * eps /\
          (forall j, (it <= j < it + S n)%nat -> reach j -> d0 <= strip j + INR (it + S n - 1 - j) * eps) /\
          ((0 < S n)%nat -> reach it -> strip it <= mind -> i <> near)).
      { intros near' mind' K Hn Hf. specialize (IH b (S it) near' mind' He ltac:(lia) ltac:(lia) ltac:(lia) ltac:(destruct Hn as [(-> & _)|(-> & _)]; lia)). cbv zeta in IH.
        replace (S it - 1 - b)%nat with (it - b)%nat in IH by lia.
        destruct IH as (i & d0 & E & A & B & C & _). exists i, d0. split; [exact E|].
        pose proof (pos_INR n) as Pn. rewrite S_INR.
        split; [|split; [|split]].
        - destruct A as [(-> & ->)|(A1 & A2 & A3)].
          + destruct Hn as [(-> & -> & _)|(-> & ->)]; [right; split; [lia|auto]|left; auto].
          + right. split; [lia|auto].
        - destruct Hn as [(_ & _ & Hn)|(_ & ->)]; nra.
        - intros j Hj Rj. destruct (Nat.eq_dec j it) as [->|N].
          + replace (it + S n - 1 - it)%nat with n by lia. lra.
          + specialize (C j ltac:(lia) Rj). replace (it + S n - 1 - j)%nat with (S it + n - 1 - j)%nat by lia. exact C.
        - intros _ R0 S0. specialize (Hf R0 S0). destruct A as [(-> & _)|(A1 & _)]; lia. }
      assert (LastStep : forall x : bool, x = (match n with O => if Rle_dec (strip it) (mind + eps) then true else false | S _ => false end) ->
         x = true -> strip it <= mind + eps).
      { intros x -> Hx. destruct n; [|discriminate]. destruct (Rle_dec _ _); [assumption|discriminate]. }
      destruct (Rle_dec dc mind) as [L|L].
      + apply Hsub; [lra|left; repeat split; lra|auto].
      + set (x := match n with O => _ | S _ => _ end). destruct x eqn:Ex.
        * apply Hsub; [lra|left; repeat split; try lra; eapply LastStep; eauto; symmetry; exact Ex|auto].
        * apply Hsub; [lra|right; auto|intros _ A; lra].
  Qed.

  (** For a range of at least two poses (and a first strip within the search range, if there is one),
      the query succeeds, never returns the first pose, the returned distance is that of a point of
      the strip that ends at the returned pose, and no point of the path within the search range is
      nearer by more than [eps] per later strip. *)
  Theorem C59_nearest_strip b e range eps : (b + 1 < e)%nat -> (e <= length l)%nat -> 0 <= eps ->
    let reach j := range <= 0 \/ travelled b (j - b) <= range in
    reach (b + 1)%nat ->
    exists i d, findNearestWithDistance l b e target range eps = Ok (i, Some d) /\ (b < i < e)%nat /\ reach i /\
      (exists q, on_strip l i q /\ d = dist2 q target) /\
      (forall j q, (b < j < e)%nat -> reach j -> on_strip l j q -> d <= dist2 q target + INR (e - 1 - j) * eps).
  Proof.
    intros H1 H2 He reach Hr. unfold findNearestWithDistance. destruct (Nat.eqb_spec b e); [lia|].
    destruct (at_xy b ltac:(lia)) as (p & -> & Ep). cbn [bind]. rewrite Ep, nrm_dist.
    pose proof (fn_loop_spec range eps (e - S b) b (S b) b (dist2 (xy l b) target + eps) He ltac:(lia) ltac:(lia) ltac:(lia) ltac:(lia)) as F.
    cbv zeta in F. replace (S b - 1 - b)%nat with 0%nat in F by lia. cbn [travelled] in F.
    destruct F as (i & d & -> & A & _ & C & D). cbn [bind fst snd]. exists i, d. split; [reflexivity|].
    assert (Ni : i <> b).
    { apply D; [lia| |].
      - unfold reach in Hr. replace (b + 1)%nat with (S b) in Hr by lia. exact Hr.
      - destruct (strip_distance (xy l b) (xy l (S b)) target) as [S1 _].
        unfold strip. replace (S b - 1)%nat with b by lia.
        specialize (S1 (xy l b)). assert (on_seg (xy l b) (xy l (S b)) (xy l b)) as O.
        { exists 0. repeat split; lra. } specialize (S1 O). lra. }
    destruct A as [(A & _)|(A1 & A2 & A3)]; [contradiction|].
    split; [lia|]. split; [exact A3|]. split.
    - destruct (strip_distance (xy l (i - 1)) (xy l i) target) as [_ (q & Q1 & Q2)]. exists q. split; [exact Q1|].
      rewrite A2. exact Q2.
    - intros j q Hj Rj Hq. specialize (C j ltac:(lia) Rj). destruct (strip_distance (xy l (j - 1)) (xy l j) target) as [S1 _].
      specialize (S1 q Hq). fold (strip j) in S1. replace (e - 1 - j)%nat with (S b + (e - S b) - 1 - j)%nat by lia. lra.
  Qed.

  (** A range of one pose gives that pose, with [eps] added to the distance; an empty range at the end of
      the path gives no distance. *)
  Theorem C59_degenerate_ranges b range eps :
    ((b < length l)%nat -> findNearestWithDistance l b (b + 1) target range eps = Ok (b, Some (dist2 (xy l b) target + eps))) /\
    findNearestWithDistance l (length l) (length l) target range eps = Ok (length l, None).
  Proof.
    unfold findNearestWithDistance. split.
    - intros H. destruct (Nat.eqb_spec b (b + 1)); [lia|]. destruct (at_xy b H) as (p & -> & Ep). cbn [bind].
      replace (b + 1 - S b)%nat with 0%nat by lia. cbn [fn_loop bind fst snd]. rewrite Ep. reflexivity.
    - rewrite !Nat.eqb_refl. reflexivity.
  Qed.
End Nearest.

(** ** Findings *)

(** Poses on a line away from the target, [eps] apart. *)
Definition receding (eps : R) (n : nat) : list pose2 := map (fun k => mkP2 (INR k * eps) 0 0 None) (seq 0 n).
Lemma receding_at eps n k : (k < n)%nat -> at_ (receding eps n) k = Ok (mkP2 (INR k * eps) 0 0 None).
Proof.
  intros H. unfold at_, receding. rewrite nth_error_map, nth_error_nth' with (d := 0%nat) by (rewrite seq_length; exact H).
  rewrite seq_nth by exact H. reflexivity.
Qed.
Lemma behind k eps : 0 < eps -> lineStripDistanceSigned (INR k * eps, 0) (INR (S k) * eps, 0) (0, 0) = - (INR k * eps).
Proof.
  intros He. unfold lineStripDistanceSigned, dot, vsub. cbn [fst snd]. rewrite S_INR. pose proof (pos_INR k) as P.
  destruct (Rle_dec _ 0) as [_|N].
  - f_equal. unfold nrm, dot. cbn [fst snd]. replace (_ + _) with ((INR k * eps) * (INR k * eps)) by ring.
    apply sqrt_square. nra.
  - exfalso. apply N. assert (0 <= INR k * eps * eps) by (repeat apply Rmult_le_pos; lra). nra.
Qed.
Lemma receding_loop eps n m it s : 0 < eps -> (it + m <= n)%nat -> (2 <= it)%nat ->
  fn_loop (receding eps n) (0, 0) 0 eps m it (it - 1) (INR (it - 2) * eps) s = Ok ((it + m - 1)%nat, INR (it + m - 2) * eps).
Proof.
  intros He. revert it s. induction m as [|m IH]; intros it s H1 H2.
  - cbn [fn_loop]. rewrite Nat.add_0_r. reflexivity.
  - cbn [fn_loop]. rewrite !receding_at by lia. cbn [bind]. unfold pos. cbn [p_x p_y].
    destruct (Rlt_dec 0 0); [lra|]. pose proof (behind (it - 1) eps He) as B. replace (S (it - 1)) with it in B by lia. rewrite B.
    pose proof (pos_INR (it - 1)) as P. destruct (Rlt_dec 0 (- _)); [nra|].
    assert (E : INR (it - 1) = INR (it - 2) + 1). { rewrite <- S_INR. f_equal. lia. }
    destruct (Rle_dec _ _) as [_|N]; [|exfalso; apply N; rewrite E; lra].
    rewrite Rabs_Ropp, Rabs_pos_eq by nra.
    specialize (IH (S it) (s + nrm (vsub (INR it * eps, 0) (INR (it - 1) * eps, 0)))).
    replace (S it - 1)%nat with it in IH by lia. replace (S it - 2)%nat with (it - 1)%nat in IH by lia.
    rewrite IH by lia. replace (S it + m)%nat with (it + S m)%nat by lia. reflexivity.
Qed.
(** The [eps] that should only break ties accumulates: the distance reported for a path that starts at
    the target can be any multiple of [eps]. *)
Theorem C59_error_is_bounded_refuted eps : 0 < eps ->
  ~ (exists K, forall l target i d, (2 <= length l)%nat ->
       findNearestWithDistance l 0 (length l) target 0 eps = Ok (i, Some d) ->
       forall j q, (0 < j < length l)%nat -> on_strip l j q -> d <= dist2 q target + K * eps).
Proof.
  intros He (K & H). assert (exists n, K < INR n) as [n Hn].
  { destruct (archimed K) as [A _]. destruct (Z_le_gt_dec 0 (up K)) as [Z|Z].
    - exists (Z.to_nat (up K)). rewrite INR_IZR_INZ, Z2Nat.id by exact Z. lra.
    - exists 0%nat. apply Rlt_trans with (IZR (up K)); [lra|]. apply (IZR_lt (up K) 0). lia. }
  specialize (H (receding eps (n + 2)) (0, 0) (n + 1)%nat (INR n * eps)).
  assert (L : length (receding eps (n + 2)) = (n + 2)%nat) by (unfold receding; rewrite map_length, seq_length; reflexivity).
  rewrite L in H. specialize (H ltac:(lia)).
  assert (F : findNearestWithDistance (receding eps (n + 2)) 0 (n + 2) (0, 0) 0 eps = Ok ((n + 1)%nat, Some (INR n * eps))).
  { unfold findNearestWithDistance. destruct (Nat.eqb_spec 0 (n + 2)); [lia|]. rewrite receding_at by lia. cbn [bind].
    unfold pos. cbn [p_x p_y]. replace (n + 2 - 1)%nat with (S n) by lia. cbn [fn_loop]. rewrite !receding_at by lia. cbn [bind].
    unfold pos. cbn [p_x p_y]. destruct (Rlt_dec 0 0); [lra|]. replace (1 - 1)%nat with 0%nat by lia. rewrite (behind 0 eps He).
    change (INR 0) with 0. destruct (Rlt_dec 0 (- (0 * eps))); [lra|].
    assert (Z : nrm (vsub (0 * eps, 0) (0, 0)) = 0).
    { unfold nrm, dot, vsub. cbn [fst snd]. replace (_ + _) with 0 by ring. apply sqrt_0. }
    rewrite Z. destruct (Rle_dec _ _) as [_|N]; [|exfalso; apply N; lra].
    replace (Rabs (- (0 * eps))) with (INR (2 - 2) * eps) by (cbn [Nat.sub INR]; rewrite Rabs_Ropp, Rmult_0_l, Rabs_R0; reflexivity).
    match goal with |- context [fn_loop _ _ _ _ n 2 1 _ ?s] => pose proof (receding_loop eps (n + 2) n 2 s He ltac:(lia) ltac:(lia)) as R end.
    change (2 - 1)%nat with 1%nat in R. rewrite R. cbn [bind fst snd].
    replace (2 + n - 1)%nat with (n + 1)%nat by lia. replace (2 + n - 2)%nat with n by lia. reflexivity. }
  specialize (H F 1%nat (0, 0) ltac:(lia)).
  assert (O : on_strip (receding eps (n + 2)) 1 (0, 0)).
  { exists 0. split; [lra|]. unfold xy. replace (1 - 1)%nat with 0%nat by lia.
    replace (n + 2)%nat with (S (n + 1)) by lia. cbn [receding seq map nth p_x p_y fst snd INR]. split; lra. }
  specialize (H O). unfold dist2 in H. cbn [fst snd] in H. unfold Rsqr in H.
  replace ((0 - 0) * (0 - 0) + (0 - 0) * (0 - 0)) with 0 in H by ring. rewrite sqrt_0 in H. nra.
Qed.
(** Coming round a corner with the target on its outside, both strips are exactly as far, and the later one
    is chosen, not the earlier one. *)
Definition corner : list pose2 := [mkP2 0 0 0 None; mkP2 1 0 0 None; mkP2 1 (-1) 0 None; mkP2 1 (-9) 0 None].
Ltac nodec a := lazymatch a with context [Rlt_dec _ _] => fail | context [Rle_dec _ _] => fail | context [Rabs _] => fail | _ => idtac end.
Lemma nrm_sq x y : nrm (x, y) = sqrt (x * x + y * y).
Proof. reflexivity. Qed.
Theorem C59_ties_go_to_the_earlier_strip_refuted :
  ~ (forall l target i d, findNearestWithDistance l 0 (length l) target 0 (1/1000000) = Ok (i, Some d) ->
       forall j q, (0 < j < i)%nat -> (i < length l - 1)%nat -> on_strip l j q -> dist2 q target <> d).
Proof.
  intros H.
  assert (S2 : 1 < sqrt 2 < 3).
  { split.
    - rewrite <- sqrt_1 at 1. apply sqrt_lt_1_alt. lra.
    - apply Rlt_le_trans with (sqrt 9); [apply sqrt_lt_1_alt; lra|]. replace 9 with (3 * 3) by lra. rewrite sqrt_square; lra. }
  assert (F : findNearestWithDistance corner 0 4 (2, 1) 0 (1/1000000) = Ok (2%nat, Some (sqrt 2))).
  { unfold findNearestWithDistance, corner. cbn [Nat.eqb at_ nth_error bind Nat.sub fn_loop pos p_x p_y].
    unfold lineStripDistanceSigned, dot, vsub, pos. cbn [fst snd p_x p_y]. rewrite !nrm_sq.
    replace ((2 - 1) * (2 - 1) + (1 - 0) * (1 - 0)) with 2 by lra.
    replace ((0 - 2) * (0 - 2) + (0 - 1) * (0 - 1)) with 5 by lra.
    replace ((2 - 1) * (2 - 1) + (1 - -1) * (1 - -1)) with 5 by lra.
    assert (sqrt 2 <= sqrt 5) by (apply sqrt_le_1_alt; lra).
    assert (2 < sqrt 5). { replace 2 with (sqrt (2 * 2)) by (apply sqrt_square; lra). apply sqrt_lt_1_alt; lra. }
    assert (sqrt 2 < 3/2). { replace (3/2) with (sqrt (3/2 * (3/2))) by (apply sqrt_square; lra). apply sqrt_lt_1_alt; lra. }
    repeat (rewrite ?Rabs_Ropp, ?(Rabs_pos_eq (sqrt 2)), ?(Rabs_pos_eq (sqrt 5)) by lra;
      match goal with
      | |- context [Rle_dec ?a ?b] => nodec a; destruct (Rle_dec a b); [try (exfalso; lra)|try (exfalso; lra)]
      | |- context [Rlt_dec ?a ?b] => nodec b; destruct (Rlt_dec a b); [try (exfalso; lra)|try (exfalso; lra)]
      end).
    reflexivity. }
  apply (H corner (2, 1) 2%nat (sqrt 2) F 1%nat (1, 0)).
  - lia.
  - unfold corner. cbn. lia.
  - exists 1. unfold xy, corner. cbn [Nat.sub nth p_x p_y fst snd]. repeat split; lra.
  - unfold dist2, Rsqr. cbn [fst snd]. f_equal. lra.
Qed.

(** Non-vacuity: a bent path, searched without and with a range. *)
Example C59_example :
  (exists i d, findNearestWithDistance corner 0 4 (2, -8) 0 (1/1000000) = Ok (i, Some d) /\ (0 < i < 4)%nat) /\
  (exists i d, findNearestWithDistance corner 0 4 (2, -8) 1 (1/1000000) = Ok (i, Some d) /\ (i = 1)%nat).
Proof.
  assert (T : travelled corner 0 1 = 1).
  { unfold corner. cbn [travelled]. unfold dist2, xy. cbn [nth p_x p_y fst snd]. unfold Rsqr.
    replace ((0 - 1) * (0 - 1) + (0 - 0) * (0 - 0)) with (1 * 1) by ring. rewrite sqrt_square; lra. }
  split.
  - destruct (C59_nearest_strip corner (2, -8) 0 4 0 (1/1000000) ltac:(lia) ltac:(cbn; lia) ltac:(lra) (or_introl (Rle_refl 0)))
      as (i & d & A & B & _). exists i, d. split; assumption.
  - destruct (C59_nearest_strip corner (2, -8) 0 4 1 (1/1000000) ltac:(lia) ltac:(cbn; lia) ltac:(lra)) as (i & d & A & B & C & _).
    { right. change (0 + 1 - 0)%nat with 1%nat. rewrite T. lra. }
    exists i, d. split; [exact A|]. destruct C as [C|C]; [lra|].
    assert (2 <= travelled corner 0 2).
    { rewrite travelled_S, T. unfold dist2, xy, corner. cbn [Nat.add nth p_x p_y fst snd]. unfold Rsqr.
      replace ((1 - 1) * (1 - 1) + (0 - -1) * (0 - -1)) with (1 * 1) by ring. rewrite sqrt_square; lra. }
    destruct (Nat.eq_dec i 1); [assumption|]. exfalso.
    pose proof (travelled_mono corner 0 2 (i - 0) ltac:(lia)). lra.
Qed.

(** * C60: remaining distance *)
Lemma rd_loop_spec l n it r : (1 <= it)%nat -> (it + n <= length l)%nat ->
  rd_loop l n it r = Ok (r + travelled l (it - 1) n).
Proof.
  revert it r. induction n as [|n IH]; intros it r H1 H2; cbn [rd_loop travelled].
  - f_equal. lra.
  - destruct (at_xy l (it - 1) ltac:(lia)) as (q & -> & Eq). destruct (at_xy l it ltac:(lia)) as (p & -> & Ep). cbn [bind].
    rewrite IH by lia. rewrite Eq, Ep, nrm_dist. replace (S it - 1)%nat with it by lia.
    replace (S (it - 1)) with it by lia. f_equal. lra.
Qed.
(** While the robot is on the path, the remaining distance is the length of the way along the path from it
    to the last pose. *)
Theorem C60_remaining_is_length_ahead l b i e target : (b < i < e)%nat -> (e <= length l)%nat -> on_strip l i target ->
  remainedDistance l b i e target = Ok (dist2 target (xy l i) + travelled l i (e - 1 - i)).
Proof.
  intros H1 H2 (t & T & X & Y). unfold remainedDistance. destruct (at_xy l i ltac:(lia)) as (p & -> & Ep). cbn [bind].
  rewrite Ep, nrm_dist. destruct (Nat.leb_spec e (i + 1)) as [L|L].
  - destruct (Nat.ltb_spec e (b + 2)); [lia|]. assert (e = S i) by lia. subst e.
    replace (S i - 1)%nat with i by lia. replace (S i - 2)%nat with (i - 1)%nat by lia.
    destruct (at_xy l i ltac:(lia)) as (p' & -> & Ep'). destruct (at_xy l (i - 1) ltac:(lia)) as (q & -> & Eq). cbn [bind].
    rewrite Ep', Eq. replace (i - i)%nat with 0%nat by lia. cbn [travelled].
    destruct (Rle_dec 0 _) as [_|N].
    + f_equal. rewrite dist2_sym. lra.
    + exfalso. apply N. unfold dot, vsub. cbn [fst snd]. rewrite X, Y.
      set (dx := fst (xy l i)). set (dx' := fst (xy l (i - 1))). set (dy := snd (xy l i)). set (dy' := snd (xy l (i - 1))).
      replace (_ + _) with ((1 - t) * ((dx - dx') * (dx - dx') + (dy - dy') * (dy - dy'))) by ring.
      apply Rmult_le_pos; [lra|]. pose proof (sq_nn (dx - dx')). pose proof (sq_nn (dy - dy')). lra.
  - rewrite rd_loop_spec by lia. replace (S i - 1)%nat with i by lia. replace (e - S i)%nat with (e - 1 - i)%nat by lia.
    rewrite dist2_sym. reflexivity.
Qed.
(** Beyond the last pose, in the direction of the last strip, it is minus the overshoot. *)
Theorem C60_overshoot_is_negative l b e target s : (b + 2 <= e)%nat -> (e <= length l)%nat ->
  xy l (e - 2) <> xy l (e - 1) -> 0 < s ->
  fst target = fst (xy l (e - 1)) + s * (fst (xy l (e - 1)) - fst (xy l (e - 2))) ->
  snd target = snd (xy l (e - 1)) + s * (snd (xy l (e - 1)) - snd (xy l (e - 2))) ->
  remainedDistance l b (e - 1) e target = Ok (- dist2 target (xy l (e - 1))) /\ 0 < dist2 target (xy l (e - 1)).
Proof.
  intros H1 H2 Hn Hs X Y. unfold remainedDistance. destruct (at_xy l (e - 1) ltac:(lia)) as (p & Ap & Ep). rewrite Ap. cbn [bind].
  destruct (Nat.leb_spec e (e - 1 + 1)); [|lia]. destruct (Nat.ltb_spec e (b + 2)); [lia|].
  destruct (at_xy l (e - 2) ltac:(lia)) as (q & -> & Eq). cbn [bind]. rewrite Ep, Eq, nrm_dist.
  destruct (xy l (e - 1)) as [ax ay], (xy l (e - 2)) as [bx by_], target as [tx ty]. cbn [fst snd] in *. subst tx ty.
  assert (D : 0 < (ax - bx) * (ax - bx) + (ay - by_) * (ay - by_)).
  { pose proof (sq_nn (ax - bx)). pose proof (sq_nn (ay - by_)). destruct (Req_dec (ax - bx) 0) as [Z|Z].
    - assert (ay - by_ <> 0) by (intros W; apply Hn; f_equal; lra). nra.
    - nra. }
  split.
  - unfold dot, vsub. cbn [fst snd]. destruct (Rle_dec 0 _) as [L|_].
    + exfalso. replace (_ + _) with (- (s * ((ax - bx) * (ax - bx) + (ay - by_) * (ay - by_)))) in L by ring. nra.
    + f_equal. f_equal. apply dist2_sym.
  - unfold dist2, Rsqr. cbn [fst snd]. apply sqrt_lt_R0.
    replace (_ + _) with (s * s * ((ax - bx) * (ax - bx) + (ay - by_) * (ay - by_))) by ring.
    apply Rmult_lt_0_compat; [nra|exact D].
Qed.
(** With a single pose there is no distance to go (orientation control). *)
Theorem C60_single_pose l b target : (b < length l)%nat -> remainedDistance l b b (b + 1) target = Ok 0.
Proof.
  intros H. unfold remainedDistance. destruct (at_xy l b H) as (p & -> & _). cbn [bind].
  rewrite Nat.leb_refl. destruct (Nat.ltb_spec (b + 1) (b + 2)); [reflexivity|lia].
Qed.
Example C60_example : remainedDistance corner 0 1 4 (1/2, 0) = Ok (dist2 (1/2, 0) (1, 0) + travelled corner 1 2).
Proof.
  apply (C60_remaining_is_length_ahead corner 0 1 4 (1/2, 0)); [lia|cbn; lia|].
  exists (1/2). unfold xy, corner. cbn [Nat.sub nth p_x p_y fst snd]. repeat split; lra.
Qed.
Example C60_overshoot_example : remainedDistance corner 0 3 4 (1, -17) = Ok (- dist2 (1, -17) (1, -9)).
Proof.
  apply (C60_overshoot_is_negative corner 0 4 (1, -17) 1); try (cbn; lia); try lra; unfold xy, corner; cbn [Nat.sub nth p_x p_y fst snd]; try lra.
  intros E. injection E. lra.
Qed.

(** * C61: curvature *)
(** [i]-th pose of the path at the angle [th i] of the circle of radius [r] round [c]. *)
Definition on_circle (l : list pose2) (c : R * R) (r : R) (th : nat -> R) (b e : nat) : Prop :=
  forall i, (b <= i < e)%nat -> xy l i = (fst c + r * cos (th i), snd c + r * sin (th i)).
Lemma sin_sum_prod u v : sin (2 * u) + sin (2 * v) - sin (2 * (u + v)) = 4 * sin u * sin v * sin (u + v).
Proof.
  replace (2 * (u + v)) with (2 * u + 2 * v) by ring. rewrite !sin_plus, !sin_2a, !cos_2a.
  pose proof (sin2_cos2 u) as A. pose proof (sin2_cos2 v) as B. unfold Rsqr in *.
  set (su := sin u) in *. set (cu := cos u) in *. set (sv := sin v) in *. set (cv := cos v) in *.
  replace (cu * cu) with (1 - su * su) by lra. replace (cv * cv) with (1 - sv * sv) by lra. ring.
Qed.
Lemma chord cx cy r a b : dot (vsub (cx + r * cos b, cy + r * sin b) (cx + r * cos a, cy + r * sin a))
   (vsub (cx + r * cos b, cy + r * sin b) (cx + r * cos a, cy + r * sin a)) = (2 * r * sin ((b - a) / 2)) * (2 * r * sin ((b - a) / 2)).
Proof.
  unfold dot, vsub. cbn [fst snd].
  assert (E : 2 * (sin ((b - a) / 2) * sin ((b - a) / 2)) = 1 - cos (b - a)).
  { replace (b - a) with (2 * ((b - a) / 2)) at 3 by field. rewrite cos_2a_sin. ring. }
  replace ((2 * r * sin ((b - a) / 2)) * (2 * r * sin ((b - a) / 2))) with (2 * r * r * (2 * (sin ((b - a) / 2) * sin ((b - a) / 2)))) by ring.
  rewrite E, cos_minus. pose proof (sin2_cos2 a) as A. pose proof (sin2_cos2 b) as B. unfold Rsqr in *.
  replace (_ + _) with (r * r * ((sin b * sin b + cos b * cos b) + (sin a * sin a + cos a * cos a) - 2 * (cos b * cos a + sin b * sin a))) by ring.
  rewrite A, B. ring.
Qed.
Lemma curv3p_circle cx cy r a b c : 0 < r -> a < b -> b < c -> c - a < 2 * PI ->
  let P t := (cx + r * cos t, cy + r * sin t) in
  curv3p (P a) (P b) (P c) = 1 / r /\ curv3p (P c) (P b) (P a) = - (1 / r).
Proof.
  intros Hr H1 H2 H3 P. set (u := (b - a) / 2). set (v := (c - b) / 2).
  assert (S1 : 0 < sin u) by (apply sin_gt_0; unfold u; lra).
  assert (S2 : 0 < sin v) by (apply sin_gt_0; unfold v; lra).
  assert (S3 : 0 < sin (u + v)) by (apply sin_gt_0; unfold u, v; lra).
  assert (N : 0 < 8 * r * r * r * sin u * sin v * sin (u + v)) by (repeat apply Rmult_lt_0_compat; lra).
  assert (D : (2 * r * sin u) * (2 * r * sin u) * ((2 * r * sin v) * (2 * r * sin v)) * ((2 * r * sin (u + v)) * (2 * r * sin (u + v)))
     = (8 * r * r * r * sin u * sin v * sin (u + v)) * (8 * r * r * r * sin u * sin v * sin (u + v))) by ring.
  assert (C1 : dot (vsub (P b) (P a)) (vsub (P b) (P a)) = (2 * r * sin u) * (2 * r * sin u)) by apply chord.
  assert (SY : forall p q, dot (vsub p q) (vsub p q) = dot (vsub q p) (vsub q p)) by (intros; unfold dot, vsub; cbn [fst snd]; ring).
  assert (C2 : dot (vsub (P c) (P b)) (vsub (P c) (P b)) = (2 * r * sin v) * (2 * r * sin v)) by apply chord.
  assert (C3 : dot (vsub (P c) (P a)) (vsub (P c) (P a)) = (2 * r * sin (u + v)) * (2 * r * sin (u + v))).
  { unfold P. rewrite chord. replace ((c - a) / 2) with (u + v) by (unfold u, v; field). reflexivity. }
  assert (X : fst (P a) * snd (P b) + fst (P b) * snd (P c) + fst (P c) * snd (P a) - fst (P a) * snd (P c) - fst (P b) * snd (P a) - fst (P c) * snd (P b)
    = r * r * (4 * sin u * sin v * sin (u + v))).
  { rewrite <- sin_sum_prod. replace (2 * u) with (b - a) by (unfold u; field). replace (2 * v) with (c - b) by (unfold v; field).
    replace (2 * (u + v)) with (c - a) by (unfold u, v; field). rewrite !sin_minus. unfold P. cbn [fst snd]. ring. }
  split; unfold curv3p.
  - rewrite X, C1, (SY (P b) (P c)), C2, C3, D, sqrt_square by lra. field. lra.
  - rewrite (SY (P b) (P c)), C2, C1, (SY (P a) (P c)), C3.
    replace ((2 * r * sin v) * (2 * r * sin v) * ((2 * r * sin u) * (2 * r * sin u)) * ((2 * r * sin (u + v)) * (2 * r * sin (u + v))))
     with ((8 * r * r * r * sin u * sin v * sin (u + v)) * (8 * r * r * r * sin u * sin v * sin (u + v))) by ring.
    rewrite sqrt_square by lra.
    replace (fst (P c) * snd (P b) + fst (P b) * snd (P a) + fst (P a) * snd (P c) - fst (P c) * snd (P a) - fst (P b) * snd (P c) - fst (P a) * snd (P b))
      with (- (r * r * (4 * sin u * sin v * sin (u + v)))) by (rewrite <- X; ring).
    field. lra.
Qed.
Lemma curv_loop_const l target r2 k n it sum num : (2 <= it)%nat -> (it + n <= length l)%nat ->
  (forall i, (it <= i < it + n)%nat -> curv3p (xy l (i - 2)) (xy l (i - 1)) (xy l i) = k) -> sum = INR num * k ->
  exists m, curv_loop l target r2 n it sum num = Ok (INR (num + m) * k, (num + m)%nat) /\ (n <> 0 -> m <> 0)%nat.
Proof.
  revert it sum num. induction n as [|n IH]; intros it sum num H1 H2 Hk Hs; cbn [curv_loop].
  - exists 0%nat. rewrite Nat.add_0_r, Hs. split; [reflexivity|auto].
  - destruct (at_xy l (it - 2) ltac:(lia)) as (a & -> & Ea). destruct (at_xy l (it - 1) ltac:(lia)) as (p & -> & Ep).
    destruct (at_xy l it ltac:(lia)) as (q & -> & Eq). cbn [bind]. rewrite Ea, Ep, Eq, (Hk it) by lia.
    assert (Z : sum + k = INR (S num) * k) by (rewrite S_INR, Hs; ring).
    destruct (Rlt_dec r2 _).
    + exists 1%nat. rewrite Nat.add_1_r, Z. split; [reflexivity|lia].
    + destruct (IH (S it) (sum + k) (S num) ltac:(lia) ltac:(lia) ltac:(intros i Hi; apply Hk; lia) Z) as (m & -> & _).
      exists (S m). replace (num + S m)%nat with (S num + m)%nat by lia. split; [reflexivity|lia].
Qed.
Lemma curvature_const l b e target range k : (b + 3 <= e)%nat -> (e <= length l)%nat ->
  (forall i, (b + 2 <= i < e)%nat -> curv3p (xy l (i - 2)) (xy l (i - 1)) (xy l i) = k) ->
  getCurvature l b e target range = Ok k.
Proof.
  intros H1 H2 Hk. unfold getCurvature. destruct (Nat.leb_spec (e - b) 1); [lia|]. destruct (Nat.eqb_spec (e - b) 2); [lia|].
  destruct (curv_loop_const l target (range * range) k (e - (b + 2)) (b + 2) 0 0 ltac:(lia) ltac:(lia)
              ltac:(intros i Hi; apply Hk; lia) ltac:(cbn [INR]; ring)) as (m & -> & M).
  cbn [bind fst snd Nat.add]. destruct m as [|m]; [exfalso; apply (M ltac:(lia)); reflexivity|]. f_equal.
  assert (0 < INR (S m)) by (apply lt_0_INR; lia). field. lra.
Qed.
(** On a circle of radius [r] followed counter-clockwise the curvature is [1/r], clockwise [-1/r], whatever the
    spacing of the poses and the search range. *)
Theorem C61_circle l b e target range c r th : (b + 3 <= e)%nat -> (e <= length l)%nat -> 0 < r -> on_circle l c r th b e ->
  ((forall i, (b <= i)%nat -> (i + 1 < e)%nat -> th i < th (i + 1)%nat) -> (forall i, (b <= i)%nat -> (i + 2 < e)%nat -> th (i + 2)%nat < th i + 2 * PI) ->
     getCurvature l b e target range = Ok (1 / r)) /\
  ((forall i, (b <= i)%nat -> (i + 1 < e)%nat -> th (i + 1)%nat < th i) -> (forall i, (b <= i)%nat -> (i + 2 < e)%nat -> th i < th (i + 2)%nat + 2 * PI) ->
     getCurvature l b e target range = Ok (- (1 / r))).
Proof.
  intros H1 H2 Hr Hc. split; intros T1 T2; apply curvature_const; try assumption; intros i Hi; rewrite !Hc by lia.
  - pose proof (T1 (i - 2)%nat ltac:(lia) ltac:(lia)) as A. pose proof (T1 (i - 1)%nat ltac:(lia) ltac:(lia)) as B.
    pose proof (T2 (i - 2)%nat ltac:(lia) ltac:(lia)) as C.
    replace (i - 2 + 1)%nat with (i - 1)%nat in A by lia. replace (i - 1 + 1)%nat with i in B by lia. replace (i - 2 + 2)%nat with i in C by lia.
    apply (curv3p_circle (fst c) (snd c) r (th (i - 2)%nat) (th (i - 1)%nat) (th i)); lra.
  - pose proof (T1 (i - 2)%nat ltac:(lia) ltac:(lia)) as A. pose proof (T1 (i - 1)%nat ltac:(lia) ltac:(lia)) as B.
    pose proof (T2 (i - 2)%nat ltac:(lia) ltac:(lia)) as C.
    replace (i - 2 + 1)%nat with (i - 1)%nat in A by lia. replace (i - 1 + 1)%nat with i in B by lia. replace (i - 2 + 2)%nat with i in C by lia.
    apply (curv3p_circle (fst c) (snd c) r (th i) (th (i - 1)%nat) (th (i - 2)%nat)); lra.
Qed.
(** On a straight line it is zero.  (Repeated poses, for which the code divides zero by zero, are excluded by the
    hypotheses; the real-valued model would not show it.) *)
Theorem C61_straight l b e target range o d s : (b + 3 <= e)%nat -> (e <= length l)%nat -> d <> (0, 0) ->
  (forall i, (b <= i < e)%nat -> xy l i = (fst o + s i * fst d, snd o + s i * snd d)) ->
  (forall i, (b <= i)%nat -> (i + 1 < e)%nat -> s i < s (i + 1)%nat) ->
  getCurvature l b e target range = Ok 0.
Proof.
  intros H1 H2 _ Hx _. apply curvature_const; try assumption. intros i Hi. rewrite !Hx by lia. unfold curv3p. cbn [fst snd].
  unfold Rdiv. apply Rmult_eq_0_compat_r. ring.
Qed.
(** With two poses left, the curvature is that of the arc that leads from the first pose (with its heading) to the
    second: an arc of signed radius [r] that turns the robot by [turn]. *)
Theorem C61_two_pose_arc p q rest pre target range r turn : r <> 0 -> 1/1000000 <= Rabs (sin turn) ->
  p_yaw q = p_yaw p + turn ->
  p_x q = p_x p + r * (sin (p_yaw p + turn) - sin (p_yaw p)) ->
  p_y q = p_y p + r * (cos (p_yaw p) - cos (p_yaw p + turn)) ->
  let l := pre ++ p :: q :: rest in
  getCurvature l (length pre) (length pre + 2) target range = Ok (1 / r).
Proof.
  intros Hr Hs W X Y l. unfold getCurvature. replace (length pre + 2 - length pre)%nat with 2%nat by lia. cbn [Nat.leb Nat.eqb].
  assert (A1 : at_ l (length pre) = Ok p). { unfold at_, l. rewrite nth_error_app2, Nat.sub_diag by lia. reflexivity. }
  assert (A2 : at_ l (length pre + 1) = Ok q).
  { unfold at_, l. rewrite nth_error_app2 by lia. replace (length pre + 1 - length pre)%nat with 1%nat by lia. reflexivity. }
  rewrite A1, A2. cbn [bind]. f_equal. unfold two_pose_curvature. rewrite W. replace (p_yaw p + turn - p_yaw p) with turn by ring.
  destruct (Rlt_dec _ _) as [L|_]; [lra|].
  assert (Z : sin turn <> 0). { intros Z. rewrite Z, Rabs_R0 in Hs. lra. }
  set (phi := p_yaw p) in *. rewrite cos_neg, sin_neg.
  assert (DX : p_x q - p_x p = r * (sin (phi + turn) - sin phi)) by lra.
  assert (DY : p_y q - p_y p = r * (cos phi - cos (phi + turn))) by lra.
  rewrite DX, DY, sin_plus, cos_plus. pose proof (sin2_cos2 phi) as P. unfold Rsqr in P.
  assert (EX : cos phi * (r * (sin phi * cos turn + cos phi * sin turn - sin phi)) - - sin phi * (r * (cos phi - (cos phi * cos turn - sin phi * sin turn))) = r * sin turn).
  { replace (r * sin turn) with (r * sin turn * (sin phi * sin phi + cos phi * cos phi)) by (rewrite P; ring). ring. }
  assert (EY : - sin phi * (r * (sin phi * cos turn + cos phi * sin turn - sin phi)) + cos phi * (r * (cos phi - (cos phi * cos turn - sin phi * sin turn))) = r * (1 - cos turn)).
  { replace (r * (1 - cos turn)) with (r * (1 - cos turn) * (sin phi * sin phi + cos phi * cos phi)) by (rewrite P; ring). ring. }
  rewrite EX, EY. unfold arc_r1, arc_r2.
  replace (r * sin turn * cos turn / sin turn) with (r * cos turn) by (field; exact Z).
  pose proof (sin2_cos2 turn) as Q. unfold Rsqr in Q.
  replace (r * sin turn * (r * sin turn) + r * cos turn * (r * cos turn)) with (r * r * (sin turn * sin turn + cos turn * cos turn)) by ring.
  rewrite Q, Rmult_1_r. change (r * r) with (Rsqr r). rewrite sqrt_Rsqr_abs.
  assert (0 < sin turn * sin turn) by nra.
  destruct (Rlt_dec (r * sin turn * sin turn) 0) as [L|L].
  - assert (r < 0) by nra. rewrite Rabs_left by assumption. f_equal. field.
  - assert (0 < r) by nra. rewrite Rabs_right by lra. f_equal. field.
Qed.
(** With three or more poses it is the mean of the curvatures of the consecutive triples, up to the first pose
    farther than the search range (that one included). *)
Fixpoint triple_sum (l : list pose2) (it n : nat) : R :=
  match n with O => 0 | S n' => curv3p (xy l (it - 2)) (xy l (it - 1)) (xy l it) + triple_sum l (S it) n' end.
Lemma curv_loop_sum l target r n it sum num : (2 <= it)%nat -> (it + n <= length l)%nat -> (0 < n)%nat -> 0 <= r ->
  exists m, (0 < m <= n)%nat /\ curv_loop l target (r * r) n it sum num = Ok (sum + triple_sum l it m, (num + m)%nat) /\
    (forall i, (it <= i)%nat -> (i + 1 < it + m)%nat -> dist2 (xy l i) target <= r) /\
    ((m < n)%nat -> r < dist2 (xy l (it + m - 1)) target).
Proof.
  intros H1 H2 H3 Hr. revert it sum num H1 H2 H3. induction n as [|n IH]; intros it sum num H1 H2 H3; [lia|].
  cbn [curv_loop]. destruct (at_xy l (it - 2) ltac:(lia)) as (a & -> & Ea). destruct (at_xy l (it - 1) ltac:(lia)) as (p & -> & Ep).
  destruct (at_xy l it ltac:(lia)) as (q & -> & Eq). cbn [bind]. rewrite Ea, Ep, Eq.
  set (dd := dot (vsub (xy l it) target) (vsub (xy l it) target)).
  assert (DD : dist2 (xy l it) target = sqrt dd) by reflexivity.
  assert (Pd : 0 <= dd). { unfold dd, dot. pose proof (sq_nn (fst (vsub (xy l it) target))). pose proof (sq_nn (snd (vsub (xy l it) target))). lra. }
  assert (SR : sqrt (r * r) = r) by (apply sqrt_square; exact Hr).
  destruct (Rlt_dec (r * r) dd) as [L|L].
  - exists 1%nat. split; [lia|]. split; [cbn [triple_sum]; do 2 f_equal; [lra|lia]|]. split; [intros; lia|].
    intros _. replace (it + 1 - 1)%nat with it by lia. rewrite DD, <- SR. apply sqrt_lt_1_alt. split; [nra|lra].
  - assert (Le : dist2 (xy l it) target <= r). { rewrite DD, <- SR. apply sqrt_le_1_alt. lra. }
    destruct n as [|n].
    + exists 1%nat. split; [lia|]. cbn [curv_loop triple_sum]. split; [do 2 f_equal; [lra|lia]|]. split; intros; lia.
    + destruct (IH (S it) (sum + curv3p (xy l (it - 2)) (xy l (it - 1)) (xy l it)) (S num) ltac:(lia) ltac:(lia) ltac:(lia)) as (m & M & -> & A & B).
      exists (S m). split; [lia|]. split; [change (triple_sum l it (S m)) with (curv3p (xy l (it - 2)) (xy l (it - 1)) (xy l it) + triple_sum l (S it) m); do 2 f_equal; [lra|lia]|]. split.
      * intros i I1 I2. destruct (Nat.eq_dec i it) as [->|]; [exact Le|]. apply A; lia.
      * intros Hm. replace (it + S m - 1)%nat with (S it + m - 1)%nat by lia. apply B. lia.
Qed.
Theorem C61_mean_within_range l b e target range : (b + 3 <= e)%nat -> (e <= length l)%nat -> 0 <= range ->
  exists m, (0 < m)%nat /\ (b + 2 + m <= e)%nat /\ getCurvature l b e target range = Ok (triple_sum l (b + 2) m / INR m) /\
    (forall i, (b + 2 <= i)%nat -> (i + 1 < b + 2 + m)%nat -> dist2 (xy l i) target <= range) /\
    ((b + 2 + m < e)%nat -> range < dist2 (xy l (b + 1 + m)) target).
Proof.
  intros H1 H2 Hr. unfold getCurvature. destruct (Nat.leb_spec (e - b) 1); [lia|]. destruct (Nat.eqb_spec (e - b) 2); [lia|].
  destruct (curv_loop_sum l target range (e - (b + 2)) (b + 2) 0 0 ltac:(lia) ltac:(lia) ltac:(lia) Hr) as (m & M & -> & A & B).
  exists m. split; [lia|]. split; [lia|]. cbn [bind fst snd Nat.add]. split.
  { destruct m; [lia|]. rewrite Rplus_0_l. reflexivity. }
  split; [exact A|]. intros Hm. replace (b + 1 + m)%nat with (b + 2 + m - 1)%nat by lia. apply B. lia.
Qed.

(** Non-vacuity: three quarter-turn points of the circle of radius 2 round (1, 1); an arc of radius -3. *)
Example C61_circle_example :
  getCurvature [mkP2 3 1 0 None; mkP2 1 3 0 None; mkP2 (-1) 1 0 None] 0 3 (0, 0) 1 = Ok (1 / 2).
Proof.
  pose proof PI_RGT_0 as P.
  destruct (C61_circle [mkP2 3 1 0 None; mkP2 1 3 0 None; mkP2 (-1) 1 0 None] 0 3 (0, 0) 1 (1, 1) 2 (fun i => INR i * (PI / 2))
    ltac:(lia) ltac:(cbn; lia) ltac:(lra)) as [A _].
  - intros i Hi. unfold xy. cbn [fst snd]. assert (i = 0 \/ i = 1 \/ i = 2)%nat as [->|[->| ->]] by lia; cbn [nth p_x p_y INR].
    + rewrite Rmult_0_l, cos_0, sin_0. f_equal; ring.
    + rewrite Rmult_1_l, cos_PI2, sin_PI2. f_equal; ring.
    + replace ((1 + 1) * (PI / 2)) with PI by field. rewrite cos_PI, sin_PI. f_equal; ring.
  - apply A.
    + intros i _ _. rewrite plus_INR. cbn [INR]. lra.
    + intros i _ _. rewrite plus_INR. cbn [INR]. lra.
Qed.
Example C61_two_pose_example :
  getCurvature [mkP2 0 0 0 None; mkP2 (-3) (-3) (PI/2) None] 0 2 (0, 0) 1 = Ok (1 / -3).
Proof.
  apply (C61_two_pose_arc (mkP2 0 0 0 None) (mkP2 (-3) (-3) (PI/2) None) [] [] (0, 0) 1 (-3) (PI/2)); cbn [p_x p_y p_yaw]; rewrite ?Rplus_0_l, ?sin_PI2, ?cos_PI2, ?sin_0, ?cos_0; try lra.
  rewrite Rabs_R1. lra.
Qed.

Print Assumptions C59_nearest_strip.
Print Assumptions C60_remaining_is_length_ahead.
Print Assumptions C61_circle.
