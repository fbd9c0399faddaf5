(** C64: the map that makes the planner prefer the path planned last. *)
From Coq Require Import Reals Lra Lia Psatz ZifyBool.
From Flocq Require Import Core.
From Verif Require Import Common Path2D PathGeom PathGeomProps Hysteresis.
Local Open Scope R_scope.

(** * Specification *)
(** The heading of a path point: the nearest of the [A] headings, modulo a turn. *)
Definition heading (A : Z) (p : hvec) (y : Z) : Prop := (0 <= y < A /\ exists k, y = lroundR (snd p) + k * A)%Z.
(** [piece path i a b]: the path runs straight from [a] to [b], its [i]th and [i+1]st points. *)
Definition piece (path : list hvec) (i : nat) (a b : hvec) : Prop := nth_error path i = Some a /\ nth_error path (S i) = Some b.
(** [at_heading C path p q]: [q] is a point of a piece of the path one end of which has the heading of the cell [p]. *)
Definition at_heading (C : hcfg) (path : list hvec) (p : hcell) (q : R * R) : Prop :=
  exists i a b, piece path i a b /\ (heading (hc_angle C) a (snd p) \/ heading (hc_angle C) b (snd p)) /\ on_seg (hxy a) (hxy b) q.
Definition cxy (p : hcell) : R * R := (IZR (fst (fst p)), IZR (snd (fst p))).
(** [D] is the distance of the cell from the path, at the cell's heading. *)
Definition path_distance (C : hcfg) (path : list hvec) (p : hcell) (D : R) : Prop :=
  (exists q, at_heading C path p q /\ dist2 q (cxy p) = D) /\ forall q, at_heading C path p q -> D <= dist2 q (cxy p).
(** The intended level, 0 (on the path) to 100 (away from it). *)
Definition level (C : hcfg) (D : R) : R :=
  if Rle_dec D (expand_dist C) then 0 else if Rle_dec (expand_dist C + max_dist C) D then 100
  else 100 * (D - expand_dist C) / max_dist C.
Definition in_map (C : hcfg) (p : hcell) : Prop :=
  (0 <= fst (fst p) < hc_w C /\ 0 <= snd (fst p) < hc_h C /\ 0 <= snd p < hc_angle C)%Z.
(** A usable set-up, and a path whose points are at most [range + 4] cells apart (a move of the search is at most [range] long). *)
Definition usable (C : hcfg) : Prop := 0 < hc_res C /\ 0 < hc_max_m C /\ 0 <= hc_expand_m C /\ (0 <= hc_range C)%Z /\ (0 < hc_angle C)%Z.
Definition dense (C : hcfg) (path : list hvec) : Prop :=
  forall i a b, piece path i a b -> dist2 (hxy a) (hxy b) <= IZR (hc_range C) + 4.

(** * Proofs *)
Lemma lroundR_near x : Rabs (x - IZR (lroundR x)) <= / 2.
Proof. apply Znearest_half. Qed.
Lemma lroundR_Z z : lroundR (IZR z) = z.
Proof. apply Znearest_imp. rewrite Rminus_diag_eq by reflexivity. rewrite Rabs_R0. lra. Qed.
Lemma lroundR_half : lroundR (1 / 2) = 1%Z.
Proof.
  unfold lroundR, Znearest. assert (F : Zfloor (1 / 2) = 0%Z) by (apply Zfloor_imp; simpl; lra).
  rewrite F. rewrite Rcompare_Eq by (simpl; lra). simpl. apply Zceil_imp. simpl. lra.
Qed.
Lemma lroundR_mono x y : x <= y -> (lroundR x <= lroundR y)%Z.
Proof. apply (Zrnd_le (Znearest (Z.leb 0))). Qed.

Lemma cycle_yaw_heading A a y : (0 < A)%Z -> (cycle_yaw A (lroundR (snd a)) = y <-> heading A a y).
Proof.
  intros HA. unfold cycle_yaw, heading.
  pose proof (Z.quot_rem' (lroundR (snd a)) A) as Q. pose proof (Z.rem_bound_abs (lroundR (snd a)) A ltac:(lia)) as B.
  set (r := Z.rem (lroundR (snd a)) A) in *. set (k := (lroundR (snd a) ÷ A)%Z) in *. cbv zeta.
  split.
  - intros <-. destruct (r <? 0)%Z eqn:N; split; try lia; [exists (1 - k)%Z; nia|exists (- k)%Z; nia].
  - intros (Y & j & E). destruct (r <? 0)%Z eqn:N.
    + assert (X : ((r + A) - y = (- k - j + 1) * A)%Z) by nia. assert (- k - j + 1 = 0)%Z by nia. nia.
    + assert (X : (r - y = (- k - j) * A)%Z) by nia. assert (- k - j = 0)%Z by nia. nia.
Qed.

Lemma linestrip_eq a b c : dist_linestrip a b c = Rabs (lineStripDistanceSigned a b c).
Proof.
  unfold dist_linestrip, lineStripDistanceSigned. change (dot2 (sub2 b a) (sub2 c a)) with (dot (vsub b a) (vsub c a)).
  change (dot2 (sub2 a b) (sub2 c b)) with (dot (vsub a b) (vsub c b)).
  destruct (Rle_dec (dot (vsub b a) (vsub c a)) 0).
  - rewrite Rabs_Ropp, Rabs_pos_eq by apply sqrt_pos. reflexivity.
  - destruct (Rle_dec (dot (vsub a b) (vsub c b)) 0).
    + rewrite Rabs_pos_eq by apply sqrt_pos. reflexivity.
    + rewrite Rabs_Rabsolu. reflexivity.
Qed.

Section Level.
  Variable C : hcfg.
  Hypothesis U : usable C.
  Lemma max_pos : 0 < max_dist C.
  Proof. destruct U as (A & B & _). apply Rdiv_lt_0_compat; assumption. Qed.
  Lemma expand_nonneg : 0 <= expand_dist C.
  Proof.
    destruct U as (A & _ & B & _). unfold expand_dist, Rdiv. apply Rmult_le_pos; [exact B|]. apply Rlt_le, Rinv_0_lt_compat, A.
  Qed.

  (** The smallest distance over the pieces, as the loop computes it. *)
  Lemma d_min_loop_spec p : forall path prev m,
    let r := d_min_loop C p prev path m in
    (forall x, m = Some x -> exists D, r = Some D /\ D <= x) /\
    (forall i a b q, piece (prev :: path) i a b -> (heading (hc_angle C) a (snd p) \/ heading (hc_angle C) b (snd p)) ->
       on_seg (hxy a) (hxy b) q -> exists D, r = Some D /\ D <= dist2 q (cxy p)) /\
    (r = m \/ exists D q, r = Some D /\ at_heading C (prev :: path) p q /\ dist2 q (cxy p) = D).
  Proof.
    assert (HA : (0 < hc_angle C)%Z) by apply U.
    induction path as [|b path IH]; intros prev m; cbn [d_min_loop]; cbv zeta.
    - split; [intros x ->; exists x; split; [reflexivity|lra]|]. split; [|left; reflexivity].
      intros i x y q [_ H2]. destruct i; discriminate H2.
    - set (d := dist_linestrip (hxy prev) (hxy b) (IZR (fst (fst p)), IZR (snd (fst p)))).
      set (c := ((cycle_yaw (hc_angle C) (lroundR (snd b)) =? snd p) || (cycle_yaw (hc_angle C) (lroundR (snd prev)) =? snd p))%Z).
      set (m' := if c then min_opt d m else m).
      destruct (strip_distance (hxy prev) (hxy b) (cxy p)) as [S1 (q0 & S2 & S3)].
      rewrite <- linestrip_eq in S1, S3. fold (cxy p) in d. fold d in S1, S3.
      assert (Hc : c = true <-> heading (hc_angle C) prev (snd p) \/ heading (hc_angle C) b (snd p)).
      { unfold c. rewrite Bool.orb_true_iff, !Z.eqb_eq, !cycle_yaw_heading by exact HA. tauto. }
      destruct (IH b m') as (I1 & I2 & I3).
      assert (Hm : forall x, m = Some x -> exists x', m' = Some x' /\ x' <= x).
      { intros x ->. unfold m'. destruct c; cbn [min_opt]; [|exists x; split; [reflexivity|lra]].
        destruct (Rlt_dec d x); eexists; (split; [reflexivity|lra]). }
      assert (Hd : c = true -> exists x', m' = Some x' /\ x' <= d).
      { intros X. unfold m'. rewrite X. destruct m as [x|]; cbn [min_opt]; [|exists d; split; [reflexivity|lra]].
        destruct (Rlt_dec d x); eexists; (split; [reflexivity|lra]). }
      split; [|split].
      + intros x Hx. destruct (Hm x Hx) as (x' & X1 & X2). destruct (I1 x' X1) as (D & D1 & D2). exists D. split; [exact D1|lra].
      + intros i a b' q Hp Hh Hq. destruct i as [|i].
        * destruct Hp as [P1 P2]. cbn in P1, P2. injection P1 as <-. injection P2 as <-.
          destruct (Hd (proj2 Hc Hh)) as (x' & X1 & X2). destruct (I1 x' X1) as (D & D1 & D2). exists D. split; [exact D1|].
          specialize (S1 q Hq). lra.
        * apply (I2 i a b' q); auto.
      + destruct I3 as [I3|(D & q & D1 & (i & x & y & P & H & Q) & D2)].
        2:{ right. exists D, q. split; [exact D1|]. split; [|exact D2]. exists (S i), x, y. auto. }
        rewrite I3. unfold m'. destruct c eqn:Ec; [|left; reflexivity].
        assert (New : exists q, at_heading C (prev :: b :: path) p q /\ dist2 q (cxy p) = d).
        { exists q0. split; [|lra]. exists 0%nat, prev, b. split; [split; reflexivity|]. split; [tauto|exact S2]. }
        destruct New as (q & N1 & N2).
        destruct m as [x|]; cbn [min_opt]; [|right; exists d, q; auto].
        destruct (Rlt_dec d x); [right; exists d, q; auto|left; reflexivity].
  Qed.

  Lemma d_min_spec path p :
    match d_min C path p with
    | Some D => path_distance C path p D
    | None => forall q, ~ at_heading C path p q
    end.
  Proof.
    destruct path as [|a path]; cbn [d_min].
    - intros q (i & x & y & [P _] & _). destruct i; discriminate P.
    - destruct (d_min_loop_spec p path a None) as (_ & A & B).
      destruct (d_min_loop C p a path None) as [D|].
      + destruct B as [B|(D' & q & E & B1 & B2)]; [discriminate|]. injection E as <-. split; [eauto|].
        intros q' (i & x & y & P & H & Q). destruct (A i x y q' P H Q) as (D2 & E & L). injection E as <-. exact L.
      + intros q (i & x & y & P & H & Q). destruct (A i x y q P H Q) as (D2 & E & L). discriminate.
  Qed.

  Lemma path_distance_unique path p D D' : path_distance C path p D -> path_distance C path p D' -> D = D'.
  Proof.
    intros [(q & A & B) H] [(q' & A' & B') H']. specialize (H q' A'). specialize (H' q A). lra.
  Qed.

  Lemma hyst_value_level D : Rabs (IZR (hyst_value C (Some D)) - level C D) <= / 2.
  Proof.
    pose proof max_pos as M. pose proof expand_nonneg as X. unfold hyst_value, level. cbv zeta.
    destruct (Rle_dec D (expand_dist C)).
    - rewrite (Rmin_right (expand_dist C + max_dist C) D) by lra. rewrite Rmax_left by lra.
      replace ((expand_dist C - expand_dist C) * 100 / max_dist C) with 0 by (field; lra).
      change 0 with (IZR 0). rewrite lroundR_Z, Rminus_diag_eq by reflexivity. rewrite Rabs_R0. lra.
    - destruct (Rle_dec (expand_dist C + max_dist C) D).
      + rewrite Rmin_left by lra. rewrite Rmax_right by lra.
        replace ((expand_dist C + max_dist C - expand_dist C) * 100 / max_dist C) with 100 by (field; lra).
        rewrite lroundR_Z, Rminus_diag_eq by reflexivity. rewrite Rabs_R0. lra.
      + rewrite (Rmin_right (expand_dist C + max_dist C) D) by lra. rewrite Rmax_right by lra.
        replace (100 * (D - expand_dist C) / max_dist C) with ((D - expand_dist C) * 100 / max_dist C) by (field; lra).
        rewrite Rabs_minus_sym. apply lroundR_near.
  Qed.
  Lemma hyst_value_none : hyst_value C None = 100%Z.
  Proof.
    pose proof max_pos as M. unfold hyst_value. cbv zeta. rewrite Rmax_right by lra.
    replace ((expand_dist C + max_dist C - expand_dist C) * 100 / max_dist C) with 100 by (field; lra). apply lroundR_Z.
  Qed.
  Lemma hyst_value_range m : (0 <= hyst_value C m <= 100)%Z.
  Proof.
    destruct m as [D|]; [|rewrite hyst_value_none; lia]. pose proof (hyst_value_level D) as H. pose proof max_pos as M.
    assert (L : 0 <= level C D <= 100).
    { unfold level. destruct (Rle_dec D (expand_dist C)); [lra|]. destruct (Rle_dec (expand_dist C + max_dist C) D); [lra|].
      split.
      - unfold Rdiv. apply Rmult_le_pos; [lra|]. apply Rlt_le, Rinv_0_lt_compat, M.
      - apply Rmult_le_reg_r with (max_dist C); [exact M|]. unfold Rdiv. rewrite Rmult_assoc, Rinv_l by lra. lra. }
    apply Rabs_le_inv in H. split.
    - destruct (Z.le_gt_cases 0 (hyst_value C (Some D))) as [G|G]; [exact G|].
      assert (IZR (hyst_value C (Some D)) <= -1) by (apply IZR_le; lia). lra.
    - destruct (Z.le_gt_cases (hyst_value C (Some D)) 100) as [G|G]; [exact G|].
      assert (101 <= IZR (hyst_value C (Some D))) by (apply IZR_le; lia). lra.
  Qed.
End Level.

(** * The map over histories *)
Section Histories.
  Variable C : hcfg.
  Hypothesis U : usable C.

  Lemma hset_fold (f : hcell -> Z) l : forall m q,
    fold_left (fun m p => hset m p (f p)) l m q = if in_dec hcell_dec q l then f q else m q.
  Proof.
    induction l as [|p l IH]; intros m q; cbn [fold_left]; [destruct (in_dec hcell_dec q []) as [[]|]; reflexivity|].
    rewrite IH. destruct (in_dec hcell_dec q l) as [I|I]; destruct (in_dec hcell_dec q (p :: l)) as [J|J]; try reflexivity.
    - destruct J. right. exact I.
    - unfold hset. destruct (hcell_dec q p) as [->|N]; [reflexivity|]. destruct J as [J|J]; congruence.
    - unfold hset. destruct (hcell_dec q p) as [->|N]; [|reflexivity]. destruct J. left. reflexivity.
  Qed.

  (** Every cell that is not 100 is on the list of written cells. *)
  Definition tracked (s : hstate) : Prop :=
    (forall p, ~ In p (hy_cells s) -> hy_map s p = 100%Z) /\ (hy_has s = false -> hy_cells s = []).
  Lemma clear_all s p : tracked s -> clear_map s p = 100%Z.
  Proof.
    intros [T _]. unfold clear_map. rewrite (hset_fold (fun _ => 100%Z)). destruct (in_dec hcell_dec p (hy_cells s)); [reflexivity|].
    apply T. assumption.
  Qed.
  Lemma step_tracked s e : tracked s -> tracked (hstep C s e).
  Proof.
    intros T. destruct e as [| |cells|path]; cbn [hstep].
    - split; [reflexivity|reflexivity].
    - split; [intros p _; apply clear_all; exact T|reflexivity].
    - destruct (existsb _ cells && hy_has s); [|exact T]. split; [intros p _; apply clear_all; exact T|reflexivity].
    - split; [|discriminate]. intros p Hp. cbn [hy_map hy_cells] in *.
      rewrite (hset_fold (fun p => hyst_value C (d_min C path p))). destruct (in_dec hcell_dec p (path_points C path)); [contradiction|].
      apply clear_all. exact T.
  Qed.
  Lemma run_tracked es : forall s, tracked s -> tracked (hrun C es s).
  Proof. induction es as [|e es IH]; intros s T; [exact T|]. apply IH, step_tracked, T. Qed.
  Lemma init_tracked : tracked hinit.
  Proof. split; reflexivity. Qed.

  Lemma in_near_point p c : In c (near_point C p) <->
    (exists dx dy, - path_range C <= dx <= path_range C /\ - path_range C <= dy <= path_range C /\
      fst (fst c) = lroundR (fst (fst p)) + dx /\ snd (fst c) = lroundR (snd (fst p)) + dy)%Z /\
    in_grid C (fst (fst c)) (snd (fst c)) = true /\ snd c = cycle_yaw (hc_angle C) (lroundR (snd p)).
  Proof.
    unfold near_point. cbv zeta. rewrite in_flat_map. split.
    - intros (dx & Hx & H). apply in_flat_map in H as (dy & Hy & H).
      unfold range_incl in *. apply in_map_iff in Hx as (i & <- & Hi). apply in_map_iff in Hy as (j & <- & Hj).
      apply in_seq in Hi. apply in_seq in Hj.
      destruct (in_grid C _ _) eqn:G in H; [|destruct H]. destruct H as [<-|[]]. cbn [fst snd]. split; [|split; [exact G|reflexivity]].
      eexists _, _. split; [|split; [|split; reflexivity]]; lia.
    - intros ((dx & dy & Hx & Hy & Ex & Ey) & G & Ec). exists dx.
      assert (R : forall d, (- path_range C <= d <= path_range C)%Z -> In d (range_incl (- path_range C) (path_range C))).
      { intros d Hd. unfold range_incl. apply in_map_iff. exists (Z.to_nat (d + path_range C)). split; [lia|]. apply in_seq. lia. }
      split; [apply R, Hx|]. apply in_flat_map. exists dy. split; [apply R, Hy|].
      rewrite <- Ex, <- Ey, G. left. destruct c as [[x y] z]. cbn [fst snd] in *. rewrite Ec. reflexivity.
  Qed.

  Lemma range_big : IZR (hc_range C) + max_dist C + expand_dist C + 4 < IZR (path_range C).
  Proof.
    pose proof (max_pos C U) as M. pose proof (expand_nonneg C U) as X. assert (R0 : (0 <= hc_range C)%Z) by apply U. apply IZR_le in R0.
    unfold path_range. rewrite Ztrunc_floor by lra. pose proof (Zfloor_ub (IZR (hc_range C) + max_dist C + expand_dist C + 5)). lra.
  Qed.

  Lemma dist2_x a q : Rabs (fst a - fst q) <= dist2 a q.
  Proof.
    unfold dist2. rewrite <- (sqrt_Rsqr_abs (fst a - fst q)). apply sqrt_le_1_alt. pose proof (Rle_0_sqr (snd a - snd q)). lra.
  Qed.
  Lemma dist2_y a q : Rabs (snd a - snd q) <= dist2 a q.
  Proof.
    unfold dist2. rewrite <- (sqrt_Rsqr_abs (snd a - snd q)). apply sqrt_le_1_alt. pose proof (Rle_0_sqr (fst a - fst q)). lra.
  Qed.
  Lemma scaled t x L : 0 <= t <= 1 -> Rabs x <= L -> Rabs (t * x) <= L.
  Proof.
    intros T H. rewrite Rabs_mult, (Rabs_pos_eq t) by lra. pose proof (Rabs_pos x). nra.
  Qed.
  Lemma rounded_far (z : Z) r x : (0 <= r)%Z -> (z < lroundR x - r \/ lroundR x + r < z)%Z -> IZR r + / 2 <= Rabs (IZR z - x).
  Proof.
    intros R0 H. apply IZR_le in R0. pose proof (lroundR_near x) as N. apply Rabs_le_inv in N.
    destruct H as [H|H].
    - assert (Q : IZR z + 1 <= IZR (lroundR x) - IZR r) by (rewrite <- minus_IZR, <- plus_IZR; apply IZR_le; lia).
      rewrite Rabs_left1 by lra. lra.
    - assert (Q : IZR (lroundR x) + IZR r + 1 <= IZR z) by (rewrite <- !plus_IZR; apply IZR_le; lia).
      rewrite Rabs_pos_eq; lra.
  Qed.

  (** A cell of the map that is not near any path point with its heading is far from the path at its heading. *)
  Lemma unvisited_far path p q : dense C path -> in_map C p -> ~ In p (path_points C path) -> at_heading C path p q ->
    expand_dist C + max_dist C < dist2 q (cxy p).
  Proof.
    intros Hd Hm Hn (i & a & b & P & Hh & t & T & Q1 & Q2). assert (HA : (0 < hc_angle C)%Z) by apply U.
    assert (R0 : (0 <= hc_range C)%Z) by apply U. apply IZR_le in R0.
    pose proof range_big as RB. pose proof (max_pos C U) as MP. pose proof (expand_nonneg C U) as EN.
    assert (PR : (0 <= path_range C)%Z) by (apply le_IZR; lra). pose proof (Hd i a b P) as L.
    assert (End : forall e, nth_error path i = Some e \/ nth_error path (S i) = Some e -> heading (hc_angle C) e (snd p) ->
      IZR (path_range C) + / 2 <= Rabs (fst (cxy p) - fst (hxy e)) \/ IZR (path_range C) + / 2 <= Rabs (snd (cxy p) - snd (hxy e))).
    { intros e He Hy.
      assert (Hin : In e path) by (destruct He as [He|He]; eapply nth_error_In; eauto).
      assert (Hno : ~ In p (near_point C e)) by (intros X; apply Hn; apply in_flat_map; eauto).
      rewrite in_near_point in Hno. apply (cycle_yaw_heading _ _ _ HA) in Hy.
      unfold cxy, hxy. cbn [fst snd].
      destruct (Z_lt_le_dec (fst (fst p)) (lroundR (fst (fst e)) - path_range C)) as [X1|X1]; [left; apply rounded_far; auto|].
      destruct (Z_lt_le_dec (lroundR (fst (fst e)) + path_range C) (fst (fst p))) as [X2|X2]; [left; apply rounded_far; auto|].
      destruct (Z_lt_le_dec (snd (fst p)) (lroundR (snd (fst e)) - path_range C)) as [X3|X3]; [right; apply rounded_far; auto|].
      destruct (Z_lt_le_dec (lroundR (snd (fst e)) + path_range C) (snd (fst p))) as [X4|X4]; [right; apply rounded_far; auto|].
      exfalso. apply Hno. split; [|split].
      - exists (fst (fst p) - lroundR (fst (fst e)))%Z, (snd (fst p) - lroundR (snd (fst e)))%Z. lia.
      - unfold in_map in Hm. unfold in_grid. lia.
      - symmetry. exact Hy. }
    assert (Lx : Rabs (fst (hxy b) - fst (hxy a)) <= IZR (hc_range C) + 4).
    { eapply Rle_trans; [|exact L]. rewrite Rabs_minus_sym. apply dist2_x. }
    assert (Ly : Rabs (snd (hxy b) - snd (hxy a)) <= IZR (hc_range C) + 4).
    { eapply Rle_trans; [|exact L]. rewrite Rabs_minus_sym. apply dist2_y. }
    assert (Fin : forall e, Rabs (fst q - fst (hxy e)) <= IZR (hc_range C) + 4 -> Rabs (snd q - snd (hxy e)) <= IZR (hc_range C) + 4 ->
      IZR (path_range C) + / 2 <= Rabs (fst (cxy p) - fst (hxy e)) \/ IZR (path_range C) + / 2 <= Rabs (snd (cxy p) - snd (hxy e)) ->
      expand_dist C + max_dist C < dist2 q (cxy p)).
    { intros e Ex Ey [E|E].
      - eapply Rlt_le_trans; [|apply dist2_x]. pose proof (Rabs_triang (fst (cxy p) - fst q) (fst q - fst (hxy e))) as Tr.
        replace (fst (cxy p) - fst q + (fst q - fst (hxy e))) with (fst (cxy p) - fst (hxy e)) in Tr by ring.
        rewrite (Rabs_minus_sym (fst (cxy p)) (fst q)) in Tr. lra.
      - eapply Rlt_le_trans; [|apply dist2_y]. pose proof (Rabs_triang (snd (cxy p) - snd q) (snd q - snd (hxy e))) as Tr.
        replace (snd (cxy p) - snd q + (snd q - snd (hxy e))) with (snd (cxy p) - snd (hxy e)) in Tr by ring.
        rewrite (Rabs_minus_sym (snd (cxy p)) (snd q)) in Tr. lra. }
    destruct P as [P1 P2], Hh as [Hh|Hh].
    - apply (Fin a); [| |apply End; auto].
      + rewrite Q1. replace (fst (hxy a) + t * (fst (hxy b) - fst (hxy a)) - fst (hxy a)) with (t * (fst (hxy b) - fst (hxy a))) by ring.
        apply scaled; assumption.
      + rewrite Q2. replace (snd (hxy a) + t * (snd (hxy b) - snd (hxy a)) - snd (hxy a)) with (t * (snd (hxy b) - snd (hxy a))) by ring.
        apply scaled; assumption.
    - apply (Fin b); [| |apply End; auto].
      + rewrite Q1. replace (fst (hxy a) + t * (fst (hxy b) - fst (hxy a)) - fst (hxy b)) with (- ((1 - t) * (fst (hxy b) - fst (hxy a)))) by ring.
        rewrite Rabs_Ropp. apply scaled; [lra|assumption].
      + rewrite Q2. replace (snd (hxy a) + t * (snd (hxy b) - snd (hxy a)) - snd (hxy b)) with (- ((1 - t) * (snd (hxy b) - snd (hxy a)))) by ring.
        rewrite Rabs_Ropp. apply scaled; [lra|assumption].
  Qed.

  Lemma level_top D : expand_dist C + max_dist C < D -> level C D = 100.
  Proof.
    intros H. pose proof (max_pos C U). unfold level. destruct (Rle_dec D (expand_dist C)); [lra|].
    destruct (Rle_dec (expand_dist C + max_dist C) D); [reflexivity|lra].
  Qed.

  (** ** The theorems *)

  (** After any history that ends with a plan, the value of every cell of the map is the rounded level of its distance from
      that path; cells whose heading the path never has are at 100.  Nothing of earlier plans is left. *)
  Theorem C64_values_follow_the_last_plan es path p : dense C path -> in_map C p ->
    let s := hrun C (es ++ [HPlan path]) hinit in
    hy_has s = true /\
    ((forall q, ~ at_heading C path p q) -> hy_map s p = 100%Z) /\
    (forall D, path_distance C path p D -> Rabs (IZR (hy_map s p) - level C D) <= / 2) /\
    ((exists q, at_heading C path p q) -> exists D, path_distance C path p D).
  Proof.
    intros Hd Hm. cbv zeta. unfold hrun. rewrite fold_left_app. fold (hrun C es hinit).
    set (s0 := hrun C es hinit). assert (T : tracked s0) by apply run_tracked, init_tracked.
    cbn [fold_left hstep hy_has hy_map]. split; [reflexivity|].
    rewrite (hset_fold (fun p => hyst_value C (d_min C path p))).
    pose proof (d_min_spec C U path p) as S.
    destruct (in_dec hcell_dec p (path_points C path)) as [I|I].
    - destruct (d_min C path p) as [D|].
      + split; [|split].
        * intros H. destruct S as [(q & A & _) _]. destruct (H q A).
        * intros D' H. rewrite (path_distance_unique C path p D' D H S). apply hyst_value_level. exact U.
        * intros _. exists D. exact S.
      + split; [intros _; apply hyst_value_none, U|]. split; [intros D ((q & A & _) & _); destruct (S q A)|intros (q & A); destruct (S q A)].
    - rewrite clear_all by exact T. split; [reflexivity|]. split.
      + intros D ((q & A & <-) & _). rewrite (level_top _ (unvisited_far path p q Hd Hm I A)).
        rewrite Rminus_diag_eq by reflexivity. rewrite Rabs_R0. lra.
      + intros (q & A). destruct (d_min C path p) as [D|]; [eauto|destruct (S q A)].
  Qed.

  (** 0 within the expansion distance of the path, 100 further away than both distances together, never outside 0 to 100. *)
  Theorem C64_levels_are_bounded es path p : dense C path -> in_map C p ->
    let v := hy_map (hrun C (es ++ [HPlan path]) hinit) p in
    (0 <= v <= 100)%Z /\
    ((exists q, at_heading C path p q /\ dist2 q (cxy p) <= expand_dist C) -> v = 0%Z) /\
    ((forall q, at_heading C path p q -> expand_dist C + max_dist C <= dist2 q (cxy p)) -> v = 100%Z).
  Proof.
    intros Hd Hm. cbv zeta. pose proof (max_pos C U) as M.
    destruct (C64_values_follow_the_last_plan es path p Hd Hm) as (_ & A & B & X).
    set (v := hy_map (hrun C (es ++ [HPlan path]) hinit) p) in *.
    pose proof (d_min_spec C U path p) as S. destruct (d_min C path p) as [D|] eqn:Ed.
    2:{ specialize (A S). rewrite A. split; [lia|]. split; [intros (q & Q & _); destruct (S q Q)|reflexivity]. }
    pose proof (B D S) as BD. apply Rabs_le_inv in BD.
    assert (Int : forall k, level C D = IZR k -> v = k).
    { intros k Hk. rewrite Hk in BD. destruct (Z.lt_trichotomy v k) as [G|[G|G]]; [|exact G|].
      - assert (IZR v + 1 <= IZR k) by (rewrite <- plus_IZR; apply IZR_le; lia). lra.
      - assert (IZR k + 1 <= IZR v) by (rewrite <- plus_IZR; apply IZR_le; lia). lra. }
    split; [|split].
    - pose proof (hyst_value_level C U D) as V. pose proof (hyst_value_range C U (Some D)) as VR.
      assert (L : 0 <= level C D <= 100).
      { unfold level. destruct (Rle_dec D (expand_dist C)); [lra|]. destruct (Rle_dec (expand_dist C + max_dist C) D); [lra|].
        split.
        - unfold Rdiv. apply Rmult_le_pos; [lra|]. apply Rlt_le, Rinv_0_lt_compat, M.
        - apply Rmult_le_reg_r with (max_dist C); [exact M|]. unfold Rdiv. rewrite Rmult_assoc, Rinv_l by lra. lra. }
      split.
      + destruct (Z.le_gt_cases 0 v) as [G|G]; [exact G|]. assert (IZR v <= -1) by (apply IZR_le; lia). lra.
      + destruct (Z.le_gt_cases v 100) as [G|G]; [exact G|]. assert (101 <= IZR v) by (apply IZR_le; lia). lra.
    - intros (q & Q & L). apply Int. destruct S as [_ S]. specialize (S q Q). unfold level.
      destruct (Rle_dec D (expand_dist C)); [reflexivity|lra].
    - intros H. apply Int. destruct S as [(q & Q & E) _]. specialize (H q Q). unfold level.
      destruct (Rle_dec D (expand_dist C)); [lra|]. destruct (Rle_dec (expand_dist C + max_dist C) D); [reflexivity|lra].
  Qed.

  (** Whenever the planner has no hysteresis map (after a new map, a new goal, or an obstacle on the path) all cells are at 100. *)
  Theorem C64_without_a_plan_all_cells_are_equal es p : hy_has (hrun C es hinit) = false -> hy_map (hrun C es hinit) p = 100%Z.
  Proof.
    intros H. destruct (run_tracked es hinit init_tracked) as [T1 T2]. apply T1. rewrite (T2 H). auto.
  Qed.
  Theorem C64_new_goal_or_map_forgets_the_plan es e p : e = HMap \/ e = HGoal ->
    hy_has (hrun C (es ++ [e]) hinit) = false /\ hy_map (hrun C (es ++ [e]) hinit) p = 100%Z.
  Proof.
    intros He. assert (F : hy_has (hrun C (es ++ [e]) hinit) = false).
    { unfold hrun. rewrite fold_left_app. destruct He as [-> | ->]; reflexivity. }
    split; [exact F|]. apply C64_without_a_plan_all_cells_are_equal. exact F.
  Qed.

  (** An obstacle reported within the expansion distance of the path drops the map; an overlay whose obstacles are all further
      away than that (by at least a two-hundredth of the fading distance) leaves it as it is. *)
  Theorem C64_obstacle_on_the_path_drops_the_map es path cells p q : dense C path -> in_map C p -> In (p, 100%Z) cells ->
    at_heading C path p q -> dist2 q (cxy p) <= expand_dist C ->
    let s := hrun C (es ++ [HPlan path; HOverlay cells]) hinit in hy_has s = false /\ forall p', hy_map s p' = 100%Z.
  Proof.
    intros Hd Hm Hin Hq Hdist. cbv zeta.
    destruct (C64_levels_are_bounded es path p Hd Hm) as (_ & Z0 & _).
    destruct (C64_values_follow_the_last_plan es path p Hd Hm) as (Has & _).
    specialize (Z0 (ex_intro _ q (conj Hq Hdist))).
    replace (es ++ [HPlan path; HOverlay cells]) with ((es ++ [HPlan path]) ++ [HOverlay cells]) by (rewrite <- app_assoc; reflexivity).
    assert (F : hy_has (hrun C ((es ++ [HPlan path]) ++ [HOverlay cells]) hinit) = false).
    { unfold hrun at 1. rewrite fold_left_app. fold (hrun C (es ++ [HPlan path]) hinit). cbn [fold_left hstep].
      rewrite Has. replace (existsb _ cells) with true; [reflexivity|]. symmetry. apply existsb_exists. exists (p, 100%Z).
      split; [exact Hin|]. cbn [fst snd]. rewrite Z0. reflexivity. }
    split; [exact F|]. intros p'. apply C64_without_a_plan_all_cells_are_equal. exact F.
  Qed.
  Theorem C64_other_obstacles_keep_the_map es path cells : dense C path ->
    (forall p, In (p, 100%Z) cells -> in_map C p /\
       forall q, at_heading C path p q -> expand_dist C + max_dist C / 200 < dist2 q (cxy p)) ->
    hrun C (es ++ [HPlan path; HOverlay cells]) hinit = hrun C (es ++ [HPlan path]) hinit.
  Proof.
    intros Hd Hc. pose proof (max_pos C U) as M.
    replace (es ++ [HPlan path; HOverlay cells]) with ((es ++ [HPlan path]) ++ [HOverlay cells]) by (rewrite <- app_assoc; reflexivity).
    unfold hrun at 1. rewrite fold_left_app. fold (hrun C (es ++ [HPlan path]) hinit). cbn [fold_left hstep].
    replace (existsb _ cells) with false; [reflexivity|]. symmetry. apply Bool.not_true_is_false. intros H.
    apply existsb_exists in H as ([p c] & Hin & H). cbn [fst snd] in H.
    apply andb_prop in H as [H1 H2]. apply Z.eqb_eq in H1, H2. subst c. destruct (Hc p Hin) as [Hm Hq].
    destruct (C64_values_follow_the_last_plan es path p Hd Hm) as (_ & A & B & X).
    pose proof (d_min_spec C U path p) as S. destruct (d_min C path p) as [D|].
    2:{ rewrite (A S) in H2. discriminate. }
    pose proof (B D S) as BD. rewrite H2 in BD. destruct S as [(q & Q & E) _]. specialize (Hq q Q). rewrite E in Hq.
    apply Rabs_le_inv in BD. unfold level in BD. destruct (Rle_dec D (expand_dist C)); [lra|].
    destruct (Rle_dec (expand_dist C + max_dist C) D); [lra|].
    assert (/ 2 < 100 * (D - expand_dist C) / max_dist C); [|lra].
    apply Rmult_lt_reg_r with (max_dist C); [exact M|]. unfold Rdiv. rewrite (Rmult_assoc (100 * _)), Rinv_l by lra. lra.
  Qed.
End Histories.

(** A cell as large as the smallest distance of the code's defaults: 0.1 m cells, both distances 0.1 m, 16 headings, and a path
    of three points along the x axis; the cells of the row are at 0, the second row next to it at 100. *)
Definition ex_cfg : hcfg := HCfg 4 (1/10) (1/10) (1/10) 20 20 16.
Definition ex_path : list hvec := [(5, 5, 0); (6, 5, 0); (7, 5, 0)].
Example ex_usable : usable ex_cfg /\ dense ex_cfg ex_path.
Proof.
  split; [unfold usable; cbn; repeat split; try lra; lia|].
  intros i a b [P1 P2]. cbn [ex_cfg hc_range]. destruct i as [|[|[|i]]]; cbn in P1, P2; try discriminate P2.
  - injection P1 as <-. injection P2 as <-. unfold dist2, hxy. cbn [fst snd].
    replace ((5 - 6)² + (5 - 5)²) with 1 by (unfold Rsqr; lra). rewrite sqrt_1. lra.
  - injection P1 as <-. injection P2 as <-. unfold dist2, hxy. cbn [fst snd].
    replace ((6 - 7)² + (5 - 5)²) with 1 by (unfold Rsqr; lra). rewrite sqrt_1. lra.
Qed.
Lemma ex_dists : expand_dist ex_cfg = 1 /\ max_dist ex_cfg = 1.
Proof. unfold expand_dist, max_dist. cbn. lra. Qed.
Lemma ex_on : at_heading ex_cfg ex_path (6, 5, 0)%Z (6, 5).
Proof.
  exists 0%nat, (5, 5, 0), (6, 5, 0). split; [split; reflexivity|]. split.
  - left. split; [cbn; lia|]. exists 0%Z. cbn [snd]. rewrite (lroundR_Z 0). lia.
  - exists 1. cbn. repeat split; lra.
Qed.
Example ex_values : forall es, let s := hrun ex_cfg (es ++ [HPlan ex_path]) hinit in
  hy_map s (6, 5, 0)%Z = 0%Z /\ hy_map s (6, 8, 0)%Z = 100%Z /\
  hy_has (hrun ex_cfg (es ++ [HPlan ex_path; HOverlay [((6, 5, 0)%Z, 100%Z)]]) hinit) = false.
Proof.
  intros es. cbv zeta. destruct ex_usable as [U Hd]. destruct ex_dists as [E1 E2].
  assert (M1 : in_map ex_cfg (6, 5, 0)%Z) by (unfold in_map; cbn; lia).
  assert (M2 : in_map ex_cfg (6, 8, 0)%Z) by (unfold in_map; cbn; lia).
  assert (D0 : dist2 (6, 5) (cxy (6, 5, 0)%Z) <= expand_dist ex_cfg).
  { rewrite E1. unfold dist2, cxy. cbn [fst snd]. replace ((6 - 6)² + (5 - 5)²) with 0 by (unfold Rsqr; lra). rewrite sqrt_0. lra. }
  destruct (C64_levels_are_bounded ex_cfg U es ex_path _ Hd M1) as (_ & A & _).
  destruct (C64_levels_are_bounded ex_cfg U es ex_path _ Hd M2) as (_ & _ & B).
  split; [apply A; exists (6, 5); split; [exact ex_on|exact D0]|]. split.
  - apply B. intros q (i & a & b & [P1 P2] & _ & t & T & Q1 & Q2). rewrite E1, E2.
    assert (Ya : snd (hxy a) = 5 /\ snd (hxy b) = 5).
    { destruct i as [|[|[|i]]]; cbn in P1, P2; try discriminate P2.
      - injection P1 as <-. injection P2 as <-. cbn. auto.
      - injection P1 as <-. injection P2 as <-. cbn. auto. }
    destruct Ya as [Ya Yb]. rewrite Ya, Yb in Q2. eapply Rle_trans; [|apply dist2_y]. unfold cxy. cbn [fst snd]. rewrite Q2.
    rewrite Rabs_left1; lra.
  - apply (C64_obstacle_on_the_path_drops_the_map ex_cfg U es ex_path _ (6, 5, 0)%Z (6, 5) Hd M1); [left; reflexivity|exact ex_on|exact D0].
Qed.

Print Assumptions C64_values_follow_the_last_plan.
Print Assumptions C64_levels_are_bounded.
Print Assumptions C64_without_a_plan_all_cells_are_equal.
Print Assumptions C64_new_goal_or_map_forgets_the_plan.
Print Assumptions C64_obstacle_on_the_path_drops_the_map.
Print Assumptions C64_other_obstacles_keep_the_map.
