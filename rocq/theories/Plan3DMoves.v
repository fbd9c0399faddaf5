(** Steps of the 3D planner's search (property C81): the moves of the search model of Plan3D.v are exactly the legal steps. *)
From Coq Require Import QArith Qreals Reals Lra Lia Psatz ZifyBool.
From Flocq Require Import Core.
From Verif Require Import Common CyclicVec CyclicVecSpec CyclicVecProofs CostAlg CostZ DistMap Overlay SearchAvail SearchAvailProps MakePlanSrvProps
  GridMetric GridMetricProps Path2D Path2DProps PathGeom PathGeomProps StartPredict StartPredictProps StartPoses StartPosesProps
  Hysteresis HysteresisProps Primitives PrimitivesProps GridMapSpec AStar AStarSpec AStarProofs AStarSearch AStarTerm AStarComplete AStarProps
  MotionCache Cost3D Motion3DSpec Motion3DProofs Cost3DProps MotionReset MotionResetProps Plan3D.
Local Open Scope Z_scope.

Section Accept.
  Context {F : Type} (K : cost_ops F).
  Variables (cm cm_hyst : costmap) (hysteresis : bool) (thr : Z).
  Variables (C : cache) (range : Z) (min_b max_b : vec) (N : @numeric F).
  Notation a := (cm_a cm).
  Notation cost3 := (cost3 K cm cm_hyst hysteresis thr C a range min_b max_b N).
  Hypothesis Hw : cm_w cm_hyst = cm_w cm.
  Hypothesis Hh : cm_h cm_hyst = cm_h cm.
  Hypothesis Ha : cm_a cm_hyst = cm_a cm.
  Hypothesis Pos : forall p, 0 <= cm_at cm p.
  Hypothesis PosH : forall p, 0 <= cm_at cm_hyst p.

  Lemma read_of_free p : free cm p -> cm_read cm p = Ok (cm_at cm p) /\ (99 <? cm_at cm p) = false /\ cm_read cm_hyst p = Ok (cm_at cm_hyst p).
  Proof.
    intros (X & Y & T & C0). unfold cm_read, cm_inside. rewrite Hw, Hh, Ha.
    replace (_ && _)%bool with true by lia. split; [reflexivity|]. split; [lia|reflexivity].
  Qed.
  Lemma turn_loop_accepts : forall n dir x y t sum, dir = 1 \/ dir = -1 -> 0 <= t < a -> 0 <= sum ->
    (forall k, 0 <= k < Z.of_nat n -> free cm [x; y; (t + dir * k) mod a]) ->
    exists s, 0 <= s /\ turn_loop cm thr n dir [x; y; t] sum = Ok (Some s).
  Proof.
    induction n as [|n IH]; intros dir x y t sum Hd Ht Hs HF; [exists sum; auto|]. cbn [turn_loop].
    assert (F0 : free cm [x; y; t]). { specialize (HF 0 ltac:(lia)). rewrite Z.mul_0_r, Z.add_0_r, Z.mod_small in HF by exact Ht. exact HF. }
    destruct (read_of_free _ F0) as (-> & Q2 & _). cbn [bind vx vy vt nth]. rewrite Q2.
    set (t' := if t + dir <? 0 then t + dir + a else if a <=? t + dir then t + dir - a else t + dir).
    assert (Ht' : t' = (t + dir) mod a).
    { unfold t'. destruct (t + dir <? 0) eqn:E1; [|destruct (a <=? t + dir) eqn:E2].
      - apply (Z.mod_unique_pos _ _ (-1)); lia.
      - apply (Z.mod_unique_pos _ _ 1); lia.
      - apply (Z.mod_unique_pos _ _ 0); lia. }
    apply IH; [exact Hd|rewrite Ht'; apply Z.mod_pos_bound; lia|pose proof (Pos [x; y; t]); destruct (thr <=? cm_at cm [x; y; t]); lia|].
    intros k Hk. rewrite Ht', Zplus_mod_idemp_l. replace (t + dir + dir * k) with (t + dir * (k + 1)) by ring. apply HF. lia.
  Qed.
  Lemma motion_loop_accepts cur : forall m s1 s2 s3, 0 <= s1 -> 0 <= s2 -> 0 <= s3 ->
    (forall d, In d m -> free cm [vx cur + vx d; vy cur + vy d; vt d]) ->
    exists r1 r2 r3, 0 <= r1 /\ 0 <= r2 /\ 0 <= r3 /\ motion_loop cm cm_hyst hysteresis thr cur m s1 s2 s3 = Ok (Some (r1, r2, r3)).
  Proof.
    induction m as [|d m IH]; intros s1 s2 s3 H1 H2 H3 HF; [exists s1, s2, s3; auto|]. cbn [motion_loop].
    destruct (read_of_free _ (HF d (or_introl eq_refl))) as (-> & Q2 & E3). cbn [bind]. rewrite Q2.
    assert (E : exists h, 0 <= h /\ (if hysteresis then cm_read cm_hyst [vx cur + vx d; vy cur + vy d; vt d] else Ok 0) = Ok h).
    { destruct hysteresis; [rewrite E3; eexists; split; [apply PosH|reflexivity]|exists 0; split; [lia|reflexivity]]. }
    destruct E as (h & Hh0 & ->). cbn [bind]. pose proof (Pos [vx cur + vx d; vy cur + vy d; vt d]).
    apply IH; [lia|destruct (thr <=? cm_at cm [vx cur + vx d; vy cur + vy d; vt d]); lia|lia|]. intros d' Hd'. apply HF. right. exact Hd'.
  Qed.

  (** The cost of a motion all of whose cells are free. *)
  Lemma cost3_of_free cur next : 2 <= a -> length cur = 3%nat -> length next = 3%nat ->
    Z.abs (vx next - vx cur) <= range -> Z.abs (vy next - vy cur) <= range ->
    (forall p, swept C a cm cur next p -> free cm p) ->
    exists d2, same_direction a d2 (vt next - vt cur) /\ signed_range a d2 /\ (d2 = 0 <-> vt next = vt cur) /\
      let d := [vx next - vx cur; vy next - vy cur; d2] in
      if (vx next =? vx cur) && (vy next =? vy cur) then exists s, 0 <= s /\ cost3 cur next = Ok (n_turn N d s)
      else match assoc [vx next - vx cur; vy next - vy cur; vt next] (C (vt cur)) with
           | None => cost3 cur next = Ok (fneg1 K)
           | Some pg => let n := Z.of_nat (length (pg_motion pg)) in
               if d2 =? 0 then exists s h, 0 <= s /\ 0 <= h /\ cost3 cur next = Ok (n_straight N cur d s h n)
               else if (vx min_b <=? vx cur) && (vx cur <? vx max_b) && (vy min_b <=? vy cur) && (vy cur <? vy max_b)
                    then exists s t h, 0 <= s /\ 0 <= t /\ 0 <= h /\ cost3 cur next = Ok (n_curve N cur d s t h n)
                    else cost3 cur next = Ok (fneg1 K)
           end.
  Proof.
    intros A2 Lc Ln Rx Ry HF. pose proof (HF _ (sw_start _ _ _ _ _)) as F1. pose proof (HF _ (sw_end _ _ _ _ _)) as F2.
    destruct (cycleElement_spec (vt next - vt cur) a ltac:(lia)) as (d2 & Ed & Hdir & Hr). exists d2. split; [exact Hdir|]. split; [exact Hr|].
    pose proof F1 as (X1 & Y1 & T1 & _). pose proof F2 as (X2 & Y2 & T2 & _).
    assert (D0 : d2 = 0 <-> vt next = vt cur).
    { destruct Hdir as [k Hk]. unfold signed_range in Hr. split; intros H.
      - assert (k = 0) by nia. lia.
      - rewrite H, Z.sub_diag in Hk. destruct (Z.eq_dec k 0) as [->|]; [lia|]. exfalso. assert (a <= Z.abs (k * a)) by nia. lia. }
    split; [exact D0|]. cbv zeta. unfold Cost3D.cost3. destruct (read_of_free _ F1) as (-> & Q1 & _). cbn [bind]. rewrite Q1. destruct (read_of_free _ F2) as (-> & Q2 & _). cbn [bind]. rewrite Q2.
    rewrite Ed. cbn [bind]. change (vx [vx next - vx cur; vy next - vy cur; d2]) with (vx next - vx cur). change (vy [vx next - vx cur; vy next - vy cur; d2]) with (vy next - vy cur).
    replace ((vx next =? vx cur) && (vy next =? vy cur))%bool with ((vx next - vx cur =? 0) && (vy next - vy cur =? 0))%bool by lia.
    destruct ((vx next - vx cur =? 0) && (vy next - vy cur =? 0))%bool eqn:Exy.
    - assert (EX : vx next = vx cur) by lia. assert (EY : vy next = vy cur) by lia. destruct cur as [|x [|y [|t [|]]]]; try discriminate. cbn [vx vy vt nth] in *.
      destruct (turn_loop_accepts (Z.to_nat (Z.abs d2)) (if d2 <? 0 then -1 else 1) x y t 0) as (s & Hs & Es); [destruct (d2 <? 0); auto|exact T1|lia| |].
      + intros k Hk. replace (t + (if d2 <? 0 then -1 else 1) * k) with (t + (if d2 <? 0 then - k else k)) by (destruct (d2 <? 0); ring).
        apply HF. apply (sw_turn C a cm [x; y; t] next d2); try assumption. destruct (d2 <? 0) eqn:E; lia.
      + rewrite Es. exists s. split; [exact Hs|reflexivity].
    - replace ((range <? Z.abs (vx next - vx cur)) || (range <? Z.abs (vy next - vy cur)))%bool with false by lia.
      destruct (cycleUnsignedElement_spec (vt next) a ltac:(lia)) as (di & Edi & Hdi & Hri).
      assert (di = vt next) as ->. { destruct Hdi as [j Hj]. unfold unsigned_range in Hri. apply (uniq_rep a _ _ j); lia. }
      rewrite Edi. cbn [bind]. rewrite find_yaw_spec by lia. cbn [bind]. rewrite (Z.mod_small (vt cur)) by lia.
      destruct (assoc _ (C (vt cur))) as [pg|] eqn:Ep.
      + assert (HFm : forall d, In d (pg_motion pg) -> free cm [vx cur + vx d; vy cur + vy d; vt d]).
        { intros d Hd. apply HF. apply (sw_move C a cm cur next pg d); [lia| |exact Hd]. rewrite (Z.mod_small (vt cur)), (Z.mod_small (vt next)) by lia. exact Ep. }
        destruct (motion_loop_accepts cur (pg_motion pg) 0 0 0 ltac:(lia) ltac:(lia) ltac:(lia) HFm) as (r1 & r2 & r3 & P1 & P2 & P3 & Em).
        destruct (d2 =? 0); [rewrite Em; exists r1, r3; split; [exact P1|]; split; [exact P3|reflexivity]|].
        replace ((vx cur <? vx min_b) || (vy cur <? vy min_b) || (vx max_b <=? vx cur) || (vy max_b <=? vy cur))%bool
          with (negb ((vx min_b <=? vx cur) && (vx cur <? vx max_b) && (vy min_b <=? vy cur) && (vy cur <? vy max_b))%bool) by lia.
        match goal with |- context [negb ?b] => destruct b end; cbn [negb]; [|reflexivity]. rewrite Em. exists r1, r2, r3. split; [exact P1|]. split; [exact P2|]. split; [exact P3|reflexivity].
      + destruct (d2 =? 0); [reflexivity|]. destruct (_ || _)%bool; reflexivity.
  Qed.
End Accept.
Local Open Scope R_scope.
(** *** Specification *)
(** The planner is set up consistently: its parameters are not negative, the resolutions, the number of headings and the range agree, the samples
    of the curves are those the code means (C09), and costs and estimates are not negative. *)
Record planner_ok (S : scfg) (G : ccfg) (P : prim_cfg) (M : pmap) (computed : Z -> vec -> list posef) (gres : R) (page_dist : Z -> vec -> R)
    (cm cm_hyst : cell3 -> Z) (est : Z -> Z -> option R) : Prop := PlannerOk {
  ok_prim : sane P; ok_angle : (2 <= pr_angle P <= 2 ^ 30)%Z; ok_range : (pr_range P <= 2 ^ 30)%Z;
  ok_gres : 0 < gres <= 1 / 2; ok_parallel : exists t, nearly_parallel P t; ok_samples : faithful P gres computed;
  ok_res : mi_res (pm_info M) = pr_lin P; ok_ang : mi_ang (pm_info M) = pr_ang P; ok_a : pm_a M = pr_angle P; ok_margin : margin S = pr_range P;
  ok_w : (0 < pm_w M <= 2 ^ 30)%Z; ok_h : (0 < pm_h M <= 2 ^ 30)%Z;
  ok_ec0 : 0 < ec0 S; ok_weight : 0 <= weight S; ok_ec2 : 0 <= ec2 G; ok_turn : 0 <= in_place_turn G;
  ok_wt : 0 <= w_turn G; ok_wth : 0 <= w_turn_h G; ok_back : 0 <= w_back G; ok_decel : 0 <= w_decel G; ok_hyst : 0 <= w_hyst G;
  ok_vel : 0 < max_vel G; ok_avel : 0 <= max_ang G; ok_dist : forall i d, 0 <= page_dist i d;
  ok_cm : forall c, (0 <= cm c)%Z; ok_cmh : forall c, (0 <= cm_hyst c)%Z; ok_est : forall x y r, est x y = Some r -> 0 <= r }.

Section Spec.
  Variables (P : prim_cfg) (M : pmap) (computed : Z -> vec -> list posef) (gres ires : R) (cm : cell3 -> Z) (est : Z -> Z -> option R) (local_range : Z).
  (** Within the local range of a start. *)
  Definition near (ss : list vec) (a : vec) : Prop := exists s, In s ss /\ ((vx s - vx a) ^ 2 + (vy s - vy a) ^ 2 < local_range ^ 2)%Z.
  (** One step of a plan from the cell [a] to [b]: a displacement [m] within the range.  Near a start it is a motion the robot can drive (C65: a turn on the spot,
      a straight motion or a curve); far from all starts the heading stays and the motion is not exactly sideways.  Curves begin at least the range away from
      the border.  All cells passed are free, and from [b] the goal is not known to be unreachable. *)
  Definition legal (ss : list vec) (a b : vec) : Prop :=
    exists m : prim, in_range P m /\ b = [vx a + fst (fst m); vy a + snd (fst m); (vt a + snd m) mod pr_angle P]%Z /\
      (near ss a -> drivable P (vt a) m) /\
      (~ near ss a -> snd m = 0%Z /\ (fst m = (0, 0)%Z \/ ahead P (vt a) m <> 0)) /\
      (fst m <> (0, 0)%Z -> snd m <> 0%Z -> in_margin M (pr_range P) (vec_cell a)) /\
      (forall p, swept (plan_cache P computed gres ires) (pr_angle P) (map3 M cm) a b p -> free (map3 M cm) p) /\
      est (vx b) (vy b) <> None.
End Spec.

(** *** Proofs *)
Lemma vec3 v : length v = 3%nat -> v = [vx v; vy v; vt v].
Proof. destruct v as [|x [|y [|t [|]]]]; try discriminate. reflexivity. Qed.
Lemma valid_vec w h a x y t : valid [w; h; a] [x; y; t] <-> (0 <= x < w /\ 0 <= y < h /\ 0 <= t < a)%Z.
Proof. split; [intros H; apply valid3 in H; cbn in H; tauto|]. intros (A & B & C). repeat constructor; tauto. Qed.
Lemma canon3 w h a x y t b : (0 < a)%Z -> canon unsigned_range 2 [x; y; t] [w; h; a] b <-> b = [x; y; t mod a]%Z.
Proof.
  intros Ha. split.
  - intros [L H]. destruct b as [|bx [|bY [|bt [|]]]]; try discriminate.
    pose proof (H 0%nat _ _ _ eq_refl eq_refl eq_refl) as E0. pose proof (H 1%nat _ _ _ eq_refl eq_refl eq_refl) as E1. pose proof (H 2%nat _ _ _ eq_refl eq_refl eq_refl) as [[j E2] R2].
    cbn in E0, E1. unfold unsigned_range in R2. subst. do 3 f_equal. apply (Z.mod_unique_pos _ _ (- j)); [exact R2|lia].
  - intros ->. split; [reflexivity|]. intros i e r z H1 H2 H3. destruct i as [|[|[|i]]]; cbn in H1, H2, H3; [| | |destruct i; discriminate].
    + injection H1 as <-. injection H3 as <-. reflexivity.
    + injection H1 as <-. injection H3 as <-. reflexivity.
    + injection H1 as <-. injection H2 as <-. injection H3 as <-. cbn. split; [exists (- (t / a))%Z; pose proof (Z.div_mod t a); lia|]. apply Z.mod_pos_bound. exact Ha.
Qed.

Section Moves.
  Variables (S : scfg) (G : ccfg) (P : prim_cfg) (M : pmap) (computed : Z -> vec -> list posef) (gres ires : R) (page_dist : Z -> vec -> R)
    (cm cm_hyst : cell3 -> Z) (hyst : bool) (est : Z -> Z -> option R) (local_range : Z).
  Hypothesis OK : planner_ok S G P M computed gres page_dist cm cm_hyst est.
  Notation cache := (plan_cache P computed gres ires).
  Notation band := (lo_bound P computed gres ires).
  Notation top := (hi_bound P M computed gres ires).
  Notation mp := (map3 M cm).
  Notation size := [pm_w M; pm_h M; pm_a M].
  Notation model := (model3 S G P M computed gres ires page_dist cm cm_hyst hyst est local_range).
  Notation legal := (legal P M computed gres ires cm est local_range).
  Notation near := (near local_range).

  Let Sn : sane P := ok_prim _ _ _ _ _ _ _ _ _ _ OK.
  Let Gr : 0 < gres <= 1 / 2 := ok_gres _ _ _ _ _ _ _ _ _ _ OK.

  Lemma max_range_le : (vx band <= pr_range P /\ vy band <= pr_range P)%Z.
  Proof.
    assert (R0 : (0 <= pr_range P)%Z) by apply Sn. unfold lo_bound, max_range.
    set (good := fun m : vec => (vx m <= pr_range P /\ vy m <= pr_range P)%Z).
    assert (W : forall l m, (forall c, In c l -> (Z.abs (vx c) <= pr_range P /\ Z.abs (vy c) <= pr_range P)%Z) -> good m -> good (fold_left widen l m)).
    { induction l as [|c l IH]; intros m Hl Hm; cbn [fold_left]; [exact Hm|]. apply IH; [intros c' Hc'; apply Hl; right; exact Hc'|].
      destruct (Hl c (or_introl eq_refl)). unfold good, widen in *. cbn [vx vy nth]. lia. }
    assert (D : forall i l m, (0 <= i < pr_angle P)%Z -> (forall d, In d l -> In d (stored P)) -> good m ->
      good (fold_left (fun m d => if straight_page P i d then fold_left widen (pg_motion (page_of P gres ires computed i d)) m else m) l m)).
    { intros i. induction l as [|d l IH]; intros m Hi Hl Hm; cbn [fold_left]; [exact Hm|]. apply IH; [exact Hi|intros d' Hd'; apply Hl; right; exact Hd'|].
      destruct (straight_page P i d) eqn:Es; [|exact Hm]. apply W; [|exact Hm]. intros c Hc.
      pose proof (Hl d (or_introl eq_refl)) as Hd. destruct (straight_cells P Sn gres ires Gr computed i d c Hi Hd Es Hc) as (_ & B1 & B2).
      pose proof (stored_box P Sn d Hd) as [B3 B4]. lia. }
    assert (T : forall l m, (forall i, In i l -> (0 <= i < pr_angle P)%Z) -> good m ->
      good (fold_left (fun m i => fold_left (fun m d => if straight_page P i d then fold_left widen (pg_motion (page_of P gres ires computed i d)) m else m) (stored P) m) l m)).
    { induction l as [|i l IH]; intros m Hl Hm; cbn [fold_left]; [exact Hm|]. apply IH; [intros i' Hi'; apply Hl; right; exact Hi'|].
      apply D; [apply Hl; left; reflexivity|auto|exact Hm]. }
    apply T; [intros i Hi; apply in_range_excl in Hi; exact Hi|]. unfold good. cbn [vx vy nth]. lia.
  Qed.
  (** The border where no curve begins is as wide as the range. *)
  Lemma band_is_range : (vx band = pr_range P /\ vy band = pr_range P)%Z.
  Proof.
    destruct (ok_parallel _ _ _ _ _ _ _ _ _ _ OK) as [t Ht]. destruct (max_range_covers P Sn gres ires Gr computed t Ht) as [A B].
    pose proof max_range_le as [C D]. unfold lo_bound in *. lia.
  Qed.
  Lemma band_margin a : ((vx band <=? vx a) && (vx a <? vx top) && (vy band <=? vy a) && (vy a <? vy top))%Z = true <->
    (pr_range P <= vx a < pm_w M - pr_range P /\ pr_range P <= vy a < pm_h M - pr_range P)%Z.
  Proof.
    destruct band_is_range as [A B]. unfold hi_bound. change (vx [pm_w M - vx band; pm_h M - vy band; pm_a M - vt band])%Z with (pm_w M - vx band)%Z.
    change (vy [pm_w M - vx band; pm_h M - vy band; pm_a M - vt band])%Z with (pm_h M - vy band)%Z. rewrite A, B. lia.
  Qed.

  Lemma near_iff (ss : list (vec * option R)) p : near_start local_range ss p = true <-> near (map fst ss) p.
  Proof.
    unfold near_start, Plan3DMoves.near. rewrite existsb_exists. split.
    - intros (s & Hs & H). exists (fst s). split; [apply List.in_map; exact Hs|]. rewrite !Z.pow_2_r. lia.
    - intros (v & Hv & H). apply in_map_iff in Hv as (s & <- & Hs). exists s. split; [exact Hs|]. rewrite !Z.pow_2_r in H. lia.
  Qed.
  Lemma rough_iff m : In m (rough_moves P) <-> exists x y, m = [x; y; 0%Z] /\ (x * x + y * y <= pr_range P * pr_range P)%Z.
  Proof.
    assert (R0 : (0 <= pr_range P)%Z) by apply Sn. unfold rough_moves. rewrite in_flat_map. split.
    - intros (x & _ & H). apply in_flat_map in H as (y & _ & H). destruct (_ <? _)%Z eqn:E; [destruct H|]. destruct H as [<-|[]]. exists x, y. split; [reflexivity|lia].
    - intros (x & y & -> & H). exists x. split; [apply in_range_incl; nia|]. apply in_flat_map. exists y. split; [apply in_range_incl; nia|].
      destruct (_ <? _)%Z eqn:E; [lia|left; reflexivity].
  Qed.
  Lemma primitives_iff i m : (0 <= i < pr_angle P)%Z -> In m (primitives P i) <-> exists p, m = [fst (fst p); snd (fst p); snd p] /\ in_range P p /\ drivable P i p.
  Proof.
    intros Hi. destruct (C65_moves_are_the_drivable_ones P i Sn Hi) as (l & (ls & E & H) & _ & G'). unfold primitives. rewrite E.
    apply (nth_error_nth _ _ []) in H. rewrite H, in_map_iff. split.
    - intros (p & <- & Hp). exists p. split; [reflexivity|]. apply G'. exact Hp.
    - intros (p & -> & Hp). exists p. split; [reflexivity|]. apply G'. exact Hp.
  Qed.
  Lemma grids_range p ss e m : In m (grids3 P local_range p ss e) -> exists q, m = [fst (fst q); snd (fst q); snd q] /\ in_range P q /\ ((0 <= vt p < pr_angle P)%Z -> drivable P (vt p) q \/ snd q = 0%Z).
  Proof.
    unfold grids3. destruct (near_start local_range ss p).
    - destruct (_ && _)%Z%bool eqn:E; [|intros []]. intros H. apply primitives_iff in H as (q & -> & Hr & Hd); [|lia]. exists q. auto.
    - intros H. apply rough_iff in H as (x & y & -> & H). exists ((x, y), 0%Z). split; [reflexivity|]. split; [|intros _; right; reflexivity]. split; [exact H|]. cbn. pose proof (ok_angle _ _ _ _ _ _ _ _ _ _ OK). lia.
  Qed.
  Lemma grids_iff p ss e m : (0 <= vt p < pr_angle P)%Z -> In m (grids3 P local_range p ss e) <->
    exists q, m = [fst (fst q); snd (fst q); snd q] /\ in_range P q /\ (near (map fst ss) p -> drivable P (vt p) q) /\ (~ near (map fst ss) p -> snd q = 0%Z).
  Proof.
    intros Hp. unfold grids3. destruct (near_start local_range ss p) eqn:En.
    - apply near_iff in En. replace ((0 <=? vt p) && (vt p <? pr_angle P))%Z%bool with true by lia. rewrite primitives_iff by exact Hp. split; intros (q & A & B & D); exists q; intuition.
    - assert (Nn : ~ near (map fst ss) p) by (rewrite <- near_iff; congruence). rewrite rough_iff. split.
      + intros (x & y & -> & H). exists ((x, y), 0%Z). split; [reflexivity|]. split; [split; [exact H|]; cbn; pose proof (ok_angle _ _ _ _ _ _ _ _ _ _ OK); lia|]. split; [intros N; contradiction|reflexivity].
      + intros (q & -> & [Hr _] & _ & D). exists (fst (fst q)), (snd (fst q)). rewrite (D Nn). split; [reflexivity|exact Hr].
  Qed.

  Lemma cache_fit : cache_ok (tried_by (pr_angle P) (grids3 P local_range)) cache (pr_angle P) (pr_angle P) band.
  Proof.
    destruct (ok_parallel _ _ _ _ _ _ _ _ _ _ OK) as [t Ht]. intros yaw d pg m Hy (p & ss & e & m' & Hm' & <- & Ed) Has Hm.
    destruct (grids_range p ss e m' Hm') as (q & -> & Hr & Hq). cbn [vx vy vt nth] in Ed.
    apply (C09_cache_is_fit_for_the_moves P Sn gres ires Gr computed t Ht (ok_samples _ _ _ _ _ _ _ _ _ _ OK) (vt p) d pg m Hy); [|exact Has|exact Hm]. exists q. split; [exact Ed|]. split; [exact Hr|]. apply Hq. exact Hy.
  Qed.
  (** Every displacement within the range has a motion, and every motion passes the cell it starts from. *)
  Lemma has_page i x y t : (0 <= i < pr_angle P)%Z -> (0 <= t < pr_angle P)%Z -> ~ (x = 0 /\ y = 0)%Z -> (x * x + y * y <= pr_range P * pr_range P)%Z ->
    exists pg, assoc [x; y; t] (cache i) = Some pg /\ (0 < Z.of_nat (length (pg_motion pg)))%Z.
  Proof.
    intros Hi Ht Hn Hr. assert (St : In [x; y; t] (stored P)) by (apply (stored_spec P Sn); exists x, y, t; split; [reflexivity|]; lia).
    exists (page_of P gres ires computed i [x; y; t]). split.
    - unfold plan_cache, reset_cache. replace ((0 <=? i) && (i <? pr_angle P))%Z%bool with true by lia. revert St. generalize (stored P) as l.
      induction l as [|d l IH]; intros []; cbn [map assoc]; [subst d; rewrite veq_refl; reflexivity|]. destruct (veq d [x; y; t]) eqn:E; [apply veq_true in E; subst d; reflexivity|apply IH; assumption].
    - assert (E : exists p rest, (if straight_page P i [x; y; t] then straight_samples i [x; y; t] (total_step gres [x; y; t]) else computed i [x; y; t]) = p :: rest /\ (px p == 0)%Q /\ (py p == 0)%Q).
      { destruct (straight_page P i [x; y; t]) eqn:Es.
        - pose proof (total_two P Sn gres Gr _ St) as T2. unfold straight_samples, range_excl, range_incl.
          replace (Z.to_nat (total_step gres [x; y; t] - 1 - 0 + 1)) with (Datatypes.S (Z.to_nat (total_step gres [x; y; t] - 1))) by lia. cbn [seq map]. eexists _, _. split; [reflexivity|]. cbn [px py].
          split; unfold Qeq, Qmult, inject_Z; cbn; lia.
        - destruct (ok_samples _ _ _ _ _ _ _ _ _ _ OK i _ Hi St Es) as (_ & (p & rest & -> & A & B & _) & _). exists p, rest. auto. }
      destruct E as (p & rest & E & E1 & E2). unfold page_of. rewrite E.
      pose proof (build_loop_cells (pr_angle P) (interp_step gres ires) [x; y; t] (p :: rest) 0 [[x; y; t]] [] []) as B.
      specialize (B ltac:(intros c [<-|[]]; left; reflexivity) p (or_introl eq_refl)). unfold build_page. destruct B as [B|B].
      + exfalso. unfold to_cell in B. injection B as B1 B2 _.
        assert (L0 : forall q, (q == 0)%Q -> lround q = 0%Z).
        { intros q Hq. assert (A1 : (lround q <= lround 0)%Z) by (apply lround_mono; rewrite Hq; apply Qle_refl). assert (A2 : (lround 0 <= lround q)%Z) by (apply lround_mono; rewrite Hq; apply Qle_refl). change (lround 0) with 0%Z in *. lia. }
        rewrite (L0 _ E1) in B1. rewrite (L0 _ E2) in B2. lia.
      + unfold build_page in *. match type of B with In _ (pg_motion ?q) => change (0 < Z.of_nat (length (pg_motion q)))%Z; destruct (pg_motion q); [destruct B|cbn [length]; lia] end.
  Qed.

  (** Costs are never negative, and infinite only for motions exactly sideways. *)
  Lemma euclid_nonneg d : 0 <= euclid3 S G d.
  Proof. unfold euclid3. pose proof (ok_ec0 _ _ _ _ _ _ _ _ _ _ OK). pose proof (Rabs_pos (ec2 G * IZR (vt d))). pose proof (sqrt_pos (IZR (vx d * vx d + vy d * vy d))). nra. Qed.
  Lemma base_nonneg cur d t : 0 <= drive_base S G P cur d t.
  Proof. unfold drive_base. destruct (motion_of _ _ _) as [[mx my] mt]. pose proof (euclid_nonneg d). pose proof (ok_back _ _ _ _ _ _ _ _ _ _ OK). destruct (Rlt_dec mx 0); nra. Qed.
  Lemma ang_pos : 0 < pr_ang P.
  Proof. destruct Sn as (_ & A & _ & ->). pose proof PI_RGT_0. apply IZR_lt in A. apply Rmult_lt_0_compat; [lra|apply Rinv_0_lt_compat; exact A]. Qed.
  Lemma share_nonneg z k w n : (0 <= z)%Z -> 0 <= k -> 0 <= w -> (0 < n)%Z -> 0 <= IZR z * k * w / (100 * IZR n).
  Proof.
    intros Hz Hk Hw Hn. apply IZR_le in Hz. apply IZR_lt in Hn. apply Rmult_le_pos; [|left; apply Rinv_0_lt_compat; lra]. apply Rmult_le_pos; [apply Rmult_le_pos; assumption|exact Hw].
  Qed.
  Lemma turn_value d s : (0 <= s)%Z -> exists r, turn_cost S G P d s = Some r /\ 0 <= r.
  Proof.
    intros Hs. unfold turn_cost. eexists. split; [reflexivity|]. pose proof (euclid_nonneg d). pose proof (ok_turn _ _ _ _ _ _ _ _ _ _ OK). apply IZR_le in Hs. pose proof ang_pos.
    pose proof (ok_wt _ _ _ _ _ _ _ _ _ _ OK). pose proof (ok_wth _ _ _ _ _ _ _ _ _ _ OK). pose proof (ok_ec2 _ _ _ _ _ _ _ _ _ _ OK). pose proof (ok_ec0 _ _ _ _ _ _ _ _ _ _ OK).
    assert (0 <= ec2 G / ec0 S * w_turn_h G) by (apply Rmult_le_pos; [|assumption]; apply Rmult_le_pos; [assumption|left; apply Rinv_0_lt_compat; assumption]).
    assert (0 <= IZR s * (pr_ang P * (w_turn G / 100 + ec2 G / ec0 S * w_turn_h G / 100))) by (apply Rmult_le_pos; [assumption|apply Rmult_le_pos; lra]). lra.
  Qed.
  Lemma motion_ahead i x y t : fst (fst (motion_of P i [x; y; t])) = ahead P i ((x, y), 0%Z).
  Proof.
    unfold motion_of, rotate. cbn [vx vy vt nth fst]. replace (- IZR i * pr_ang P) with (- (heading P i)) by (rewrite <- (ang_step P Sn); ring). rewrite cos_neg, sin_neg. unfold ahead. cbn [fst snd]. ring.
  Qed.
  Lemma straight_value cur x y d2 s h n : (0 <= s)%Z -> (0 <= h)%Z -> (0 < n)%Z ->
    (ahead P (vt cur) ((x, y), 0%Z) <> 0 -> exists r, straight_cost S G P page_dist cur [x; y; d2] s h n = Some r /\ 0 <= r) /\
    (ahead P (vt cur) ((x, y), 0%Z) = 0 -> straight_cost S G P page_dist cur [x; y; d2] s h n = None).
  Proof.
    intros Hs Hh Hn. unfold straight_cost. change (vx [x; y; d2]) with x. change (vy [x; y; d2]) with y. pose proof (motion_ahead (vt cur) x y (vt cur)) as E.
    pose proof (base_nonneg cur [x; y; d2] (vt cur)) as B. destruct (motion_of P (vt cur) [x; y; vt cur]) as [[mx my] mt]. cbn [fst] in E. subst mx.
    destruct (Req_EM_T (ahead P (vt cur) (x, y, 0%Z)) 0) as [Z0|Z0]; [split; [contradiction|reflexivity]|]. split; [intros _|contradiction].
    destruct (Z.eqb_spec n 0); [lia|]. eexists. split; [reflexivity|].
    pose proof (ok_ec2 _ _ _ _ _ _ _ _ _ _ OK) as A1. pose proof ang_pos as A2. pose proof PI_RGT_0 as A3. pose proof (Rabs_pos (my / ahead P (vt cur) (x, y, 0%Z))) as A4.
    assert (A5 : 0 <= ec2 G * Rabs (my / ahead P (vt cur) (x, y, 0%Z)) * pr_ang P / (PI * 2)).
    { apply Rmult_le_pos; [|left; apply Rinv_0_lt_compat; lra]. apply Rmult_le_pos; [apply Rmult_le_pos; assumption|lra]. }
    assert (L : 0 < pr_lin P) by apply Sn. pose proof (ok_dist _ _ _ _ _ _ _ _ _ _ OK (vt cur) [x; y; vt cur]) as Dp.
    assert (A6 : 0 <= pr_lin P * page_dist (vt cur) [x; y; vt cur]) by (apply Rmult_le_pos; lra).
    pose proof (share_nonneg s _ (weight S) n Hs A6 (ok_weight _ _ _ _ _ _ _ _ _ _ OK) Hn) as A7. pose proof (share_nonneg h _ (w_hyst G) n Hh A6 (ok_hyst _ _ _ _ _ _ _ _ _ _ OK) Hn) as A8.
    rewrite <- !Rmult_assoc in A7, A8. lra.
  Qed.
  Lemma curve_value cur d s t h n : (0 <= s)%Z -> (0 <= t)%Z -> (0 <= h)%Z -> (0 < n)%Z -> exists r, curve_cost S G P page_dist cur d s t h n = Some r /\ 0 <= r.
  Proof.
    intros Hs Ht Hh Hn. unfold curve_cost. cbv zeta. set (ey := ((vt cur + vt d) mod pr_angle P)%Z). pose proof (base_nonneg cur d ey) as B.
    destruct (motion_of P (vt cur) [vx d; vy d; ey]) as [[mx my] mt]. destruct (radiuses (mx, my, mt)) as [r1 r2].
    destruct (Z.eqb_spec n 0); [lia|]. eexists. split; [reflexivity|].
    pose proof ang_pos as A2. assert (L : 0 < pr_lin P) by apply Sn. pose proof (ok_dist _ _ _ _ _ _ _ _ _ _ OK (vt cur) [vx d; vy d; ey]) as Dp.
    assert (A6 : 0 <= pr_lin P * page_dist (vt cur) [vx d; vy d; ey]) by (apply Rmult_le_pos; lra).
    pose proof (share_nonneg s _ (weight S) n Hs A6 (ok_weight _ _ _ _ _ _ _ _ _ _ OK) Hn) as A7. pose proof (share_nonneg h _ (w_hyst G) n Hh A6 (ok_hyst _ _ _ _ _ _ _ _ _ _ OK) Hn) as A8.
    assert (A9 : 0 <= pr_ang P * IZR (Z.abs (vt d))) by (apply Rmult_le_pos; [lra|apply IZR_le; lia]).
    pose proof (share_nonneg t _ (w_turn G) n Ht A9 (ok_wt _ _ _ _ _ _ _ _ _ _ OK) Hn) as A10. rewrite <- !Rmult_assoc in A7, A8, A10.
    set (decel := if Rlt_dec (max_ang G * Rabs r1) (max_vel G) then _ else 0).
    assert (0 <= decel).
    { unfold decel. destruct (Rlt_dec _ _); [|lra]. apply Rmult_le_pos; [|exact (ok_decel _ _ _ _ _ _ _ _ _ _ OK)]. apply Rmult_le_pos; [apply sqrt_pos|apply Rabs_pos]. }
    lra.
  Qed.
  Lemma KR_admissible x : admissible_value KR x <-> exists r, x = Some r /\ 0 <= r.
  Proof.
    unfold admissible_value. cbn [KR fltb feqb fzero fmax rltb reqb]. destruct x as [r|]; cbn [rltb reqb].
    - unfold rb. split; [intros [H _]; exists r; split; [reflexivity|]; destruct (Rlt_dec r 0); [discriminate|lra]|]. intros (r' & E & H). injection E as <-. destruct (Rlt_dec r 0); [lra|auto].
    - split; [intros [_ H]; discriminate|intros (r & E & _); discriminate].
  Qed.
  Lemma estim_admissible b e : admissible_value KR (estim3 G P est b e) <-> est (vx b) (vy b) <> None.
  Proof.
    rewrite KR_admissible. unfold estim3. destruct (est (vx b) (vy b)) as [r|] eqn:E.
    - split; [discriminate|]. intros _. eexists. split; [reflexivity|]. pose proof (ok_est _ _ _ _ _ _ _ _ _ _ OK _ _ _ E). pose proof (ok_ec2 _ _ _ _ _ _ _ _ _ _ OK).
      assert (0 <= IZR (Z.abs (yaw_diff P (vt b) (vt e)))) by (apply IZR_le; lia). nra.
    - split; [intros (r & H & _); discriminate|congruence].
  Qed.

  (** The moves of the search are exactly the legal steps. *)
  Theorem C81_moves_are_the_legal_steps ss e a b : valid size a -> move KR 2 size model ss e a b <-> legal (map fst ss) a b.
  Proof.
    intros Va. destruct (valid3 _ _ _ _ Va) as (La & Xa & Ya & Ta). pose proof (ok_a _ _ _ _ _ _ _ _ _ _ OK) as EA. pose proof (ok_angle _ _ _ _ _ _ _ _ _ _ OK) as HA.
    rewrite EA in *. assert (Pos : forall p, (0 <= cm_at mp p)%Z) by (intros p; apply (ok_cm _ _ _ _ _ _ _ _ _ _ OK)). assert (PosH : forall p, (0 <= cm_at (map3 M cm_hyst) p)%Z) by (intros p; apply (ok_cmh _ _ _ _ _ _ _ _ _ _ OK)).
    assert (Fin : forall q, in_range P q -> (Z.abs (fst (fst q)) <= pr_range P /\ Z.abs (snd (fst q)) <= pr_range P)%Z) by (intros q [H _]; assert (0 <= pr_range P)%Z by apply Sn; nia).
    assert (Wrap : forall q, canon unsigned_range 2 (plus a [fst (fst q); snd (fst q); snd q]) [pm_w M; pm_h M; pr_angle P] b <-> b = [vx a + fst (fst q); vy a + snd (fst q); (vt a + snd q) mod pr_angle P]%Z).
    { intros q. rewrite (vec3 a La) at 1. cbn [plus]. rewrite canon3 by lia. reflexivity. }
    assert (Cost : forall q, in_range P q -> b = [vx a + fst (fst q); vy a + snd (fst q); (vt a + snd q) mod pr_angle P]%Z ->
      (forall p, swept cache (pr_angle P) mp a b p -> free mp p) ->
      (admissible_value KR (m_cost model a b ss e) <-> (fst q = (0, 0)%Z \/ (snd q = 0%Z /\ ahead P (vt a) q <> 0) \/ (snd q <> 0%Z /\ in_margin M (pr_range P) (vec_cell a))))).
    { intros q Hq Eb HF. cbn [model3 planner_model m_cost]. destruct (Fin q Hq) as [Q1 Q2]. destruct Hq as [Hq Hq2].
      assert (Bx : (vx b - vx a = fst (fst q))%Z) by (rewrite Eb; cbn; lia). assert (By : (vy b - vy a = snd (fst q))%Z) by (rewrite Eb; cbn; lia).
      assert (Bt : (vt b = (vt a + snd q) mod pr_angle P)%Z) by (rewrite Eb; reflexivity). pose proof (Z.mod_pos_bound (vt a + snd q) (pr_angle P) ltac:(lia)) as Mb.
      assert (Lb : length b = 3%nat) by (rewrite Eb; reflexivity).
      assert (T0 : vt b = vt a <-> snd q = 0%Z). { rewrite Bt. split; [|intros ->; rewrite Z.add_0_r; apply Z.mod_small; lia]. intros H. pose proof (Z.div_mod (vt a + snd q) (pr_angle P) ltac:(lia)) as Dm. rewrite H in Dm. revert Dm. generalize ((vt a + snd q) / pr_angle P)%Z. clear - Hq2. intros k Dm. assert (k = 0 \/ k <= -1 \/ 1 <= k)%Z as [->|[K|K]] by lia; [lia|nia..]. }
      pose proof (cost3_of_free KR mp (map3 M cm_hyst) hyst (turn_threshold G) cache (pr_range P) band top (plan_costs S G P page_dist)) as CF.
      cbn [cm_w cm_h cm_a map3] in CF. rewrite EA in CF. specialize (CF eq_refl eq_refl eq_refl Pos PosH a b ltac:(lia) La Lb ltac:(lia) ltac:(lia) HF).
      destruct CF as (d2 & _ & _ & D0 & CF). cbv zeta in CF. rewrite Bx, By in CF.
      destruct ((vx b =? vx a) && (vy b =? vy a))%Z%bool eqn:Exy.
      { destruct CF as (s & Hs & Ec). rewrite Ec. cbn [plan_costs n_turn]. destruct (turn_value [fst (fst q); snd (fst q); d2] s Hs) as (r & -> & Hr). rewrite KR_admissible. split; [|eauto].
        intros _. left. destruct q as [[qx qy] qt]. cbn [fst snd] in *. f_equal; lia. }
      assert (Nz : fst q <> (0, 0)%Z) by (intros E; rewrite E in Bx, By; cbn [fst snd] in Bx, By; lia).
      destruct (has_page (vt a) (fst (fst q)) (snd (fst q)) (vt b)) as (pg & Ep & Hn); [lia|lia| |exact Hq|]. { intros [E1 E2]. apply Nz. destruct q as [[qx qy] qt]. cbn [fst snd] in *. subst. reflexivity. }
      rewrite Ep in CF. destruct (Z.eqb_spec d2 0) as [Ed|Ed].
      - assert (Sq : snd q = 0%Z) by (apply T0, D0; exact Ed). destruct CF as (s & h & Hs & Hh & Ec). rewrite Ec. cbn [plan_costs n_straight].
        destruct (straight_value a (fst (fst q)) (snd (fst q)) d2 s h _ Hs Hh Hn) as [V1 V2]. assert (Eq : ahead P (vt a) q = ahead P (vt a) (fst (fst q), snd (fst q), 0%Z)) by reflexivity. rewrite Eq.
        rewrite KR_admissible. split.
        + intros (r & Er & _). right. left. split; [exact Sq|]. intros Z0. rewrite (V2 Z0) in Er. discriminate.
        + intros [E|[[_ E]|[E _]]]; [contradiction|apply V1; exact E|contradiction].
      - assert (Sq : snd q <> 0%Z) by (intros E; apply Ed, D0, T0; exact E).
        assert (Bm : in_margin M (pr_range P) (vec_cell a) <-> ((vx band <=? vx a) && (vx a <? vx top) && (vy band <=? vy a) && (vy a <? vy top))%Z = true).
        { rewrite band_margin. unfold in_margin, vec_cell. cbn [fst snd]. rewrite EA. intuition lia. }
        destruct (_ && (vy a <? vy top))%Z%bool eqn:Eb'.
        + destruct CF as (s & t & h & Hs & Ht & Hh & Ec). rewrite Ec. cbn [plan_costs n_curve]. destruct (curve_value a [fst (fst q); snd (fst q); d2] s t h _ Hs Ht Hh Hn) as (r & -> & Hr). rewrite KR_admissible. split; [|eauto].
          intros _. right. right. split; [exact Sq|apply Bm; reflexivity].
        + rewrite CF. split.
          * intros Hadm. apply KR_admissible in Hadm as (r & Er & Hr). cbn in Er. injection Er as <-. lra.
          * intros [E|[[E _]|[_ E]]]; [contradiction|contradiction|]. apply Bm in E. discriminate. }
    split.
    - intros ((d & Hd & Hc) & Vb & He & Hco). cbn [model3 planner_model m_searchGrids m_costEstim] in Hd, He. apply (grids_iff a ss e d Ta) in Hd as (q & -> & Hq & D1 & D2).
      apply Wrap in Hc. apply estim_admissible in He. destruct (Fin q Hq) as [Q1 Q2].
      destruct (valid3 _ _ _ _ Vb) as (Lb & Xb & Yb & Tb).
      assert (HF : forall p, swept cache (pr_angle P) mp a b p -> free mp p).
      { assert (Df : exists c, cost3 KR mp (map3 M cm_hyst) hyst (turn_threshold G) cache (pr_angle P) (pr_range P) band top (plan_costs S G P page_dist) a b = Ok c).
        { apply (cost3_defined KR mp (map3 M cm_hyst) hyst (turn_threshold G) cache (pr_angle P) (pr_range P) band top _ (tried_by (pr_angle P) (grids3 P local_range))); try reflexivity; try exact La; try lia.
          - cbn [map3 cm_a]. congruence.
          - cbn [map3 cm_a]. rewrite EA. exact cache_fit.
          - exists a, ss, e, [fst (fst q); snd (fst q); snd q]. split; [apply (grids_iff a ss e _ Ta); exists q; auto|]. split; [reflexivity|]. rewrite Hc. cbn [vx vy vt nth]. f_equal; [lia|]. f_equal; lia.
          - unfold cm_inside. cbn [map3 cm_w cm_h cm_a]. lia.
          - unfold cm_inside. cbn [map3 cm_w cm_h cm_a]. lia.
          - rewrite Hc. cbn [vx nth]. lia.
          - rewrite Hc. cbn [vy nth]. lia. }
        destruct Df as [c Ec]. destruct Hco as [Hneg _]. cbn [model3 planner_model m_cost] in Hneg. unfold model3, planner_model in Hneg. cbn [m_cost] in Hneg. rewrite Ec in Hneg.
        apply (cost3_free KR KR_laws mp (map3 M cm_hyst) hyst (turn_threshold G) cache (pr_angle P) (pr_range P) band top _ a b c La Lb ltac:(lia) Ec Hneg). }
      apply (Cost q Hq Hc HF) in Hco. exists q. split; [exact Hq|]. split; [exact Hc|]. split; [exact D1|]. split.
      { intros Nn. specialize (D2 Nn). split; [exact D2|]. destruct Hco as [E|[[_ E]|[E _]]]; [left; exact E|right; exact E|contradiction]. }
      split; [|split; [exact HF|exact He]]. intros Nz Nt. destruct Hco as [E|[[E _]|[_ E]]]; [contradiction|contradiction|exact E].
    - intros (q & Hq & Hc & D1 & D2 & D3 & HF & He). split; [|split; [|split]].
      + exists [fst (fst q); snd (fst q); snd q]. split; [|apply Wrap; exact Hc]. cbn [model3 planner_model m_searchGrids]. apply (grids_iff a ss e _ Ta). exists q. split; [reflexivity|]. split; [exact Hq|]. split; [exact D1|]. intros Nn. apply D2. exact Nn.
      + pose proof (HF _ (sw_end _ _ _ _ _)) as (X & Y & T & _). cbn [map3 cm_w cm_h cm_a] in X, Y, T. rewrite EA in T. rewrite Hc in *. apply valid_vec. cbn [vx vy vt nth] in *. auto.
      + cbn [model3 planner_model m_costEstim]. apply estim_admissible. exact He.
      + apply (Cost q Hq Hc HF). destruct (Z.eq_dec (snd q) 0) as [Z0|Z0].
        * destruct (near_start local_range ss a) eqn:En.
          -- apply near_iff in En. destruct (D1 En) as [[_ H]|[(_ & H & _)|(H & _)]]; [contradiction| |contradiction]. right. left. split; [exact Z0|]. intros Ez. rewrite Ez, Rabs_R0 in H. assert (0 < pr_lin P) by apply Sn. lra.
          -- assert (Nn : ~ near (map fst ss) a) by (rewrite <- near_iff; congruence). destruct (D2 Nn) as [_ [E|E]]; auto.
        * assert (E : fst q = (0, 0)%Z \/ fst q <> (0, 0)%Z) by (destruct q as [[qx qy] qt]; cbn [fst]; destruct (Z.eq_dec qx 0), (Z.eq_dec qy 0); [left; congruence|right; congruence..]).
          destruct E as [E|E]; [left; exact E|]. right. right. auto.
  Qed.
End Moves.
