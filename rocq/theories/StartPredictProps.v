(** C62: planning from a pose of the previous path. *)
From Coq Require Import Reals Lra Lia Psatz ZifyBool.
From Flocq Require Import Core.
From Verif Require Import Common CyclicVec CyclicVecSpec CyclicVecProofs CostAlg DistMap Overlay GridMetric GridMetricProps
  Path2D Path2DProps PathGeom PathGeomProps StartPredict.
Local Open Scope R_scope.

(** * Specification *)
(** A pose lies in a cell: the square of the cell, and the sector of its orientation up to full turns. *)
Definition pose_in_cell (M : pmap) (p : pose2) (c : cell3) : Prop :=
  in_cell (pm_info M) (fst (fst c)) (snd (fst c)) (p_x p) (p_y p) /\
  (0 <= snd c < pm_a M)%Z /\ exists k, in_sector (pm_info M) (snd c + k * pm_a M) (p_yaw p).
Definition inside_map (M : pmap) (c : cell3) : Prop :=
  (0 <= fst (fst c) < pm_w M /\ 0 <= snd (fst c) < pm_h M /\ 0 <= snd c < pm_a M)%Z.
(** The centre of a cell, up to a thousandth of the resolution. *)
Definition at_centre (M : pmap) (p : pose2) : Prop :=
  exists x y t : Z,
    Rabs (p_x p - (mi_ox (pm_info M) + (IZR x + 1/2) * mi_res (pm_info M))) < mi_res (pm_info M) / 1000 /\
    Rabs (p_y p - (mi_oy (pm_info M) + (IZR y + 1/2) * mi_res (pm_info M))) < mi_res (pm_info M) / 1000 /\
    Rabs (p_yaw p - IZR t * mi_ang (pm_info M)) < mi_ang (pm_info M) / 1000.
(** [q] is the point closest to the robot on the path up to the tolerance of the search (C59), on the strip that ends at pose [i], and within the
    stop distance. *)
Definition closest_strip (C : pcfg) (robot : pose2) (l : list pose2) (i : nat) (q : R * R) : Prop :=
  (0 < i < length l)%nat /\ on_strip l i q /\ dist2 q (pos robot) <= dist_stop C /\
  forall j q', (0 < j < length l)%nat -> on_strip l j q' -> dist2 q (pos robot) <= dist2 q' (pos robot) + INR (length l - 1 - j) * eps6.
(** Time at which the robot reaches pose [i] of the path [l] at the given speeds (C53), when it first has to get
    to the first pose. *)
Definition first_arrival (C : pcfg) (robot p : pose2) : R :=
  Rmax (Rabs (turn_angle p robot) / ang_vel C) (euclid p robot / lin_vel C).
Fixpoint arrival (C : pcfg) (robot : pose2) (l : list pose2) (i : nat) : R :=
  match i with
  | O => first_arrival C robot (nth 0 l p0)
  | S i' =>
      arrival C robot l i' +
      (if Rlt_dec (1/1000000) (euclid (nth i' l p0) (nth i l p0)) then euclid (nth i' l p0) (nth i l p0) / lin_vel C
       else turn_angle (nth i' l p0) (nth i l p0) / ang_vel C)
  end.
(** The pose from which the next plan starts: the pose before the first reversal [g] (C40) that is the centre of a cell and is reached in the
    window of time, else the first centre after the prediction time, else the end of the path. *)
Definition chosen (C : pcfg) (M : pmap) (robot : pose2) (l : list pose2) (i : nat) : Prop :=
  let window j := at_centre M (nth j l p0) /\ prediction C < arrival C robot l j < switch_back C in
  let late j := at_centre M (nth j l p0) /\ prediction C < arrival C robot l j in
  exists gs, (forall g, In g gs <-> (2 <= g < length l)%nat /\ switch_at l eps6 g /\ ~ In (g - 1)%nat gs) /\
  ((In (S i) gs /\ window i /\ forall g, In g gs -> (g < S i)%nat -> ~ window (g - 1)%nat) \/
   ((forall g, In g gs -> ~ window (g - 1)%nat) /\
    (((S i < length l)%nat /\ late i /\ forall j, (j < i)%nat -> ~ late j) \/
     (S i = length l /\ forall j, (S j < length l)%nat -> ~ late j)))).
(** The previous path, cut at the robot and at the start of the next plan: everything before the strip closest to the robot is passed (but nothing if the first
    pose is the closest point), and the plan starts at the chosen pose [p]. *)
Definition cut (C : pcfg) (M : pmap) (robot : pose2) (l passed kept : list pose2) (p : pose2) (rest : list pose2) : Prop :=
  l = passed ++ kept ++ p :: rest /\
  (length l = 1%nat /\ passed = [] \/
   exists i q, closest_strip C robot l i q /\
     (length passed = if Nat.eqb i 1 then if Rlt_dec (Rabs (dist2 (xy l 0) (pos robot) - dist2 q (pos robot))) eps6 then 0 else 1 else i)%nat) /\
  chosen C M robot (kept ++ p :: rest) (length kept).

(** * Cells and centres *)
Lemma pose_cell_ok M p (c : cell3) : 0 < mi_res (pm_info M) -> 0 < mi_ang (pm_info M) -> (0 < pm_a M)%Z ->
  pose_cell M p = Ok c -> pose_in_cell M p c.
Proof.
  intros Hr Ha HA E. unfold pose_cell in E. destruct (metric2Grid _ _ _ _ _ _) as [[[x y] t]|] eqn:G; [|discriminate E].
  cbn [bind fst snd] in E. destruct (cycleUnsignedElement t (pm_a M)) as [u|] eqn:U; [|discriminate E]. cbn [bind] in E.
  injection E as <-. apply cycleUnsignedElement_iff in U as [[k K] R]; [|exact HA].
  destruct (C18_position_converts_to_its_cell _ _ _ _ _ _ _ Hr Ha G) as [A B].
  split; [exact A|]. split; [exact R|]. exists (- k)%Z. cbn [fst snd]. replace (u + - k * pm_a M)%Z with t by lia. exact B.
Qed.
Lemma pose_cell_def M p (c : cell3) : 0 < mi_res (pm_info M) -> (0 < pm_a M)%Z -> int32 (fst (fst c)) -> int32 (snd (fst c)) ->
  in_cell (pm_info M) (fst (fst c)) (snd (fst c)) (p_x p) (p_y p) ->
  exists t, pose_cell M p = Ok (fst c, t) /\ (0 <= t < pm_a M)%Z.
Proof.
  intros Hr HA I1 I2 H. destruct (C18_cell_is_found _ _ _ (p_yaw p) _ _ Hr I1 I2 H) as [t E].
  unfold pose_cell. rewrite E. cbn [bind fst snd]. destruct (cycleUnsignedElement_spec t (pm_a M) HA) as (u & -> & _ & R).
  exists u. cbn [bind]. split; [destruct c as [[? ?] ?]; reflexivity|exact R].
Qed.
Lemma off_integer_spec x d : 0 < d < 1/2 -> (off_integer x < d <-> exists n : Z, Rabs (x - IZR n) < d).
Proof.
  intros Hd. unfold off_integer. split; [intros H; eexists; exact H|].
  intros [n Hn]. replace (Znearest (Z.leb 0) x) with n; [exact Hn|]. symmetry. apply Znearest_imp. lra.
Qed.
Lemma centre_iff M p : 0 < mi_res (pm_info M) -> 0 < mi_ang (pm_info M) -> (isGridCenter M p = true <-> at_centre M p).
Proof.
  intros Hr Ha. unfold isGridCenter, metric2GridF, exact, at_centre.
  assert (K : forall g o r (n : Z), 0 < r -> (Rabs ((g - o) / r - 1/2 - IZR n) < 1/1000 <-> Rabs (g - (o + (IZR n + 1/2) * r)) < r / 1000)).
  { intros g o r n R. replace (g - (o + (IZR n + 1/2) * r)) with (((g - o) / r - 1/2 - IZR n) * r) by (field; lra).
    rewrite Rabs_mult, (Rabs_pos_eq r) by lra. split; intros H.
    - replace (r / 1000) with (1/1000 * r) by field. apply Rmult_lt_compat_r; assumption.
    - apply Rmult_lt_reg_r with r; [assumption|]. lra. }
  assert (KT : forall g r (n : Z), 0 < r -> (Rabs (g / r - IZR n) < 1/1000 <-> Rabs (g - IZR n * r) < r / 1000)).
  { intros g r n R. replace (g - IZR n * r) with ((g / r - IZR n) * r) by (field; lra).
    rewrite Rabs_mult, (Rabs_pos_eq r) by lra. split; intros H.
    - replace (r / 1000) with (1/1000 * r) by field. apply Rmult_lt_compat_r; assumption.
    - apply Rmult_lt_reg_r with r; [assumption|]. lra. }
  assert (D : 0 < 1/1000 < 1/2) by lra.
  split.
  - destruct (Rlt_dec _ _) as [X|]; [|discriminate]. destruct (Rlt_dec _ _) as [Y|]; [|discriminate].
    destruct (Rlt_dec _ _) as [T|]; [|discriminate]. intros _.
    apply (off_integer_spec _ _ D) in X as [x X], Y as [y Y], T as [t T].
    exists x, y, t. split; [apply K; assumption|]. split; [apply K; assumption|apply KT; assumption].
  - intros (x & y & t & X & Y & T). apply K in X, Y; [|assumption..]. apply KT in T; [|assumption].
    destruct (Rlt_dec _ _) as [_|N]; [|exfalso; apply N; apply off_integer_spec; eauto].
    destruct (Rlt_dec _ _) as [_|N]; [|exfalso; apply N; apply off_integer_spec; eauto].
    destruct (Rlt_dec _ _) as [_|N]; [reflexivity|exfalso; apply N; apply off_integer_spec; eauto].
Qed.

(** * The parts *)
Lemma etas_length lin ang e l : length (etas lin ang e l) = length l.
Proof.
  destruct l as [|p l]; [reflexivity|]. cbn [etas length]. f_equal. revert p e.
  induction l as [|q l IH]; intros p e; [reflexivity|]. cbn [eta_loop length]. rewrite IH. reflexivity.
Qed.
Lemma eta_ok ts i : (i < length ts)%nat -> eta_at ts i = Ok (nth i ts 0).
Proof. intros H. unfold eta_at. rewrite (nth_error_nth' ts 0 H). reflexivity. Qed.
Lemma at_nth l i : (i < length l)%nat -> Path2D.at_ l i = Ok (nth i l p0).
Proof. intros H. unfold Path2D.at_. rewrite (nth_error_nth' l p0 H). reflexivity. Qed.

Section Choice.
  Variables (C : pcfg) (M : pmap) (l : list pose2) (ts : list R).
  Hypothesis Hts : length ts = length l.
  Definition in_window (i : nat) : Prop :=
    isGridCenter M (nth i l p0) = true /\ prediction C < nth i ts 0 < switch_back C.
  Lemma sb_loop_spec gs : (forall g, In g gs -> (0 < g < length l)%nat) ->
    exists r, sb_loop C M l ts gs = Ok r /\
      match r with
      | Some i => (exists g1 g2, gs = g1 ++ S i :: g2 /\ forall g, In g g1 -> ~ in_window (g - 1)) /\ in_window i
      | None => forall g, In g gs -> ~ in_window (g - 1)
      end.
  Proof.
    induction gs as [|g gs IH]; intros H; cbn [sb_loop].
    - exists None. split; [reflexivity|]. intros ? [].
    - pose proof (H g (or_introl eq_refl)) as Hg. rewrite eta_ok by lia. cbn [bind]. rewrite at_nth by lia. cbn [bind].
      destruct (IH (fun x Hx => H x (or_intror Hx))) as (r & Er & Sr).
      assert (Skip : ~ in_window (g - 1) -> exists r, sb_loop C M l ts gs = Ok r /\
        match r with
        | Some i => (exists g1 g2, g :: gs = g1 ++ S i :: g2 /\ forall x, In x g1 -> ~ in_window (x - 1)) /\ in_window i
        | None => forall x, In x (g :: gs) -> ~ in_window (x - 1)
        end).
      { intros N. exists r. split; [exact Er|]. destruct r as [i|].
        - destruct Sr as [(g1 & g2 & -> & G) W]. split; [|exact W]. exists (g :: g1), g2. split; [reflexivity|].
          intros x [<-|Hx]; [exact N|apply G; exact Hx].
        - intros x [<-|Hx]; [exact N|apply Sr; exact Hx]. }
      destruct (isGridCenter M (nth (g - 1) l p0)) eqn:Ec; [|apply Skip; intros [? _]; congruence].
      destruct (Rlt_dec (prediction C) _) as [P|P]; [|apply Skip; intros [_ ?]; lra].
      destruct (Rlt_dec _ (switch_back C)) as [Q|Q]; [|apply Skip; intros [_ ?]; lra].
      exists (Some (g - 1)%nat). split; [reflexivity|]. split; [|split; [exact Ec|lra]].
      exists [], gs. split; [cbn [app]; f_equal; lia|intros ? []].
  Qed.
  Lemma ep_loop_spec n i : (i + n < length l)%nat ->
    exists r, ep_loop C M l ts n i = Ok r /\
      let good j := isGridCenter M (nth j l p0) = true /\ prediction C < nth j ts 0 in
      match r with
      | Some j => (i <= j < i + n)%nat /\ good j /\ forall k, (i <= k < j)%nat -> ~ good k
      | None => forall k, (i <= k < i + n)%nat -> ~ good k
      end.
  Proof.
    cbv zeta. revert i. induction n as [|n IH]; intros i H; cbn [ep_loop].
    - exists None. split; [reflexivity|]. intros; lia.
    - rewrite eta_ok by lia. cbn [bind].
      destruct (IH (S i) ltac:(lia)) as (r & Er & Sr).
      assert (Skip : ~ (isGridCenter M (nth i l p0) = true /\ prediction C < nth i ts 0) -> exists r, ep_loop C M l ts n (S i) = Ok r /\
        match r with
        | Some j => (i <= j < i + S n)%nat /\ (isGridCenter M (nth j l p0) = true /\ prediction C < nth j ts 0) /\
            forall k, (i <= k < j)%nat -> ~ (isGridCenter M (nth k l p0) = true /\ prediction C < nth k ts 0)
        | None => forall k, (i <= k < i + S n)%nat -> ~ (isGridCenter M (nth k l p0) = true /\ prediction C < nth k ts 0)
        end).
      { intros N. exists r. split; [exact Er|]. destruct r as [j|].
        - destruct Sr as (A & B & D). split; [lia|]. split; [exact B|]. intros k Hk.
          destruct (Nat.eq_dec k i) as [->|]; [exact N|]. apply D. lia.
        - intros k Hk. destruct (Nat.eq_dec k i) as [->|]; [exact N|]. apply Sr. lia. }
      destruct (Rlt_dec (prediction C) _) as [P|P]; [|apply Skip; intros [_ ?]; lra].
      rewrite at_nth by lia. cbn [bind]. destruct (isGridCenter M (nth i l p0)) eqn:Ec; [|apply Skip; intros [? _]; congruence].
      exists (Some i). split; [reflexivity|]. split; [lia|]. split; [auto|]. intros; lia.
  Qed.
End Choice.

Lemma etas_arrival C robot l i : (i < length l)%nat ->
  nth i (etas (lin_vel C) (ang_vel C) (initial_eta C robot (nth 0 l p0)) l) 0 = arrival C robot l i.
Proof.
  destruct l as [|p l]; [cbn; lia|]. intros H. cbn [etas]. revert H. induction i as [|i IH]; intros H; [reflexivity|].
  cbn [arrival]. rewrite <- IH by lia. clear IH.
  assert (G : forall l p e i, (i < length l)%nat ->
    nth i (eta_loop (lin_vel C) (ang_vel C) e p l) 0 = nth i (e :: eta_loop (lin_vel C) (ang_vel C) e p l) 0 +
      (if Rlt_dec (1/1000000) (euclid (nth i (p :: l) p0) (nth i l p0)) then euclid (nth i (p :: l) p0) (nth i l p0) / lin_vel C
       else turn_angle (nth i (p :: l) p0) (nth i l p0) / ang_vel C)).
  { clear. induction l as [|q l IH]; intros p e i H; [cbn in H; lia|]. cbn [eta_loop].
    destruct i as [|i].
    - cbn [nth]. change (norm2 p q) with (euclid p q). destruct (Rlt_dec _ _); reflexivity.
    - cbn [length] in H. cbn [nth]. rewrite IH by lia. reflexivity. }
  change (nth (S i) (?a :: ?b) 0) with (nth i b 0). rewrite G by (cbn in H; lia). reflexivity.
Qed.
Lemma increasing_split (gs g1 g2 : list nat) (x : nat) : (forall a p q b, gs = a ++ p :: q :: b -> (p < q)%nat) -> gs = g1 ++ x :: g2 ->
  forall g, In g gs -> (g < x)%nat -> In g g1.
Proof.
  intros Inc E g Hg Lt. rewrite E in Hg. apply in_app_or in Hg as [Hg|[->|Hg]]; [exact Hg|lia|].
  exfalso. assert (K : forall g2 g1 x, gs = g1 ++ x :: g2 -> forall y, In y g2 -> (x < y)%nat).
  { induction g0 as [|z g0 IH]; intros g1' x' E' y Hy; [destruct Hy|].
    pose proof (Inc _ _ _ _ E') as L. destruct Hy as [<-|Hy]; [exact L|].
    specialize (IH (g1' ++ [x']) z ltac:(rewrite <- app_assoc; exact E') y Hy). lia. }
  specialize (K g2 g1 x E g Hg). lia.
Qed.

Section Run.
  Variables (C : pcfg) (M : pmap) (cm : cell3 -> Z) (robot : pose2).
  Hypothesis Hr : 0 < mi_res (pm_info M).
  Hypothesis Ha : 0 < mi_ang (pm_info M).
  Hypothesis HA : (0 < pm_a M)%Z.

  Lemma choose l p : l <> [] -> nth 0 l p0 = p ->
    let ts := etas (lin_vel C) (ang_vel C) (initial_eta C robot p) l in
    exists i, (do sb <- getSwitchBack C M l ts;
            match sb with
            | Some i => buildResults M cm l i
            | None =>
                do ep <- getExpectedPose C M l ts;
                match ep with
                | Some i => buildResults M cm l i
                | None => buildResults M cm l (length l - 1)
                end
            end) = buildResults M cm l i /\ (i < length l)%nat /\ chosen C M robot l i.
  Proof.
    intros Hl Hp ts. assert (L : length ts = length l) by apply etas_length.
    assert (N : (0 < length l)%nat) by (destruct l; [congruence|cbn; lia]).
    assert (AR : forall j, (j < length l)%nat -> nth j ts 0 = arrival C robot l j).
    { intros j Hj. unfold ts. rewrite <- Hp. apply etas_arrival. exact Hj. }
    assert (CE : forall j, isGridCenter M (nth j l p0) = true <-> at_centre M (nth j l p0)) by (intros; apply centre_iff; assumption).
    destruct (C40_local_goals_exact l true false eps6 0 (length l) N (le_n _)) as (gs & G & Inc & Gin).
    unfold getSwitchBack. rewrite G.
    destruct (sb_loop_spec C M l ts L gs) as (r & -> & Sr).
    { intros g Hg. apply Gin in Hg as [? _]. lia. }
    assert (Gin' : forall g, In g gs <-> (2 <= g < length l)%nat /\ switch_at l eps6 g /\ ~ In (g - 1)%nat gs).
    { intros g. rewrite Gin. split.
      - intros [? [[? _]|(_ & ? & ? & ?)]]; [discriminate|]. repeat split; try assumption; try lia; try apply H1.
      - intros (? & ? & ?). split; [lia|]. right. split; [reflexivity|]. split; [lia|]. split; assumption. }
    unfold in_window in Sr. cbn [bind]. destruct r as [i|].
    - destruct Sr as [(g1 & g2 & E & F) W]. exists i. split; [reflexivity|].
      assert (I : In (S i) gs) by (rewrite E; apply in_elt). assert (I' := I). apply Gin' in I' as [I' _].
      split; [lia|]. exists gs. split; [exact Gin'|]. left. split; [exact I|].
      rewrite CE, AR in W by lia. split; [exact W|]. intros g Hg Lt. specialize (F g (increasing_split gs g1 g2 (S i) Inc E g Hg Lt)).
      rewrite CE, AR in F by lia. exact F.
    - destruct (ep_loop_spec C M l ts L (length l - 1) 0 ltac:(lia)) as (r & E & Sp). cbv zeta in Sp. unfold getExpectedPose. rewrite E. cbn [bind].
      assert (NW : forall g, In g gs -> ~ (at_centre M (nth (g - 1) l p0) /\ prediction C < arrival C robot l (g - 1) < switch_back C)).
      { intros g Hg. specialize (Sr g Hg). apply Gin' in Hg as [Hg _]. rewrite CE, AR in Sr by lia. exact Sr. }
      destruct r as [j|].
      + destruct Sp as (A & B & D). exists j. split; [reflexivity|]. split; [lia|]. exists gs. split; [exact Gin'|]. right. split; [exact NW|].
        left. split; [lia|]. rewrite CE, AR in B by lia. split; [exact B|]. intros k Hk. specialize (D k ltac:(lia)). rewrite CE, AR in D by lia. exact D.
      + exists (length l - 1)%nat. split; [reflexivity|]. split; [lia|]. exists gs. split; [exact Gin'|]. right. split; [exact NW|].
        right. split; [lia|]. intros k Hk. specialize (Sp k ltac:(lia)). rewrite CE, AR in Sp by lia. exact Sp.
  Qed.

  Lemma colliding_spec l b : isPathColliding M cm l = Ok b ->
    if b then exists q c, In q l /\ pose_in_cell M q c /\ inside_map M c /\ cm c = 100%Z
    else forall q, In q l -> exists c, pose_in_cell M q c /\ inside_map M c /\ cm c <> 100%Z.
  Proof.
    induction l as [|p l IH]; cbn [isPathColliding]; intros E.
    - injection E as <-. intros ? [].
    - destruct (pose_cell M p) as [c|] eqn:Ec; [|discriminate E]. cbn [bind] in E.
      unfold read_cm in E. destruct (cell_inside M c) eqn:Ei; [|discriminate E]. cbn [bind] in E.
      assert (I : inside_map M c) by (unfold cell_inside in Ei; unfold inside_map; lia).
      pose proof (pose_cell_ok M p c Hr Ha HA Ec) as P.
      destruct (Z.eqb_spec (cm c) 100) as [H|H].
      + injection E as <-. exists p, c. repeat split; try assumption; try apply P; try apply I. left; reflexivity.
      + specialize (IH E). destruct b.
        * destruct IH as (q & c' & Q & R). exists q, c'. split; [right; exact Q|exact R].
        * intros q [<-|Hq]; [exists c; auto|apply IH; exact Hq].
  Qed.

  (** What remains after the passed poses are dropped, and when nothing does. *)
  Lemma removed_spec l : l <> [] ->
    exists k d, (k < length l)%nat /\
      removeAlreadyPassed C robot l = Ok (if Rlt_dec (dist_stop C) d then None else Some (skipn k l)) /\
      (exists q, (exists j, (j < length l)%nat /\ on_seg (xy l (j - 1)) (xy l j) q) /\ dist2 q (pos robot) <= d <= dist2 q (pos robot) + eps6) /\
      (forall j q, (0 < j < length l)%nat -> on_strip l j q -> d <= dist2 q (pos robot) + INR (length l - 1 - j) * eps6) /\
      (k = 0%nat /\ (length l = 1%nat \/ (2 <= length l)%nat /\ exists q, on_strip l 1 q /\ d = dist2 q (pos robot) /\ Rabs (dist2 (xy l 0) (pos robot) - d) < eps6) \/
       (0 < k)%nat /\ exists q, on_strip l k q /\ d = dist2 q (pos robot) /\ (k = 1%nat -> eps6 <= Rabs (dist2 (xy l 0) (pos robot) - d))).
  Proof.
    intros Hl. unfold removeAlreadyPassed. destruct l as [|a [|b l']]; [congruence| |].
    - destruct (C59_degenerate_ranges [a] (pos robot) 0 0 eps6) as [E _]. specialize (E ltac:(cbn; lia)).
      change (length [a]) with (0 + 1)%nat. rewrite E. cbn [bind snd]. exists 0%nat, (dist2 (xy [a] 0) (pos robot) + eps6).
      split; [cbn; lia|]. split.
      + destruct (Rlt_dec _ _); [reflexivity|]. reflexivity.
      + split; [|split; [cbn [length Nat.add]; intros; lia|left; split; [reflexivity|left; reflexivity]]].
        exists (xy [a] 0). split; [exists 0%nat; split; [cbn; lia|exists 0; cbn [Nat.sub]; repeat split; lra]|].
        unfold eps6. lra.
    - set (l := a :: b :: l') in *.
      assert (E6 : 0 <= eps6) by (unfold eps6; lra).
      destruct (C59_nearest_strip l (pos robot) 0 (length l) 0 eps6 ltac:(cbn; lia) (le_n _) E6 (or_introl (Rle_refl 0)))
        as (i & d & -> & I & _ & Q & B).
      cbn [bind fst snd]. 
      assert (QQ : exists q, (exists j, (j < length l)%nat /\ on_seg (xy l (j - 1)) (xy l j) q) /\ dist2 q (pos robot) <= d <= dist2 q (pos robot) + eps6).
      { destruct Q as (q & Q1 & Q2). exists q. split; [exists i; split; [lia|exact Q1]|lra]. }
      assert (BB : forall j q, (0 < j < length l)%nat -> on_strip l j q -> d <= dist2 q (pos robot) + INR (length l - 1 - j) * eps6).
      { intros j q Hj Hq. apply B; [lia|left; lra|exact Hq]. }
      change (length l =? 1)%nat with false. rewrite (at_nth l 0) by (cbn; lia). cbn [bind].
      exists (if (if (i =? 1)%nat then if Rlt_dec (Rabs (norm2 robot (nth 0 l p0) - d)) eps6 then true else false else false) then 0 else i)%nat, d.
      split; [destruct (if (i =? 1)%nat then _ else _); cbn; cbn in I; lia|].
      split.
      + destruct (Rlt_dec (dist_stop C) d); [reflexivity|].
        destruct (i =? 1)%nat; cbn [bind]; [destruct (Rlt_dec _ eps6)|]; reflexivity.
      + split; [exact QQ|]. split; [exact BB|].
        assert (D0 : norm2 robot (nth 0 l p0) = dist2 (xy l 0) (pos robot)).
        { unfold norm2, dist2, xy, pos, sq. cbn [fst snd]. f_equal. unfold Rsqr. ring. }
        destruct Q as (q & Q1 & Q2). rewrite D0. destruct (Nat.eqb_spec i 1) as [I1|I1].
        * destruct (Rlt_dec _ eps6) as [L|L].
          -- left. split; [reflexivity|]. right. split; [cbn; lia|]. exists q. rewrite <- I1. auto.
          -- right. split; [lia|]. exists q. split; [exact Q1|]. split; [exact Q2|]. intros _. lra.
        * right. split; [lia|]. exists q. split; [exact Q1|]. split; [exact Q2|]. intros; lia.
  Qed.

  Lemma cut_spec msg : let l0 := fromMsg eps6 msg in l0 <> [] ->
    (forall j q, (0 < j < length l0)%nat -> on_strip l0 j q -> dist_stop C < dist2 q (pos robot) + INR (length l0) * eps6) /\
      process C M cm robot msg = Ok None \/
    exists passed kept p rest, cut C M robot l0 passed kept p rest /\
      process C M cm robot msg =
      (do col <- isPathColliding M cm kept;
       if col then Ok None else do c <- pose_cell M p; Ok (Some (Started c kept (polyline (kept ++ [p]))))).
  Proof.
    intros l0 N0. unfold process. fold l0. destruct l0 as [|a0 l0'] eqn:El0; [congruence|]. cbv beta iota zeta. rewrite <- El0 in *.
    destruct (removed_spec l0 N0) as (k & d & Hk & R & _ & B & K). rewrite R.
    destruct (Rlt_dec (dist_stop C) d) as [Hd|Hd].
    - left. split; [|reflexivity]. intros j q Hj Hq. specialize (B j q Hj Hq).
      assert (INR (length l0 - 1 - j) * eps6 <= INR (length l0) * eps6).
      { apply Rmult_le_compat_r; [unfold eps6; lra|]. apply le_INR. lia. } lra.
    - right. cbn [bind]. set (l := skipn k l0) in *. assert (NL : l <> []).
      { intros Z. apply (f_equal (@length _)) in Z. unfold l in Z. rewrite skipn_length in Z. cbn in Z. lia. }
      rewrite (at_nth l 0) by (destruct l; [congruence|cbn; lia]). cbn [bind].
      destruct (choose l (nth 0 l p0) NL eq_refl) as (i & Ei & Hi & Ch). cbv zeta in Ei |- *. rewrite Ei. clear Ei.
      assert (F : firstn (S i) l = firstn i l ++ [nth i l p0]).
      { clear - Hi. revert i Hi. induction l as [|x l IH]; intros [|i] Hi; cbn in *; try lia; [reflexivity|]. rewrite <- IH by lia. reflexivity. }
      assert (RL : removelast (firstn (S i) l) = firstn i l) by (rewrite F; apply removelast_last).
      assert (Sp : l = firstn i l ++ nth i l p0 :: skipn (S i) l).
      { rewrite <- (firstn_skipn (S i) l) at 1. rewrite F, <- app_assoc. reflexivity. }
      exists (firstn k l0), (firstn i l), (nth i l p0), (skipn (S i) l). split.
      + split; [rewrite <- Sp; unfold l; symmetry; apply firstn_skipn|]. split.
        * rewrite firstn_length, Nat.min_l by lia. destruct K as [(-> & [K|(K & q & Q1 & Q2 & Q3)])|(K & q & Q1 & Q2 & Q3)].
          -- left. split; [exact K|reflexivity].
          -- right. exists 1%nat, q. rewrite Q2 in *. split; [split; [lia|split; [exact Q1|split; [lra|exact B]]]|].
             rewrite Nat.eqb_refl. destruct (Rlt_dec _ eps6); [reflexivity|contradiction].
          -- right. exists k, q. rewrite Q2 in *. split; [split; [lia|split; [exact Q1|split; [lra|exact B]]]|].
             destruct (Nat.eqb_spec k 1) as [->|]; [|reflexivity]. specialize (Q3 eq_refl). destruct (Rlt_dec _ eps6); [lra|reflexivity].
        * rewrite <- Sp. rewrite firstn_length, Nat.min_l by lia. exact Ch.
      + unfold buildResults. rewrite (at_nth l i Hi), RL, C53_length_is_polyline, F. reflexivity.
  Qed.

  (** C62, main theorem: when planning continues from the previous path, no pose of the kept part lies in an occupied cell, its
      length up to the start is reported, and the next plan starts in the cell of the pose that follows it, which is the chosen one. *)
  Theorem C62_preserved_path_is_a_free_stretch_of_the_previous_path msg r :
    process C M cm robot msg = Ok (Some r) ->
    exists passed p rest, cut C M robot (fromMsg eps6 msg) passed (st_preserved r) p rest /\
      (forall q, In q (st_preserved r) -> exists c, pose_in_cell M q c /\ inside_map M c /\ cm c <> 100%Z) /\
      st_length r = polyline (st_preserved r ++ [p]) /\
      pose_in_cell M p (st_cell r).
  Proof.
    intros E. assert (N0 : fromMsg eps6 msg <> []) by (intros Z; unfold process in E; rewrite Z in E; discriminate E).
    destruct (cut_spec msg N0) as [[_ R]|(passed & kept & p & rest & K & R)]; rewrite R in E; [discriminate E|].
    destruct (isPathColliding M cm kept) as [col|] eqn:Ecol; [|discriminate E]. cbn [bind] in E.
    apply colliding_spec in Ecol. destruct col; [discriminate E|].
    destruct (pose_cell M p) as [c|] eqn:Ec; [|discriminate E]. cbn [bind] in E. injection E as <-. cbn [st_preserved st_length st_cell].
    exists passed, p, rest. split; [exact K|]. split; [exact Ecol|]. split; [reflexivity|]. apply pose_cell_ok; assumption.
  Qed.

  (** C62: otherwise nothing is kept: the previous path is empty, the robot is too far from it, or a pose between the robot and the chosen start
      lies in an occupied cell. *)
  Theorem C62_no_result_only_if_far_or_blocked msg : process C M cm robot msg = Ok None ->
    fromMsg eps6 msg = [] \/
    (forall j q, (0 < j < length (fromMsg eps6 msg))%nat -> on_strip (fromMsg eps6 msg) j q ->
       dist_stop C < dist2 q (pos robot) + INR (length (fromMsg eps6 msg)) * eps6) \/
    (exists passed kept p rest q c, cut C M robot (fromMsg eps6 msg) passed kept p rest /\
       In q kept /\ pose_in_cell M q c /\ inside_map M c /\ cm c = 100%Z).
  Proof.
    intros E. assert (fromMsg eps6 msg = [] \/ fromMsg eps6 msg <> []) as [Z|N0] by (destruct (fromMsg eps6 msg); [left; reflexivity|right; discriminate]); [left; exact Z|right].
    destruct (cut_spec msg N0) as [[F _]|(passed & kept & p & rest & K & R)]; [left; exact F|right]. rewrite R in E.
    destruct (isPathColliding M cm kept) as [col|] eqn:Ecol; [|discriminate E]. cbn [bind] in E.
    apply colliding_spec in Ecol. destruct col.
    - destruct Ecol as (q & c & Q & P). exists passed, kept, p, rest, q, c. auto.
    - exfalso. destruct (pose_cell M p); cbn [bind] in E; discriminate E.
  Qed.
  (** C62: a robot farther than the limit from every point of the path keeps nothing. *)
  Theorem C62_far_robot_keeps_nothing msg : 
    (forall j q, (j < length (fromMsg eps6 msg))%nat -> on_seg (xy (fromMsg eps6 msg) (j - 1)) (xy (fromMsg eps6 msg) j) q ->
       dist_stop C < dist2 q (pos robot)) ->
    process C M cm robot msg = Ok None.
  Proof.
    intros H. unfold process. set (l0 := fromMsg eps6 msg) in *. destruct l0 as [|a l0'] eqn:El0; [reflexivity|].
    rewrite <- El0 in *. assert (N0 : l0 <> []) by (rewrite El0; discriminate).
    destruct (removed_spec l0 N0) as (k & d & _ & -> & (q & (j & J & Q) & D) & _). cbn [bind].
    specialize (H j q J Q). destruct (Rlt_dec (dist_stop C) d) as [_|N]; [reflexivity|exfalso; lra].
  Qed.

  (** C62: nothing outside the costmap is read as long as the previous path lies inside it. *)
  Theorem C62_defined_on_paths_inside_the_map msg : (pm_w M < 2 ^ 31)%Z -> (pm_h M < 2 ^ 31)%Z ->
    (forall q, In q (fromMsg eps6 msg) -> exists x y, (0 <= x < pm_w M /\ 0 <= y < pm_h M)%Z /\ in_cell (pm_info M) x y (p_x q) (p_y q)) ->
    exists r, process C M cm robot msg = Ok r.
  Proof.
    intros HW HH H. unfold process. set (l0 := fromMsg eps6 msg) in *. destruct l0 as [|a l0'] eqn:El0; [eexists; reflexivity|].
    rewrite <- El0 in *. assert (N0 : l0 <> []) by (rewrite El0; discriminate).
    destruct (removed_spec l0 N0) as (k & d & Hk & -> & _). cbn [bind].
    destruct (Rlt_dec (dist_stop C) d) as [_|_]; [eexists; reflexivity|].
    set (l := skipn k l0) in *. assert (NL : l <> []).
    { intros Z. apply (f_equal (@length _)) in Z. unfold l in Z. rewrite skipn_length in Z. cbn in Z. lia. }
    rewrite (at_nth l 0) by (destruct l; [congruence|cbn; lia]). cbn [bind].
    destruct (choose l (nth 0 l p0) NL eq_refl) as (i & Ei & Hi & Ch). cbv zeta in Ei |- *. rewrite Ei. clear Ei.
    assert (Hc : forall q, In q l -> exists c, pose_cell M q = Ok c /\ cell_inside M c = true).
    { intros q Hq. assert (In q l0) as Q by (rewrite <- (firstn_skipn k l0); apply in_or_app; right; exact Hq).
      destruct (H q Q) as (x & y & I & J). destruct (pose_cell_def M q ((x, y), 0%Z) Hr HA) as (t & Et & T); cbn [fst snd]; try (unfold int32; lia); try exact J.
      eexists. split; [exact Et|]. unfold cell_inside. cbn [fst snd]. lia. }
    assert (Col : exists b, isPathColliding M cm (firstn i l) = Ok b).
    { assert (Hc' : forall q, In q (firstn i l) -> exists c, pose_cell M q = Ok c /\ cell_inside M c = true).
      { intros q Hq. apply Hc. rewrite <- (firstn_skipn i l). apply in_or_app. left. exact Hq. }
      clear - Hc'. induction (firstn i l) as [|q t IH]; [eexists; reflexivity|]. cbn [isPathColliding].
      destruct (Hc' q (or_introl eq_refl)) as (c & -> & I). cbn [bind]. unfold read_cm. rewrite I. cbn [bind].
      destruct (cm c =? 100)%Z; [eexists; reflexivity|]. apply IH. intros x Hx. apply Hc'. right. exact Hx. }
    unfold buildResults. destruct Col as [b ->]. cbn [bind]. destruct b; [eexists; reflexivity|].
    rewrite (at_nth l i Hi). cbn [bind]. destruct (Hc (nth i l p0) (nth_In _ _ Hi)) as (c & -> & _). cbn [bind]. eexists. reflexivity.
  Qed.
End Run.

(** * Examples and findings *)
Definition cfg_ex : pcfg := PCfg 1 1 1 1 1.
Definition map_ex : pmap := PMap (mkMI 1 (PI / 2) 0 0) 4 4 4.
Definition pose_ex (x : R) : pose2 := mkP2 x (1/2) 0 None.
Definition path_ex : list pose2 := [pose_ex (1/2); pose_ex (3/2); pose_ex (5/2); pose_ex (7/2)].
Lemma ex_pos : 0 < mi_res (pm_info map_ex) /\ 0 < mi_ang (pm_info map_ex) /\ (0 < pm_a map_ex)%Z.
Proof. cbn. pose proof PI_RGT_0. split; [lra|]. split; [lra|reflexivity]. Qed.
Lemma dist_line x x' : x <= x' -> dist2 (x, 1/2) (x', 1/2) = x' - x.
Proof.
  intros H. unfold dist2. cbn [fst snd]. replace ((x - x')² + (1 / 2 - 1 / 2)²) with ((x' - x)²) by (unfold Rsqr; field).
  apply sqrt_Rsqr. lra.
Qed.
Lemma norm_line x x' : x <= x' -> norm2 (pose_ex x) (pose_ex x') = x' - x /\ norm2 (pose_ex x') (pose_ex x) = x' - x.
Proof.
  intros H. unfold norm2, sq, pose_ex. cbn [p_x p_y]. split.
  - match goal with |- sqrt ?e = _ => replace e with ((x' - x)²) by (unfold Rsqr; field) end. apply sqrt_Rsqr. lra.
  - match goal with |- sqrt ?e = _ => replace e with ((x' - x)²) by (unfold Rsqr; field) end. apply sqrt_Rsqr. lra.
Qed.
Lemma turn_line x x' : turn_angle (pose_ex x) (pose_ex x') = 0.
Proof.
  unfold turn_angle, pose_ex. cbn [p_yaw]. rewrite Rminus_0_r, Rabs_R0. pose proof PI_RGT_0. destruct (Rlt_dec PI 0); lra.
Qed.
Lemma ex_import : fromMsg eps6 path_ex = path_ex.
Proof.
  unfold fromMsg, path_ex, eps6. cbn [fold_left fm_step rev app].
  repeat (cbn [app rev fold_left fm_step]; match goal with |- context [Rle_dec ?a ?b] => destruct (Rle_dec a b) as [_|N]; [|exfalso; apply N; unfold sq, pose_ex, Rsqr; cbn [p_x p_y]; lra] end). reflexivity.
Qed.
Lemma ex_cells q : In q path_ex -> exists x y, (0 <= x < pm_w map_ex /\ 0 <= y < pm_h map_ex)%Z /\ in_cell (pm_info map_ex) x y (p_x q) (p_y q).
Proof.
  unfold in_cell. cbn [map_ex pm_info pm_w pm_h mi_res mi_ox mi_oy].
  intros [<-|[<-|[<-|[<-|[]]]]]; [exists 0%Z, 0%Z|exists 1%Z, 0%Z|exists 2%Z, 0%Z|exists 3%Z, 0%Z]; (split; [lia|unfold pose_ex; cbn [p_x p_y]; lra]).
Qed.
Lemma ex_centre x y : y = IZR x + 1/2 -> at_centre map_ex (pose_ex y).
Proof.
  intros ->. exists x, 0%Z, 0%Z. unfold pose_ex. cbn [map_ex pm_info mi_res mi_ang mi_ox mi_oy p_x p_y p_yaw]. pose proof PI_RGT_0.
  split; [|split].
  - match goal with |- Rabs ?e < _ => replace e with 0 by field end. rewrite Rabs_R0. lra.
  - match goal with |- Rabs ?e < _ => replace e with 0 by field end. rewrite Rabs_R0. lra.
  - match goal with |- Rabs ?e < _ => replace e with 0 by field end. rewrite Rabs_R0. lra.
Qed.
(** The robot has left the first of four poses in a row, one second apart; the second one is passed in half a second, before the prediction time of one second, so the
    plan starts at the third one and the second one is kept. *)
Example C62_example : exists r, process cfg_ex map_ex (fun _ => 0%Z) (pose_ex 1) path_ex = Ok (Some r) /\
  st_preserved r = [pose_ex (3/2)] /\ fst (st_cell r) = (2, 0)%Z /\ st_length r = 1.
Proof.
  destruct ex_pos as (P1 & P2 & P3).
  destruct (C62_defined_on_paths_inside_the_map cfg_ex map_ex (fun _ => 0%Z) (pose_ex 1) P1 P2 P3 path_ex) as [[r|] E]; try (cbn; lia).
  { rewrite ex_import. exact ex_cells. }
  2:{ exfalso. destruct (C62_no_result_only_if_far_or_blocked _ _ _ _ P1 P2 P3 _ E) as [H|[H|(? & ? & ? & ? & q & c & _ & _ & _ & _ & H)]]; [rewrite ex_import in H; discriminate H| |lia]. rewrite ex_import in H.
      specialize (H 1%nat (1, 1/2) ltac:(cbn; lia)). change (pos (pose_ex 1)) with ((1, 1/2) : R * R) in H.
      rewrite dist_line in H by lra. cbn [cfg_ex dist_stop length path_ex INR] in H.
      assert (1 < 1 - 1 + (1 + 1 + 1 + 1) * eps6) by (apply H; exists (1/2); unfold xy, path_ex, pose_ex; cbn [nth Nat.sub p_x p_y fst snd]; lra).
      unfold eps6 in *. lra. }
  exists r. split; [exact E|].
  destruct (C62_preserved_path_is_a_free_stretch_of_the_previous_path _ _ _ _ P1 P2 P3 _ _ E) as (passed & p & rest & (S & K & CH) & _ & L & PC).
  rewrite ex_import in *.
  assert (length passed = 1%nat) as LP.
  { destruct K as [[? _]|(i & q & (I & O & _ & B) & K)]; [discriminate|]. rewrite K. clear K.
    change (pos (pose_ex 1)) with ((1, 1/2) : R * R) in *.
    assert (D : dist2 q (1, 1/2) <= 2 * eps6).
    { specialize (B 1%nat (1, 1/2) ltac:(cbn; lia)). rewrite dist_line in B by lra. cbn [length path_ex Nat.sub INR] in B.
      assert (dist2 q (1, 1/2) <= 1 - 1 + (1 + 1) * eps6) by (apply B; exists (1/2); unfold xy, path_ex, pose_ex; cbn [nth Nat.sub p_x p_y fst snd]; lra). lra. }
    destruct O as (t & Ht & X & Y). destruct q as [qx qy]. cbn [fst snd] in X, Y.
    assert (QY : qy = 1/2). { assert (i = 1 \/ i = 2 \/ i = 3)%nat as [->|[->| ->]] by (cbn in I; lia); unfold xy, path_ex, pose_ex in Y; cbn [nth Nat.sub p_x p_y fst snd] in Y; lra. }
    rewrite QY in *. destruct (Nat.eq_dec i 1) as [->|].
    - rewrite Nat.eqb_refl. destruct (Rlt_dec _ eps6) as [N|_]; [exfalso|reflexivity].
      change (xy path_ex 0) with ((1/2, 1/2) : R * R) in N. rewrite (dist_line (1/2) 1) in N by lra.
      apply Rabs_lt_inv in N. unfold eps6 in *. lra.
    - exfalso. assert (1 <= qx - 1/2).
      { assert (i = 2 \/ i = 3)%nat as [->| ->] by (cbn in I; lia); unfold xy, path_ex, pose_ex in X; cbn [nth Nat.sub p_x p_y fst snd] in X; lra. }
      unfold dist2 in D. cbn [fst snd] in D. replace ((qx - 1)² + (1 / 2 - 1 / 2)²) with ((qx - 1)²) in D by (unfold Rsqr; field).
      rewrite sqrt_Rsqr in D by lra. unfold eps6 in D. lra. }
  destruct passed as [|a [|]]; try discriminate LP. injection S as <- S. rewrite <- S in CH.
  set (l := [pose_ex (3/2); pose_ex (5/2); pose_ex (7/2)]) in *.
  assert (A0 : arrival cfg_ex (pose_ex 1) l 0 = 1/2).
  { cbn [arrival]. unfold l, first_arrival. cbn [nth cfg_ex ang_vel lin_vel]. rewrite turn_line, Rabs_R0.
    change (euclid (pose_ex (3/2)) (pose_ex 1)) with (norm2 (pose_ex (3/2)) (pose_ex 1)). destruct (norm_line 1 (3/2) ltac:(lra)) as [_ ->].
    rewrite Rmax_right; lra. }
  assert (A1 : arrival cfg_ex (pose_ex 1) l 1 = 3/2).
  { change (arrival cfg_ex (pose_ex 1) l 1) with (arrival cfg_ex (pose_ex 1) l 0 + (if Rlt_dec (1/1000000) (norm2 (pose_ex (3/2)) (pose_ex (5/2))) then norm2 (pose_ex (3/2)) (pose_ex (5/2)) / 1
       else turn_angle (pose_ex (3/2)) (pose_ex (5/2)) / 1)). rewrite A0.
    destruct (norm_line (3/2) (5/2) ltac:(lra)) as [-> _]. destruct (Rlt_dec _ _); lra. }
  assert (length (st_preserved r) = 1%nat) as L1.
  { destruct CH as (gs & Gin & CH).
    assert (NG : forall g, ~ In g gs).
    { intros g Hg. apply Gin in Hg as [R [(_ & _ & _ & H') _]].
      assert (g = 2%nat) as -> by (cbn in R; lia). unfold travel, pt, l, pose_ex in H'. cbn [Nat.sub nth p_x p_y p_yaw] in H'.
      rewrite cos_0, sin_0 in H'. lra. }
    destruct CH as [(H & _)|(_ & [(H1 & (_ & H2) & H3)|(H1 & H2)])].
    - destruct (NG _ H).
    - destruct (length (st_preserved r)) as [|[|n]]; [rewrite A0 in H2; cbn in H2; lra|reflexivity|].
      exfalso. apply (H3 1%nat ltac:(lia)). split; [apply (ex_centre 2); unfold l; cbn; lra|rewrite A1; cbn; lra].
    - exfalso. apply (H2 1%nat ltac:(cbn; lia)). split; [apply (ex_centre 2); unfold l; cbn; lra|rewrite A1; cbn; lra]. }
  destruct (st_preserved r) as [|b [|]] eqn:SP; try discriminate L1. injection S as <- <- <-.
  split; [reflexivity|]. split.
  - destruct PC as (PC & _). apply injective_projections; cbn [fst snd];
      apply (C18_cells_are_disjoint (pm_info map_ex) _ _ 2 0 (5/2) (1/2) P1 PC); unfold in_cell; cbn [map_ex pm_info mi_res mi_ox mi_oy]; lra.
  - rewrite L. cbn [app polyline]. change (euclid (pose_ex (3/2)) (pose_ex (5/2))) with (norm2 (pose_ex (3/2)) (pose_ex (5/2))).
    destruct (norm_line (3/2) (5/2) ltac:(lra)) as [-> _]. lra.
Qed.

(** Finding: the pose from which the plan starts is not checked itself. *)
Definition off_ex : pose2 := mkP2 (1/4) (1/2) 0 None.
Lemma last_pose_ex cm : exists r, process cfg_ex map_ex cm off_ex [off_ex] = Ok (Some r) /\ st_preserved r = [] /\ fst (st_cell r) = (0, 0)%Z /\
  (0 <= snd (st_cell r) < 4)%Z.
Proof.
  destruct ex_pos as (P1 & P2 & P3). unfold process. change (fromMsg eps6 [off_ex]) with [off_ex].
  destruct (removed_spec cfg_ex off_ex [off_ex] ltac:(discriminate)) as (k & d & Hk & -> & (q & (j & J & Q) & D) & _). cbn [bind].
  assert (k = 0%nat) as -> by (cbn in Hk; lia). assert (j = 0%nat) as -> by (cbn in J; lia).
  assert (q = pos off_ex) as ->.
  { destruct Q as (t & _ & X & Y). apply injective_projections; [rewrite X|rewrite Y]; unfold xy, pos, off_ex; cbn [nth Nat.sub p_x p_y fst snd]; lra. }
  assert (Z : dist2 (pos off_ex) (pos off_ex) = 0).
  { unfold dist2. rewrite !Rminus_eq_0. unfold Rsqr. replace (0 * 0 + 0 * 0) with 0 by ring. apply sqrt_0. }
  rewrite Z in D. cbn [cfg_ex dist_stop]. destruct (Rlt_dec 1 d) as [N|_]; [exfalso; unfold eps6 in D; lra|].
  cbn [skipn Path2D.at_ nth_error bind].
  destruct (choose cfg_ex map_ex cm off_ex P1 P2 [off_ex] off_ex ltac:(discriminate) eq_refl) as (i & Ei & Hi & _). cbv zeta in Ei. cbv zeta. rewrite Ei. clear Ei.
  assert (i = 0%nat) as -> by (cbn in Hi; lia). unfold buildResults. cbn [firstn isPathColliding bind Path2D.at_ nth_error].
  destruct (pose_cell_def map_ex off_ex ((0, 0), 0)%Z P1 P3) as (t & -> & T); cbn [fst snd]; try (unfold int32; lia).
  { unfold in_cell, off_ex. cbn [map_ex pm_info mi_res mi_ox mi_oy p_x p_y]. lra. }
  cbn [bind]. eexists. split; [reflexivity|]. cbn [st_preserved st_cell fst snd removelast]. split; [reflexivity|]. split; [reflexivity|exact T].
Qed.
Theorem C62_start_is_free_refuted :
  ~ (forall C M cm robot msg r, 0 < mi_res (pm_info M) -> 0 < mi_ang (pm_info M) -> (0 < pm_a M)%Z ->
       process C M cm robot msg = Ok (Some r) -> inside_map M (st_cell r) -> cm (st_cell r) <> 100%Z).
Proof.
  intros H. destruct ex_pos as (P1 & P2 & P3). destruct (last_pose_ex (fun _ => 100%Z)) as (r & E & _ & F & T).
  apply (H _ _ _ _ _ _ P1 P2 P3 E); [|reflexivity]. unfold inside_map. rewrite F. cbn. lia.
Qed.
(** Finding: at the end of the previous path the plan starts from a pose that need not be the centre of its cell. *)
Theorem C62_start_is_a_cell_centre_refuted :
  ~ (forall C M cm robot msg r, 0 < mi_res (pm_info M) -> 0 < mi_ang (pm_info M) -> (0 < pm_a M)%Z ->
       process C M cm robot msg = Ok (Some r) -> exists p, In p msg /\ at_centre M p /\ pose_in_cell M p (st_cell r)).
Proof.
  intros H. destruct ex_pos as (P1 & P2 & P3). destruct (last_pose_ex (fun _ => 0%Z)) as (r & E & _).
  destruct (H _ _ _ _ _ _ P1 P2 P3 E) as (p & [<-|[]] & (x & y & t & X & _) & _).
  unfold off_ex in X. cbn [map_ex pm_info mi_res mi_ox p_x] in X. apply Rabs_lt_inv in X.
  assert (A : -1 < IZR x < 0) by lra. destruct A as [A B]. apply lt_IZR in A, B. lia.
Qed.
(** Finding: a path that leaves the map (a smaller map arrived) makes the check read outside of it. *)
Example C62_path_outside_the_map : isPathColliding map_ex (fun _ => 0%Z) [mkP2 (9/2) (1/2) 0 None] = UB.
Proof.
  destruct ex_pos as (P1 & P2 & P3). cbn [isPathColliding].
  destruct (pose_cell_def map_ex (mkP2 (9/2) (1/2) 0 None) ((4, 0), 0)%Z P1 P3) as (t & -> & T); cbn [fst snd]; try (unfold int32; lia).
  { unfold in_cell. cbn [map_ex pm_info mi_res mi_ox mi_oy p_x p_y]. lra. }
  reflexivity.
Qed.
(** The hypothesis of the theorem for far robots. *)
Example C62_far_example : process cfg_ex map_ex (fun _ => 0%Z) (mkP2 (1/4) 3 0 None) [off_ex] = Ok None.
Proof.
  apply C62_far_robot_keeps_nothing. intros j q J (t & _ & X & Y). change (fromMsg eps6 [off_ex]) with [off_ex] in *.
  assert (j = 0%nat) as -> by (cbn in J; lia). unfold xy, off_ex in X, Y. cbn [nth Nat.sub p_x p_y fst snd] in X, Y.
  unfold dist2, pos. cbn [fst snd p_x p_y cfg_ex dist_stop]. rewrite X, Y.
  match goal with |- 1 < sqrt ?e => replace e with ((5/2)²) by (unfold Rsqr; field) end. rewrite sqrt_Rsqr; lra.
Qed.

Print Assumptions C62_preserved_path_is_a_free_stretch_of_the_previous_path.
Print Assumptions C62_no_result_only_if_far_or_blocked.
Print Assumptions C62_far_robot_keeps_nothing.
Print Assumptions C62_defined_on_paths_inside_the_map.
Print Assumptions C62_start_is_free_refuted.
Print Assumptions C62_start_is_a_cell_centre_refuted.
