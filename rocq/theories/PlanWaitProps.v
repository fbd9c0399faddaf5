(** C78: when the planner plans again. *)
From Coq Require Import Reals ZArith List Lra Lia.
From Verif Require Import Common PlanWait.
Import ListNotations.
Local Open Scope R_scope.

(** ** Specification *)
(** The robot moves by more than a millimetre between the poses. *)
Definition moving (p0 p : pose2) : Prop := (1 / 1000) * (1 / 1000) < (q_x p - q_x p0) * (q_x p - q_x p0) + (q_y p - q_y p0) * (q_y p - q_y p0).
(** ... against its heading at the end of the segment. *)
Definition reversing (p0 p : pose2) : Prop := cos (q_yaw p) * (q_x p - q_x p0) + sin (q_yaw p) * (q_y p - q_y p0) < 0.
(** The [i]-th segment of the path leads from the [i]-th pose to the next. *)
Definition segment (path : list pose2) (i : nat) (p0 p : pose2) : Prop := nth_error path i = Some p0 /\ nth_error path (S i) = Some p.
Definition forward_at (path : list pose2) (i : nat) : Prop := exists p0 p, segment path i p0 p /\ moving p0 p /\ ~ reversing p0 p.
Definition backward_at (path : list pose2) (i : nat) : Prop := exists p0 p, segment path i p0 p /\ moving p0 p /\ reversing p0 p.
Definition opposite_at (path : list pose2) (i j : nat) : Prop := (forward_at path i /\ backward_at path j) \/ (backward_at path i /\ forward_at path j).

(** ** Switch-backs *)
Lemma counts_iff p0 p : counts p0 p = true <-> moving p0 p.
Proof. unfold counts, moving. destruct (Rlt_dec _ _) as [H|H]; split; try discriminate; try reflexivity; intros; lra. Qed.
Lemma backward_iff p0 p : backward p0 p = true <-> reversing p0 p.
Proof. unfold backward, reversing. destruct (Rlt_dec _ _) as [H|H]; split; try discriminate; try reflexivity; intros; try assumption; lra. Qed.
Definition dir_at (path : list pose2) (i : nat) (d : bool) : Prop := if d then backward_at path i else forward_at path i.
Lemma dir_at_iff path i d p0 p : segment path i p0 p -> (dir_at path i d <-> counts p0 p = true /\ backward p0 p = d).
Proof.
  intros [S1 S2]. rewrite counts_iff. split.
  - destruct d; intros (a & b & (A & B) & M & D); rewrite S1 in A; rewrite S2 in B; injection A as <-; injection B as <-; (split; [exact M|]).
    + apply backward_iff. exact D.
    + destruct (backward p0 p) eqn:E; [apply backward_iff in E; contradiction|reflexivity].
  - intros [M D]. destruct d; exists p0, p; (split; [split; assumption|]); split; try exact M.
    + apply backward_iff. exact D.
    + intros G. apply backward_iff in G. congruence.
Qed.
Lemma dir_same path i d d' : dir_at path i d -> dir_at path i d' -> d = d'.
Proof.
  intros H H'. assert (exists p0 p, segment path i p0 p) as (p0 & p & S) by (destruct d; destruct H as (a & b & S & _); eauto).
  apply (dir_at_iff _ _ _ _ _ S) in H. apply (dir_at_iff _ _ _ _ _ S) in H'. destruct H, H'. congruence.
Qed.

(** From pose [i] on: [dir] is the direction of the moving segments before, if there is one. *)
Lemma switch_from_spec path l : forall i p0 dir,
  nth_error path i = Some p0 -> skipn (S i) path = l ->
  (forall j, (j < i)%nat -> forall d, dir_at path j d -> dir = Some d) ->
  (forall d, dir = Some d -> exists j, (j < i)%nat /\ dir_at path j d) ->
  match switch_from (S i) p0 dir l with
  | Some k => exists j0 d, (j0 < k - 1)%nat /\ (k < length path)%nat /\ dir_at path j0 d /\ dir_at path (k - 1) (negb d) /\ (forall j d', (j < k - 1)%nat -> dir_at path j d' -> d' = d)
  | None => forall j j' d d', dir_at path j d -> dir_at path j' d' -> d = d'
  end.
Proof.
  induction l as [|p l IH]; intros i p0 dir N K B W; cbn [switch_from].
  - intros j j' d d' H H'. assert (L : (length path <= S i)%nat) by (rewrite <- (firstn_skipn (S i) path), K, app_nil_r, firstn_length; lia).
    assert (X : forall q e, dir_at path q e -> (q < i)%nat).
    { intros q e Hq. assert (exists p0 p, segment path q p0 p) as (a & b & _ & Sb) by (destruct e; destruct Hq as (a & b & S & _); eauto).
      assert (S q < length path)%nat by (apply nth_error_Some; congruence). lia. }
    pose proof (B j (X _ _ H) d H). pose proof (B j' (X _ _ H') d' H'). congruence.
  - assert (P : nth_error path (S i) = Some p).
    { rewrite <- (firstn_skipn (S i) path), K. assert (L : length (firstn (S i) path) = S i).
      { rewrite firstn_length. assert (length (skipn (S i) path) = S (length l)) by (rewrite K; reflexivity). rewrite skipn_length in H. lia. }
      rewrite nth_error_app2 by lia. rewrite L, Nat.sub_diag. reflexivity. }
    assert (LP : (S i < length path)%nat) by (apply nth_error_Some; congruence).
    assert (K' : skipn (S (S i)) path = l).
    { rewrite <- (firstn_skipn (S i) path), K. assert (L : length (firstn (S i) path) = S i) by (rewrite firstn_length; lia).
      rewrite skipn_app, L. rewrite skipn_all2 by lia. replace (S (S i) - S i)%nat with 1%nat by lia. reflexivity. }
    assert (S : segment path i p0 p) by (split; assumption).
    destruct (counts p0 p) eqn:C.
    + assert (D : dir_at path i (backward p0 p)) by (apply (dir_at_iff _ _ _ _ _ S); split; [exact C|reflexivity]).
      assert (Hstep : dir = None \/ dir = Some (backward p0 p) ->
        match switch_from (Datatypes.S (Datatypes.S i)) p (Some (backward p0 p)) l with
        | Some k => exists j0 d, (j0 < k - 1)%nat /\ (k < length path)%nat /\ dir_at path j0 d /\ dir_at path (k - 1) (negb d) /\ (forall j d', (j < k - 1)%nat -> dir_at path j d' -> d' = d)
        | None => forall j j' d d', dir_at path j d -> dir_at path j' d' -> d = d'
        end).
      { intros Hd. apply IH; [exact P|exact K'| |].
        - intros j Hj d Hdj. destruct (Nat.eq_dec j i) as [->|Nj]; [f_equal; eapply dir_same; eassumption|].
          pose proof (B j ltac:(lia) d Hdj) as Q. destruct Hd as [Hd|Hd]; congruence.
        - intros d [= <-]. exists i. split; [lia|exact D]. }
      destruct dir as [d0|].
      * destruct (xorb d0 (backward p0 p)) eqn:X.
        -- destruct (W d0 eq_refl) as (j0 & J0 & DJ). exists j0, d0. replace (Datatypes.S i - 1)%nat with i by lia. split; [exact J0|]. split; [exact LP|]. split; [exact DJ|]. split.
           ++ replace (negb d0) with (backward p0 p) by (destruct d0, (backward p0 p); (reflexivity || discriminate X)). exact D.
           ++ intros j d' Hj Hd'. pose proof (B j Hj d' Hd'). congruence.
        -- apply Hstep. right. f_equal. destruct d0, (backward p0 p); (reflexivity || discriminate X).
      * apply Hstep. left. reflexivity.
    + apply IH; [exact P|exact K'| |].
      * intros j Hj d Hd. destruct (Nat.eq_dec j i) as [->|Nj]; [|apply (B j ltac:(lia) d Hd)].
        apply (dir_at_iff _ _ _ _ _ S) in Hd. destruct Hd. congruence.
      * intros d Hd. destruct (W d Hd) as (j & J & Q). exists j. split; [lia|exact Q].
Qed.

(** The switch-back point is the end of the first segment that is driven the other way than all the moving ones before; there is one exactly if the path
    is driven both ways. *)
Theorem C78_switchback_is_the_first_reversal path :
  match getSwitchIndex path with
  | Some k => (0 < k < length path)%nat /\ (exists i, (i < k - 1)%nat /\ opposite_at path i (k - 1)) /\
              (forall i j, (i < k - 1)%nat -> (j < k - 1)%nat -> ~ opposite_at path i j)
  | None => forall i j, ~ opposite_at path i j
  end.
Proof.
  destruct path as [|p0 l]; cbn [getSwitchIndex].
  - intros i j [[(a & b & [S _] & _) _]|[(a & b & [S _] & _) _]]; destruct i; discriminate.
  - assert (H := switch_from_spec (p0 :: l) l 0 p0 None eq_refl eq_refl ltac:(intros; lia) ltac:(discriminate)).
    destruct (switch_from 1 p0 None l) as [k|].
    + destruct H as (j0 & d & J0 & K & D0 & D1 & U). split; [lia|]. split.
      * exists j0. split; [exact J0|]. destruct d; [right|left]; split; assumption.
      * intros i j Hi Hj [[F B]|[B F]].
        -- pose proof (U i false Hi F). pose proof (U j true Hj B). congruence.
        -- pose proof (U i true Hi B). pose proof (U j false Hj F). congruence.
    + intros i j [[F B]|[B F]]; [pose proof (H i j false true F B)|pose proof (H i j true false B F)]; discriminate.
Qed.

(** ** Waiting *)
Lemma wrap_spec a : - PI <= wrap a < PI /\ exists k : Z, wrap a = a - 2 * PI * IZR k.
Proof.
  unfold wrap. assert (P := PI_RGT_0). set (n := Int_part ((a + PI) / (2 * PI))). split; [|eauto].
  assert (H : IZR n <= (a + PI) / (2 * PI) < IZR n + 1). { unfold n. destruct (base_Int_part ((a + PI) / (2 * PI))). lra. }
  destruct H as [H1 H2]. apply (Rmult_le_compat_r (2 * PI)) in H1; [|lra]. apply (Rmult_lt_compat_r (2 * PI)) in H2; [|lra].
  unfold Rdiv in H1, H2. rewrite Rmult_assoc, Rinv_l in H1, H2 by lra. lra.
Qed.
Section Wait.
  Variable c : wconf.
  Hypothesis ang : c_tol_ang c <= PI.

  (** The robot is at the switch-back point: within the tolerances, whatever full turns are in the angles. *)
  Definition at_switch (robot sw : pose2) : Prop :=
    sqrt ((q_x robot - q_x sw) * (q_x robot - q_x sw) + (q_y robot - q_y sw) * (q_y robot - q_y sw)) < c_tol_lin c /\
    exists k : Z, Rabs (q_yaw robot - q_yaw sw - 2 * PI * IZR k) < c_tol_ang c.
  Lemma arrived_iff robot sw : arrived c robot sw = true <-> at_switch robot sw.
  Proof.
    unfold arrived, at_switch. replace ((q_y robot - q_y sw) * (q_y robot - q_y sw) + (q_x robot - q_x sw) * (q_x robot - q_x sw))
      with ((q_x robot - q_x sw) * (q_x robot - q_x sw) + (q_y robot - q_y sw) * (q_y robot - q_y sw)) by ring.
    destruct (Rlt_dec _ _) as [L|L]; [|split; [discriminate|intros [H _]; contradiction]].
    set (a := q_yaw robot - q_yaw sw). destruct (wrap_spec a) as [B (k & E)]. assert (P := PI_RGT_0).
    destruct (Rlt_dec _ _) as [A|A]; split; try discriminate; try reflexivity.
    - intros _. split; [exact L|]. exists k. rewrite <- E. exact A.
    - intros [_ (m & M)]. exfalso. apply A. assert (Q : m = k).
      { apply Rabs_def2 in M. assert (- 2 * PI < 2 * PI * (IZR k - IZR m) < 2 * PI) by (split; lra).
        assert (- 1 < IZR k - IZR m < 1) by (split; nra). rewrite <- minus_IZR in H0. destruct H0 as [H1 H2]. apply lt_IZR in H1. apply lt_IZR in H2. lia. }
      subst m. rewrite E. exact M.
  Qed.

  (** An obstacle on the last path, as the costmap that has just come tells. *)
  Definition obstacle_on_path (l : look) : Prop :=
    l_updated l = true /\ (2 <= length (l_cells l))%nat /\ exists p, In p (l_cells l) /\ l_cost l p = Ok 100%Z.
  (** The cells of the last path are in the map. *)
  Definition on_map (l : look) : Prop := forall p, In p (l_cells l) -> exists v, l_cost l p = Ok v.

  Lemma blocked_spec cost cells : (forall p, In p cells -> exists v, cost p = Ok v) ->
    exists b, blocked cost cells = Ok b /\ (b = true <-> exists p, In p cells /\ cost p = Ok 100%Z).
  Proof.
    induction cells as [|p l IH]; intros D; cbn [blocked]; [exists false; split; [reflexivity|split; [discriminate|intros (p & [] & _)]]|].
    destruct (D p (or_introl eq_refl)) as (v & E). rewrite E. cbn [bind]. destruct (Z.eqb_spec v 100) as [->|N].
    - exists true. split; [reflexivity|]. split; [intros _; exists p; split; [left; reflexivity|exact E]|reflexivity].
    - destruct (IH (fun q H => D q (or_intror H))) as (b & B & I). exists b. split; [exact B|]. rewrite I. split; intros (q & Hq & Eq).
      + exists q. split; [right; exact Hq|exact Eq].
      + destruct Hq as [->|Hq]; [congruence|]. exists q. split; assumption.
  Qed.

  (** Why the planner plans at a look. *)
  Definition reason (s : wst) (l : look) : Prop :=
    w_next s < l_now l \/
    (l_map l = true /\ (l_jump l = true \/ obstacle_on_path l \/ exists p, w_sw s = Some p /\ at_switch (l_robot l) p)).

  Lemma returns_spec s l : on_map l -> exists b sw, returns c s l = Ok (b, sw) /\ (b = true <-> reason s l) /\ (b = false -> sw = w_sw s).
  Proof.
    intros D. unfold returns, reason. destruct (blocked_spec (l_cost l) (l_cells l) D) as (b & B & I).
    assert (O : (if l_updated l && (1 <? length (l_cells l))%nat then blocked (l_cost l) (l_cells l) else Ok false) =
                Ok (l_updated l && (1 <? length (l_cells l))%nat && b)) by (rewrite B; destruct (l_updated l && _); reflexivity).
    assert (OI : l_updated l && (1 <? length (l_cells l))%nat && b = true <-> obstacle_on_path l).
    { unfold obstacle_on_path. rewrite <- I, !Bool.andb_true_iff, Nat.ltb_lt. split; [intros [[? ?] ?]|intros (? & ? & ?)]; repeat split; try assumption; lia. }
    set (late := Rlt_dec (w_next s) (l_now l)).
    destruct (l_map l) eqn:M.
    - destruct (l_jump l) eqn:J.
      + exists true, (w_sw s). split; [reflexivity|]. split; [split; [intros _; right; auto|reflexivity]|discriminate].
      + rewrite O. cbn [bind]. destruct (l_updated l && (1 <? length (l_cells l))%nat && b) eqn:Q.
        * exists true, (w_sw s). split; [reflexivity|]. split; [split; [intros _; right; split; [reflexivity|right; left; apply OI; reflexivity]|reflexivity]|discriminate].
        * destruct (w_sw s) as [p|] eqn:W.
          -- destruct (arrived c (l_robot l) p) eqn:A.
             ++ exists true, None. split; [reflexivity|]. split; [split; [intros _; right; split; [reflexivity|right; right; exists p; split; [reflexivity|apply arrived_iff; exact A]]|reflexivity]|discriminate].
             ++ exists (if late then true else false), (Some p). split; [reflexivity|]. split; [|intros _; reflexivity].
                destruct late as [L|L]; split; try discriminate; auto.
                intros [G|[_ [G|[G|(p' & G & G2)]]]]; [contradiction|discriminate|apply OI in G; congruence|]. injection G as <-. apply arrived_iff in G2. congruence.
          -- exists (if late then true else false), None. split; [reflexivity|]. split; [|intros _; reflexivity].
             destruct late as [L|L]; split; try discriminate; auto.
             intros [G|[_ [G|[G|(p' & G & G2)]]]]; [contradiction|discriminate|apply OI in G; congruence|discriminate].
    - exists (if late then true else false), (w_sw s). split; [reflexivity|]. split; [|intros _; reflexivity].
      destruct late as [L|L]; split; try discriminate; auto. intros [G|[G _]]; [contradiction|discriminate].
  Qed.

  (** At a look the planner plans if and only if there is a reason: the time has come, the robot jumped, a new costmap shows an obstacle on the last path,
      or the robot is at the switch-back point. *)
  Theorem C78_plans_exactly_for_a_reason s l : on_map l ->
    exists s' r, wstep c s l = Ok (s', r) /\ (r = Some (l_plan l) <-> reason s l) /\ (r = None <-> ~ reason s l) /\ (r = None -> s' = s).
  Proof.
    intros D. unfold wstep. destruct (returns_spec s l D) as (b & sw & E & I & K). rewrite E. cbn [bind fst snd]. destruct b.
    - eexists. eexists. split; [reflexivity|]. split; [split; [intros _; apply I; reflexivity|reflexivity]|]. split; [split; [discriminate|intros H; exfalso; apply H, I; reflexivity]|discriminate].
    - rewrite (K eq_refl). exists s, None. split; [destruct s; reflexivity|]. split; [split; [discriminate|intros H; apply I in H; discriminate]|].
      split; [split; [intros _ H; apply I in H; discriminate|reflexivity]|reflexivity].
  Qed.

  (** After planning at [t] the next look that does not plan is not later than one period after [t]: the period of the planning, or the wait of a
      switch-back. *)
  Theorem C78_never_late s l s' t : wstep c s l = Ok (s', Some t) ->
    forall ls s2 l2, wrun c s' ls = Ok (s2, []) -> wstep c s2 l2 = Ok (s2, None) ->
    l_now l2 <= t + match w_sw s' with Some _ => c_sw_wait c | None => 1 / c_freq c end.
  Proof.
    intros E ls s2 l2 R2 E2.
    assert (NX : w_next s' = t + match w_sw s' with Some _ => c_sw_wait c | None => 1 / c_freq c end).
    { unfold wstep in E. destruct (returns c s l) as [[b sw]|]; [|discriminate]. cbn [bind fst snd] in E. destruct b; [|discriminate].
      assert (A : s' = WSt (l_plan l + match new_switch c sw (l_path l) with Some _ => c_sw_wait c | None => 1 / c_freq c end) (new_switch c sw (l_path l)) /\ t = l_plan l).
      { split; congruence. } destruct A as [-> ->]. reflexivity. }
    assert (KP : forall x y r, wstep c x y = Ok r -> snd r = None -> w_next (fst r) = w_next x /\ l_now y <= w_next x).
    { clear. intros x y r E. unfold wstep in E. destruct (returns c x y) as [[b sw]|] eqn:Q; [|discriminate]. cbn [bind fst snd] in E. destruct b.
      - assert (A : r = (WSt (l_plan y + match new_switch c sw (l_path y) with Some _ => c_sw_wait c | None => 1 / c_freq c end) (new_switch c sw (l_path y)), Some (l_plan y))) by congruence.
        subst r. discriminate.
      - assert (A : r = (WSt (w_next x) sw, None)) by congruence. subst r. intros _. split; [reflexivity|].
        unfold returns in Q. destruct (Rlt_dec (w_next x) (l_now y)) as [L|L]; [|lra]. exfalso. destruct (l_map y); [|discriminate].
        destruct (l_jump y); [discriminate|]. match type of Q with bind ?e _ = _ => destruct e as [b|]; [|discriminate] end. cbn [bind] in Q. destruct b; [discriminate|].
        destruct (w_sw x); [|discriminate]. destruct (arrived c (l_robot y) p); discriminate. }
    destruct (KP _ _ _ E2 eq_refl) as [_ L]. rewrite <- NX. eapply Rle_trans; [exact L|]. right. clear - R2 KP.
    revert s' R2. induction ls as [|y ls IH]; intros s' R2; cbn [wrun] in R2; [congruence|].
    destruct (wstep c s' y) as [[s1 o]|] eqn:Y; [|discriminate]. cbn [bind fst snd] in R2. destruct (wrun c s1 ls) as [[s3 q]|] eqn:W; [|discriminate]. cbn [bind fst snd] in R2.
    destruct o as [tt|]; [assert (A : tt :: q = []) by congruence; discriminate|]. assert (A : s3 = s2 /\ q = []) by (split; congruence). destruct A as [-> ->].
    rewrite (IH s1 W). exact (proj1 (KP _ _ _ Y eq_refl)).
  Qed.

  (** The wait of a switch-back is taken only at a path that is driven both ways, at one of its poses. *)
  Theorem C78_waits_only_for_a_reversal s l s' t path p : wstep c s l = Ok (s', Some t) -> l_path l = Published path -> w_sw s' = Some p ->
    In p path /\ exists i j, opposite_at path i j.
  Proof.
    intros E P W. unfold wstep in E. destruct (returns c s l) as [[b sw]|]; [|discriminate]. cbn [bind fst snd] in E. destruct b; [|discriminate].
    assert (A : w_sw s' = new_switch c sw (l_path l)). { assert (Q : s' = WSt (l_plan l + match new_switch c sw (l_path l) with Some _ => c_sw_wait c | None => 1 / c_freq c end) (new_switch c sw (l_path l))) by congruence. rewrite Q. reflexivity. }
    rewrite A, P in W. unfold new_switch in W. destruct (if Rlt_dec 0 (c_sw_wait c) then negb (c_keep c) else false); [|discriminate].
    assert (S := C78_switchback_is_the_first_reversal path). destruct (getSwitchIndex path) as [k|]; [|discriminate].
    split; [eapply nth_error_In; exact W|]. destruct S as (_ & (i & _ & O) & _). eauto.
  Qed.
  (** What the planner waits for after planning: without a path nothing, after a path its first reversal (if waiting is configured), and if it was not ready
      to plan what it waited for before, unless the robot has just come there. *)
  Theorem C78_what_it_waits_for s l s' t : wstep c s l = Ok (s', Some t) ->
    match l_path l with
    | NotReady => w_sw s' = w_sw s \/ (w_sw s' = None /\ exists p, w_sw s = Some p /\ at_switch (l_robot l) p)
    | NoPath => w_sw s' = None
    | Published path =>
        forall p, w_sw s' = Some p <-> 0 < c_sw_wait c /\ c_keep c = false /\
          exists k, nth_error path k = Some p /\ (exists i, (i < k - 1)%nat /\ opposite_at path i (k - 1)) /\
            (forall i j, (i < k - 1)%nat -> (j < k - 1)%nat -> ~ opposite_at path i j)
    end.
  Proof.
    intros E. unfold wstep in E. destruct (returns c s l) as [[b sw]|] eqn:Q; [|discriminate]. cbn [bind fst snd] in E. destruct b; [|discriminate].
    assert (A : w_sw s' = new_switch c sw (l_path l)). { assert (A : s' = WSt (l_plan l + match new_switch c sw (l_path l) with Some _ => c_sw_wait c | None => 1 / c_freq c end) (new_switch c sw (l_path l))) by congruence. rewrite A. reflexivity. }
    rewrite A. clear A E s'. destruct (l_path l) as [| |path]; cbn [new_switch].
    - unfold returns in Q. destruct (l_map l); [|left; congruence]. destruct (l_jump l); [left; congruence|].
      match type of Q with bind ?e _ = _ => destruct e as [b|]; [|discriminate] end. cbn [bind] in Q. destruct b; [left; congruence|].
      destruct (w_sw s) as [p|]; [|left; congruence]. destruct (arrived c (l_robot l) p) eqn:Ar; [|left; congruence].
      right. split; [congruence|]. exists p. split; [reflexivity|apply arrived_iff; exact Ar].
    - reflexivity.
    - intros p. assert (S := C78_switchback_is_the_first_reversal path).
      destruct (Rlt_dec 0 (c_sw_wait c)) as [Hw|Hw]; [|split; [discriminate|intros (H & _); contradiction]].
      destruct (c_keep c); cbn [negb]; [split; [discriminate|intros (_ & H & _); discriminate]|].
      destruct (getSwitchIndex path) as [k|].
      + destruct S as (K & (i0 & I0 & O0) & U). split.
        * intros H. split; [exact Hw|]. split; [reflexivity|]. exists k. split; [exact H|]. split; [eauto|exact U].
        * intros (_ & _ & k' & Hk' & (i & Hi & Oi) & U'). assert (k' = k); [|subst k'; exact Hk'].
          destruct (Nat.lt_trichotomy (k' - 1) (k - 1)) as [L|[L|L]]; [exfalso; eapply (U i (k' - 1)%nat); [lia|lia|exact Oi]|lia|exfalso; eapply (U' i0 (k - 1)%nat); [lia|lia|exact O0]].
      + split; [discriminate|]. intros (_ & _ & k' & _ & (i & _ & Oi) & _). exfalso. exact (S _ _ Oi).
  Qed.
End Wait.

(** ** The hypotheses are met, and what does not hold *)
(** Forward, forward, back. *)
Definition there_and_back : list pose2 := [Pose2 0 0 0; Pose2 1 0 0; Pose2 2 0 0; Pose2 1 0 0].
Lemma counts_line x y a : counts (Pose2 x 0 0) (Pose2 y 0 a) = if Rlt_dec (1 / 1000 * (1 / 1000)) ((y - x) * (y - x)) then true else false.
Proof. unfold counts. cbn [q_x q_y]. replace ((0 - 0) * (0 - 0) + (y - x) * (y - x)) with ((y - x) * (y - x)) by ring. reflexivity. Qed.
Lemma backward_line x y : backward (Pose2 x 0 0) (Pose2 y 0 0) = if Rlt_dec (y - x) 0 then true else false.
Proof. unfold backward. cbn [q_x q_y q_yaw]. rewrite cos_0, sin_0. replace (1 * (y - x) + 0 * (0 - 0)) with (y - x) by ring. reflexivity. Qed.
Example there_and_back_switch : getSwitchIndex there_and_back = Some 3%nat.
Proof.
  unfold getSwitchIndex, there_and_back. cbn [switch_from]. rewrite !counts_line, !backward_line.
  repeat match goal with |- context [Rlt_dec ?a ?b] => destruct (Rlt_dec a b); try lra end. reflexivity.
Qed.
Definition demo_conf : wconf := WConf 4 2 false (1 / 10) (1 / 10).
Definition free_cost (_ : Z * Z * Z) : outcome Z := Ok 0%Z.
(** It plans a path with a switch-back at time 1 and waits for it: nothing happens at 2.9; at 3.1 it plans. *)
Definition look1 : look := Look false true false [] free_cost (Pose2 0 0 0) 1 1 (Published there_and_back).
Definition look2 (t : R) : look := Look true true false [(0, 0, 0); (1, 0, 0)]%Z free_cost (Pose2 0 0 0) t t NotReady.
Lemma far_from_switch : arrived demo_conf (Pose2 0 0 0) (Pose2 1 0 0) = false.
Proof.
  unfold arrived. cbn [q_x q_y]. replace ((0 - 0) * (0 - 0) + (0 - 1) * (0 - 1)) with (1 * 1) by ring. rewrite sqrt_square by lra. cbn [demo_conf c_tol_lin].
  destruct (Rlt_dec 1 (1 / 10)); [lra|reflexivity].
Qed.
Example demo_wait : wstep demo_conf (WSt 0 None) look1 = Ok (WSt (1 + 2) (Some (Pose2 1 0 0)), Some 1) /\
  wstep demo_conf (WSt (1 + 2) (Some (Pose2 1 0 0))) (look2 (29 / 10)) = Ok (WSt (1 + 2) (Some (Pose2 1 0 0)), None) /\
  (exists s, wstep demo_conf (WSt (1 + 2) (Some (Pose2 1 0 0))) (look2 (31 / 10)) = Ok (s, Some (31 / 10))).
Proof.
  assert (S := there_and_back_switch). split; [|split].
  - unfold wstep, returns, look1. cbn [l_map l_jump l_updated l_now w_next w_sw andb bind]. destruct (Rlt_dec 0 1); [|lra]. cbn [bind fst snd l_path l_plan new_switch].
    cbn [demo_conf c_sw_wait c_keep negb]. destruct (Rlt_dec 0 2); [|lra]. rewrite S. reflexivity.
  - unfold wstep, returns, look2. cbn [l_map l_jump l_updated l_cells l_cost l_robot l_now w_next w_sw length Nat.ltb Nat.leb andb bind blocked free_cost Z.eqb].
    rewrite far_from_switch. destruct (Rlt_dec (1 + 2) (29 / 10)); [lra|]. reflexivity.
  - unfold wstep, returns, look2. cbn [l_map l_jump l_updated l_cells l_cost l_robot l_now w_next w_sw length Nat.ltb Nat.leb andb bind blocked free_cost Z.eqb].
    rewrite far_from_switch. destruct (Rlt_dec (1 + 2) (31 / 10)); [|lra]. cbn [bind fst snd]. eexists. reflexivity.
Qed.

(** A switch-back outlives its goal: when the goal is gone (planPath is not ready), the planner goes on with the long wait, round after round; a goal
    that comes in between waits for it. *)
Theorem C78_wait_ends_with_the_goal_refuted : exists s l, l_path l = NotReady /\ w_sw s <> None /\
  exists s', wstep demo_conf s l = Ok (s', Some (l_plan l)) /\ w_next s' = l_plan l + c_sw_wait demo_conf /\ w_sw s' = w_sw s.
Proof.
  exists (WSt (1 + 2) (Some (Pose2 1 0 0))), (look2 (31 / 10)). split; [reflexivity|]. split; [discriminate|]. eexists. split.
  - unfold wstep, returns, look2. cbn [l_map l_jump l_updated l_cells l_cost l_robot l_now w_next w_sw length Nat.ltb Nat.leb andb bind blocked free_cost Z.eqb].
    rewrite far_from_switch. destruct (Rlt_dec (1 + 2) (31 / 10)); [|lra]. cbn [bind fst snd l_path l_plan new_switch]. reflexivity.
  - split; reflexivity.
Qed.
(** The last path is tested against a map it may not fit: a pose outside of the current map is read all the same. *)
Theorem C78_path_of_another_map_is_safe_refuted : exists l s, l_updated l = true /\ l_map l = true /\ wstep demo_conf s l = UB.
Proof.
  exists (Look true true false [(0, 0, 0); (9, 0, 0)]%Z (fun p => if (fst (fst p) <? 5)%Z then Ok 0%Z else UB) (Pose2 0 0 0) 0 0 NotReady), (WSt 1 None).
  repeat split.
Qed.

Print Assumptions C78_switchback_is_the_first_reversal.
Print Assumptions C78_plans_exactly_for_a_reason.
Print Assumptions C78_never_late.
Print Assumptions C78_waits_only_for_a_reversal.
Print Assumptions C78_what_it_waits_for.
Print Assumptions C78_wait_ends_with_the_goal_refuted.
Print Assumptions C78_path_of_another_map_is_safe_refuted.
