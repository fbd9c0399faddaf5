(** C71: what the planner's status tells. *)
From Verif Require Import Common SearchAvail Planner PlannerProofs PlannerLedger PlannerProps.
Local Open Scope Z_scope.

(** *** Specification *)
(** The planner has all it needs: map, goal, robot pose and a costmap that is not too old. *)
Definition ready (C : config) (es : list event) (s : pl) (now : Z) : Prop :=
  has_map s = true /\ has_goal s = true /\ has_start s = true /\ ~ (0 < watchdog C < now - newest false 0 es).
(** More tries failed than allowed. *)
Definition gave_up (C : config) (s : pl) : Prop := max_retry C <> -1 /\ max_retry C < stuck s.
(** The error and the number of poses of the published path, once start and goal are known to be free. *)
Definition answer (C : config) (y : cycle) (continuous : bool) (n : nat) (e : perror) : Prop :=
  match y_start y, continuous with
  | StartOccupied, _ => n = O /\ e = IN_ROCK
  | StartFinishing, false => n = O /\ e = GOING_WELL
  | _, _ =>
      if negb (y_reached y) then n = O /\ e = PATH_NOT_FOUND
      else if y_search y then n = y_poses y /\ e = GOING_WELL
      else n = (if find_best C then y_poses y else O) /\ e = PATH_NOT_FOUND
  end.

(** *** Proofs *)
Lemma ready_spec C es s now y : run C es = Ok s -> ready C es s now ->
  let s1 := refresh C y s in has_map s1 && has_goal s1 && has_start s1 && negb (stale C now s1) = true.
Proof.
  intros R (A & B & D & W). cbv zeta. destruct (refresh_frame C y s) as [a [b [c [d [e [f [_ [g _]]]]]]]].
  pose proof (run_last C es initial s R) as L. cbn [initial has_map last_costmap] in L. unfold stale. rewrite a, b, c, g, L, A, B, D.
  cbn [andb]. apply negb_true_iff. apply not_true_iff_false. rewrite andb_true_iff, !Z.ltb_lt. tauto.
Qed.
Lemma plan_search_answer C y s n t : plan_search C y s = Ok (n, t) -> error s = GOING_WELL ->
  if negb (y_reached y) then n = O /\ error t = PATH_NOT_FOUND
  else if y_search y then n = y_poses y /\ error t = GOING_WELL
  else n = (if find_best C then y_poses y else O) /\ error t = PATH_NOT_FOUND.
Proof.
  unfold plan_search. intros H E. destruct (y_reached y); cbn [negb] in *.
  - destruct (emits_fields (y_progress y) s) as [l [Em _]]. cbv zeta in H. rewrite Em in H.
    destruct (y_search y); [inversion H; subst; cbn; auto|]. destruct (find_best C); inversion H; subst; cbn; auto.
  - inversion H; subst. split; [reflexivity|]. destruct (temporary_escape C); [|reflexivity].
    destruct (escape_goal_frame C (y_found y) (create_inner C (y_inner y)) (set_error PATH_NOT_FOUND s) ltac:(intros; apply create_inner_frame)) as [_ [_ [_ [-> _]]]]. reflexivity.
Qed.
Lemma makePlan_answer C y s n t : makePlan C y s = Ok (n, t) -> error s = GOING_WELL -> isEscaping (esc s) = false ->
  answer C y (active Tolerant s && match tol_goal s with Some c => c | None => false end) n (error t).
Proof.
  unfold makePlan. intros H E NE. rewrite NE in H. unfold deref in H. unfold answer. destruct (active Tolerant s) eqn:A; cbn [andb] in *.
  - destruct (tol_goal s) as [c|]; [|discriminate H]. cbn [bind] in H. destruct (y_start y).
    + inversion H; subst. auto.
    + destruct c; cbn [andb] in H.
      * apply plan_search_answer in H; [exact H|]. cbn. destruct (finish_fields Tolerant Succeeded s) as (_ & _ & _ & _ & -> & _). exact E.
      * inversion H; subst. cbn. auto.
    + destruct c; apply plan_search_answer in H; auto.
  - cbn [bind] in H. destruct (y_start y).
    + inversion H; subst. auto.
    + cbn [andb] in H. inversion H; subst. cbn. auto.
    + apply plan_search_answer in H; auto.
Qed.

(** *** Theorems *)
(** A cycle of a ready planner publishes a path and then the status.  If the start or the goal is blocked, the path is empty and the error tells which; while
    escaping, the error is PATH_NOT_FOUND exactly if the escape does not improve; otherwise path and error follow from the outcome of the search. *)
Theorem C71_status_tells_the_outcome C es s now y t : run C es = Ok s -> ready C es s now -> step C s (ECycle now y) = Ok t ->
  let s1 := refresh C y s in status s1 <> FINISHING -> ~ gave_up C s1 ->
  exists n new, out t = out s ++ new ++ [Path n; Status (status t) (error t)] /\
    if negb (created s1) then n = O /\ new = [] /\ error t = (if occupied s1 then IN_ROCK else PATH_NOT_FOUND)
    else if isEscaping (esc s1) || isEscaping (esc t) then
      error t = (match esc s1, esc t with WITHOUT_IMPROVEMENT, _ | _, WITHOUT_IMPROVEMENT => PATH_NOT_FOUND | _, _ => GOING_WELL end)
    else answer C y (active Tolerant s && match tol_goal s with Some c => c | None => false end) n (error t).
Proof.
  intros R Rd H s1 NF NG. pose proof (ready_spec C es s now y R Rd) as Q. cbv zeta in Q. fold s1 in Q. cbn [step] in H. unfold planPath in H. cbv zeta in H. fold s1 in H.
  pose proof (refresh_frame C y s) as F. fold s1 in F. clearbody s1.
  assert (St : stale C now s1 = false) by (apply andb_true_iff in Q as [_ Q]; destruct (stale C now s1); [discriminate|reflexivity]). rewrite St in H, Q. cbn [negb] in *. rewrite Q in H.
  assert (H' : plan_doing C y (set_switchback false s1) = Ok t).
  { cbn [status set_switchback] in H. destruct (status s1) eqn:E; [exact H|exact H|contradiction]. }
  clear H Q. destruct F as [_ [b [_ [d [e [f [tg [g [h _]]]]]]]]]. unfold plan_doing in H'. cbn [stuck created occupied set_switchback] in H'.
  replace (negb (max_retry C =? -1) && (max_retry C <? stuck s1)) with false in H'.
  2:{ symmetry. apply not_true_iff_false. rewrite andb_true_iff, negb_true_iff, Z.eqb_neq, Z.ltb_lt. exact NG. }
  destruct (created s1); cbn [negb] in *.
  - destruct (makePlan C y (set_error GOING_WELL (set_switchback false s1))) as [[n u]|] eqn:M; [|discriminate H']. cbn [bind] in H'. inversion H'; subst t; clear H'.
    assert (A : exists new, out u = out s1 ++ new).
    { assert (X : exists l, out u = out (set_error GOING_WELL (set_switchback false s1)) ++ l); [|exact X].
      revert M. generalize (set_error GOING_WELL (set_switchback false s1)). clear. intros v M. unfold makePlan in M. destruct (if isEscaping (esc v) then Ok false else deref v) as [c|]; [|discriminate M]. cbn [bind] in M.
      assert (PS : forall w, plan_search C y w = Ok (n, u) -> exists l, out u = out w ++ l).
      { intros w P. apply (plan_search_adds (fun _ => True)) in P; [|exact I]. destruct P as [l [P _]]. exists l. exact P. }
      destruct (y_start y).
      - inversion M; subst. exists []. cbn. rewrite app_nil_r. reflexivity.
      - destruct (isEscaping (esc v)); [|destruct (_ && c)].
        + inversion M; subst. exists []. rewrite app_nil_r. destruct (create_frame C (y_escaped y) (set_esc NOT_ESCAPING v)) as (_ & _ & _ & _ & _ & _ & _ & _ & -> & _). reflexivity.
        + apply PS in M as [l M]. cbn [out set_tol_goal] in M. unfold finish in M. destruct (cur (server_of Tolerant v)); [|eauto]. cbn in M. rewrite <- app_assoc in M. eauto.
        + inversion M; subst. cbn. eauto.
      - apply PS. exact M. }
    destruct A as [new A]. exists n, new. split.
    + unfold publish. destruct (_ || _); cbn; rewrite A, h, <- !app_assoc; reflexivity.
    + cbn [esc set_switchback emit] in *. unfold publish. cbn [esc emit set_switchback] in *.
      destruct (isEscaping (esc u) || isEscaping (esc s1)) eqn:X; cbn [esc set_error emit set_switchback]; rewrite orb_comm in X; rewrite X.
      * cbn. destruct (esc u), (esc s1); reflexivity.
      * cbn. apply orb_false_iff in X as [X _]. pose proof (makePlan_answer C y _ n u M eq_refl X) as Y. unfold active in *. cbn in Y. rewrite f, tg in Y. exact Y.
  - inversion H'; subst t; clear H'. exists O, []. cbn. rewrite h, <- app_assoc. auto.
Qed.

(** Beyond the retry limit the planner gives up: an empty path, the goal is dropped, active actions are aborted.  No status is published then. *)
Theorem C71_gives_up_beyond_the_limit C es s now y t : run C es = Ok s -> ready C es s now -> step C s (ECycle now y) = Ok t ->
  let s1 := refresh C y s in status s1 <> FINISHING -> gave_up C s1 ->
  has_goal t = false /\ status t = DONE /\ error t = PATH_NOT_FOUND /\ (forall w, cur (server_of w t) = None) /\
  out t = out s ++ Path 0 :: (match cur (act s) with Some id => [Result Move id Aborted] | None => [] end) ++ (match cur (tol s) with Some id => [Result Tolerant id Aborted] | None => [] end).
Proof.
  intros R Rd H s1 NF G. pose proof (ready_spec C es s now y R Rd) as Q. cbv zeta in Q. fold s1 in Q. cbn [step] in H. unfold planPath in H. cbv zeta in H. fold s1 in H.
  pose proof (refresh_frame C y s) as F. fold s1 in F. clearbody s1.
  assert (St : stale C now s1 = false) by (apply andb_true_iff in Q as [_ Q]; destruct (stale C now s1); [discriminate|reflexivity]). rewrite St in H, Q. cbn [negb] in *. rewrite Q in H.
  assert (H' : plan_doing C y (set_switchback false s1) = Ok t).
  { cbn [status set_switchback] in H. destruct (status s1) eqn:E; [exact H|exact H|contradiction]. }
  clear H Q. destruct F as [_ [b [_ [d [e [f [tg [g [h _]]]]]]]]]. unfold plan_doing in H'. cbn [stuck created occupied set_switchback] in H'.
  replace (negb (max_retry C =? -1) && (max_retry C <? stuck s1)) with true in H'.
  2:{ symmetry. rewrite andb_true_iff, negb_true_iff, Z.eqb_neq, Z.ltb_lt. exact G. }
  inversion H'; subst t; clear H'. unfold finish_both, finish. cbn. rewrite e. destruct (cur (act s)) eqn:T0; cbn; rewrite f; destruct (cur (tol s)) eqn:T; cbn; rewrite h, <- ?app_assoc; (split; [reflexivity|]; split; [reflexivity|]; split; [reflexivity|]; split; [|reflexivity]); intros []; cbn; rewrite ?e, ?f; auto.
Qed.

(** Otherwise no cycle aborts an action. *)
Definition no_abort (p : pub) : Prop := match p with Result _ _ Aborted => False | _ => True end.
Theorem C71_no_abort_within_the_limit C es s now y t : run C es = Ok s -> step C s (ECycle now y) = Ok t ->
  ~ gave_up C (refresh C y s) -> exists new, out t = out s ++ new /\ forall w id, ~ In (Result w id Aborted) new.
Proof.
  intros R H NG. cut (adds no_abort s t).
  { intros [l [A B]]. exists l. split; [exact A|]. intros w id I. rewrite Forall_forall in B. exact (B _ I). }
  cbn [step] in H. unfold planPath in H. cbv zeta in H. pose proof (adds_frame no_abort _ _ (refresh_frame C y s)) as A1. set (s1 := refresh C y s) in *. clearbody s1.
  set (s2 := if stale C now s1 then _ else s1) in H. assert (A2 : adds no_abort s s2 /\ stuck s2 = stuck s1).
  { unfold s2. destruct (stale C now s1); [|auto]. split; [|reflexivity]. eapply adds_trans; [exact A1|]. apply (adds_emit no_abort (Path 0) (set_error DATA_MISSING s1)). exact I. }
  destruct A2 as [A2 K]. clearbody s2. destruct (_ && negb (stale C now s1)).
  - set (s3 := set_switchback false s2) in H. assert (A3 : adds no_abort s s3) by exact A2. assert (K3 : stuck s3 = stuck s1) by exact K. clearbody s3.
    assert (D : plan_doing C y s3 = Ok t -> adds no_abort s t).
    { clear H. unfold plan_doing. rewrite K3. replace (negb (max_retry C =? -1) && (max_retry C <? stuck s1)) with false.
      2:{ symmetry. apply not_true_iff_false. rewrite andb_true_iff, negb_true_iff, Z.eqb_neq, Z.ltb_lt. exact NG. }
      destruct (negb (created s3)).
      - intros H. inversion H; subst. unfold publish. eapply adds_trans; [|apply adds_emit; exact I]. eapply adds_trans; [|apply adds_emit; exact I]. exact A3.
      - destruct (makePlan C y (set_error GOING_WELL s3)) as [[n u]|] eqn:M; [|discriminate]. cbn [bind]. intros H. inversion H; subst; clear H.
        assert (Mu : adds no_abort s u).
        { eapply adds_trans; [exact A3|]. eapply (adds_out _ (set_error GOING_WELL s3)); [reflexivity|reflexivity|]. revert M. unfold makePlan.
          destruct (if isEscaping _ then _ else _) as [c|]; [|discriminate]. cbn [bind]. destruct (y_start y).
          - intros M. inversion M; subst. apply adds_refl. reflexivity.
          - destruct (isEscaping _); [|destruct (_ && c)].
            + intros M. inversion M; subst. eapply adds_trans; [|apply adds_frame, create_frame]. apply adds_refl. reflexivity.
            + intros M. apply (plan_search_adds no_abort) in M; [|exact I]. eapply adds_trans; [|exact M].
              eapply (adds_out _ (set_error GOING_WELL s3)); [reflexivity| |apply (adds_finish no_abort Tolerant Succeeded)]; [reflexivity|]. intros id _. exact I.
            + intros M. inversion M; subst. eapply (adds_out _ (set_error GOING_WELL s3)); [reflexivity| |apply (adds_emit no_abort (Path 1)); exact I]. reflexivity.
          - intros M. apply (plan_search_adds no_abort) in M; [|exact I]. exact M. }
        unfold publish. eapply adds_trans; [|apply adds_emit; exact I].
        assert (X : adds no_abort s (emit (Path n) u)) by (eapply adds_trans; [exact Mu|apply adds_emit; exact I]). destruct (_ || _); exact X. }
    destruct (status s3); [exact (D H)|exact (D H)|]. unfold plan_finishing in H. destruct (deref s3); [|discriminate]. cbn [bind] in H.
    destruct (y_final y); inversion H; subst; unfold publish; (eapply adds_trans; [|apply adds_emit; exact I]).
    + eapply adds_trans; [exact A3|]. eapply (adds_out _ (set_goal false (set_status DONE s3))); [reflexivity|reflexivity|]. apply adds_finish_both. intros w id _. exact I.
    + eapply adds_trans; [exact A3|]. apply adds_emit. exact I.
  - destruct (negb (has_goal s2)); inversion H; subst; unfold publish; (eapply adds_trans; [|apply adds_emit; exact I]); [|exact A2].
    eapply adds_trans; [|apply adds_emit; exact I]. destruct (retain C); exact A2.
Qed.

(** What counts as a failed try: a start or goal that is blocked and has no free pose around.  The flags tell which. *)
Theorem C71_blocked_tries_are_counted C c s : has_map s = true -> has_goal s = true -> has_start s = true ->
  temporary_escape C && crowd C = false \/ r_goal (cc_res c) <> PInRock ->
  let r := cc_res c in let t := snd (create C c s) in
  let fine p := match p with POk | PRelocated => true | _ => false end in
  created t = fine (r_start r) && fine (r_goal r) /\
  occupied t = (match r_start r with PInRock => true | _ => false end) /\
  stuck t = stuck s + (match r_start r, r_goal r with
                       | PInRock, _ => 1
                       | (POk | PRelocated), PInRock => if isEscaping (esc s) then 0 else 1
                       | _, _ => 0 end).
Proof.
  intros M G S E. cbv zeta. unfold create, create_body. rewrite M, G, S. cbn [negb andb].
  destruct (r_start (cc_res c)); cbn; try (split; [reflexivity|]; split; [reflexivity|]; cbn; lia);
  (destruct (r_goal (cc_res c)); cbn; try (split; [reflexivity|]; split; [reflexivity|]; cbn; lia);
   destruct (isEscaping (esc s)); cbn; [split; [reflexivity|]; split; [reflexivity|]; lia|];
   destruct E as [E|E]; [rewrite E; cbn; split; [reflexivity|]; split; [reflexivity|]; lia|congruence]).
Qed.

(** A goal is refused, with a result for its action, if it or the robot is outside of the map, and leaves no goal behind. *)
Definition refused (r : cres) : Prop := r_start r = POutOfMap \/ (r_start r <> PInRock /\ r_goal r = POutOfMap).
Theorem C71_goals_outside_of_the_map_are_aborted C es s w id g t : run C es = Ok s -> step C s (EAction w id g) = Ok t ->
  has_map s = true -> has_start s = true -> cur (server_of (other w) s) = None -> g_frame g = true -> g_unit g = true -> refused (cc_res (g_create g)) ->
  has_goal t = false /\ (forall v, cur (server_of v t) = None) /\ exists l, out t = out s ++ l ++ [Result w id Aborted].
Proof.
  intros R E M S O F U X. apply run_good in R. cbn [step] in E. change (goal_arrives C w id g s) with (cbAction C w g (arrived w id s)) in E.
  destruct (arrived_spec w id s R) as [Ga [a1 [a2 a3]]].
  assert (Fa : has_map (arrived w id s) = true /\ has_start (arrived w id s) = true /\ cur (server_of (other w) (arrived w id s)) = None /\ exists l, out (arrived w id s) = out s ++ l).
  { unfold arrived. set (s1 := match next (server_of w s) with Some n => _ | None => s end).
    assert (F1 : has_map s1 = true /\ has_start s1 = true /\ act s1 = act s /\ tol s1 = tol s /\ exists l, out s1 = out s ++ l).
    { unfold s1. destruct (next (server_of w s)); cbn; [|split; [exact M|]; split; [exact S|]; split; [reflexivity|]; split; [reflexivity|]; exists []; rewrite app_nil_r; reflexivity].
      split; [exact M|]. split; [exact S|]. split; [reflexivity|]. split; [reflexivity|]. eexists. reflexivity. }
    clearbody s1. destruct F1 as (m1 & st1 & ac1 & tl1 & l & o1). set (s2 := set_server w _ s1).
    assert (F2 : has_map s2 = true /\ has_start s2 = true /\ server_of (other w) s2 = server_of (other w) s /\ out s2 = out s ++ l).
    { unfold s2. destruct w; cbn; rewrite ?ac1, ?tl1; auto. }
    clearbody s2. destruct F2 as (m2 & st2 & sv2 & o2). destruct (active w s2).
    - unfold cbPreempt, finish_both, finish. cbn. destruct w; cbn [other server_of] in *.
      + rewrite <- sv2 in O. cbn in O. destruct (cur (act s2)); cbn; rewrite O; cbn; rewrite O, o2, <- ?app_assoc; repeat (split; [auto|]); eexists; reflexivity.
      + rewrite <- sv2 in O. cbn in O. rewrite O. destruct (cur (tol s2)); cbn; rewrite O, o2, <- ?app_assoc; repeat (split; [auto|]); eexists; reflexivity.
    - split; [exact m2|]. split; [exact st2|]. split; [rewrite sv2; exact O|eauto]. }
  destruct Fa as (m & st & o & l & ol). set (a := arrived w id s) in *. clearbody a. unfold cbAction in E.
  replace (active (other w) a) with false in E by (unfold active; rewrite o; reflexivity). unfold accept in E. rewrite a2 in E. cbn [bind] in E.
  assert (Fn : finish w Canceled a = a). { unfold finish. unfold active in a1. destruct (cur (server_of w a)); [discriminate|reflexivity]. }
  rewrite Fn in E. set (b := match w with Tolerant => _ | Move => _ end) in E.
  assert (Fb : has_map b = true /\ has_start b = true /\ cur (server_of w b) = Some id /\ cur (server_of (other w) b) = None /\ out b = out a).
  { unfold b. destruct w; cbn in *; auto. }
  clearbody b. destruct Fb as (mb & sb & cb & ob & outb). unfold setGoal in E. rewrite F, U in E. cbn [negb] in E. set (d := set_stuck 0 _) in E.
  assert (Cr : fst (create C (g_create g) d) = false).
  { unfold create, create_body. change (has_goal d) with true. change (has_map d) with (has_map b). change (has_start d) with (has_start b). rewrite mb, sb. cbn [negb andb].
    destruct X as [X|[X1 X2]]; [rewrite X; reflexivity|]. rewrite X2. destruct (r_start (cc_res (g_create g))); try reflexivity. contradiction. }
  pose proof (create_frame C (g_create g) d) as Fr. destruct (create C (g_create g) d) as [ok u]. cbn [fst snd] in Cr, Fr. subst ok. cbn [negb] in E.
  destruct Fr as (_ & _ & _ & _ & ea & et & _ & _ & eo & _). change (act d) with (act b) in ea. change (tol d) with (tol b) in et. change (out d) with (out b) in eo.
  inversion E; subst t; clear E. unfold finish. destruct w; cbn [server_of set_goal other] in *.
  - cbn. rewrite ea, cb. cbn. split; [reflexivity|]. split; [intros []; cbn; [reflexivity|rewrite et; exact ob]|]. exists l. rewrite eo, outb, ol, <- app_assoc. reflexivity.
  - cbn. rewrite et, cb. cbn. split; [reflexivity|]. split; [intros []; cbn; [rewrite ea; exact ob|reflexivity]|]. exists l. rewrite eo, outb, ol, <- app_assoc. reflexivity.
Qed.

(** Without a robot pose no path is planned, but the status keeps telling that all is well. *)
Theorem C71_missing_robot_pose_is_reported_refuted : exists C es s, run C es = Ok s /\
  out s = [Path 0; Status DOING GOING_WELL; Status DOING GOING_WELL; Status DOING GOING_WELL] /\ has_start s = false.
Proof.
  exists (Config 0 false 3 true true true false), [EMap free_call; EGoal good_goal; ECycle 1 any_cycle; ECycle 2 any_cycle]. eexists. split; [vm_compute; reflexivity|]. split; reflexivity.
Qed.

(** *** The hypotheses are met *)
Example ex_status : exists C es s t, run C es = Ok s /\ ready C es s 2 /\ step C s (ECycle 2 any_cycle) = Ok t /\ status (refresh C any_cycle s) <> FINISHING /\ ~ gave_up C (refresh C any_cycle s) /\
  out t = out s ++ [Path 5; Status DOING GOING_WELL].
Proof.
  exists (Config 0 false 3 true true true false), [EMap free_call; EStart true; EGoal good_goal; ECycle 1 any_cycle]. do 2 eexists. split; [vm_compute; reflexivity|].
  split; [split; [reflexivity|]; split; [reflexivity|]; split; [reflexivity|]; cbn; lia|]. split; [vm_compute; reflexivity|]. split; [vm_compute; discriminate|]. split; [intros [_ X]; vm_compute in X; discriminate X|reflexivity].
Qed.
Example ex_refused : exists C es s t, run C es = Ok s /\ step C s (EAction Move 7 (Goal true true false (CCall (CRes POk POutOfMap) EscNone (CRes POk POk)))) = Ok t /\ has_map s = true /\ has_start s = true /\
  refused (CRes POk POutOfMap) /\ out t = out s ++ [Result Move 7 Aborted].
Proof.
  exists (Config 0 false 2 false false true false), [EMap free_call; EStart true]. do 2 eexists. split; [vm_compute; reflexivity|]. split; [vm_compute; reflexivity|].
  split; [reflexivity|]. split; [reflexivity|]. split; [right; split; [discriminate|reflexivity]|reflexivity].
Qed.
Definition blocked_call : ccall := CCall (CRes POk PInRock) EscNone (CRes POk POk).
Definition blocked_goal : goal := Goal true true false blocked_call.
Definition blocked_cycle : cycle := Cycle blocked_call false StartNormal free_call true EscNone (CRes POk POk) 0 true 5 false.
Example ex_gave_up : exists C es s t, run C es = Ok s /\ ready C es s 2 /\ step C s (ECycle 2 blocked_cycle) = Ok t /\ status (refresh C blocked_cycle s) <> FINISHING /\ gave_up C (refresh C blocked_cycle s) /\
  out t = out s ++ [Path 0; Result Move 7 Aborted].
Proof.
  exists (Config 0 false 2 false false true false), [EMap free_call; EStart true; EAction Move 7 blocked_goal; ECycle 1 blocked_cycle]. do 2 eexists. split; [vm_compute; reflexivity|].
  split; [split; [reflexivity|]; split; [reflexivity|]; split; [reflexivity|]; cbn; lia|]. split; [vm_compute; reflexivity|]. split; [vm_compute; discriminate|]. split; [split; [discriminate|vm_compute; reflexivity]|reflexivity].
Qed.

Print Assumptions C71_status_tells_the_outcome.
Print Assumptions C71_gives_up_beyond_the_limit.
Print Assumptions C71_no_abort_within_the_limit.
Print Assumptions C71_blocked_tries_are_counted.
Print Assumptions C71_goals_outside_of_the_map_are_aborted.
