(** C15: goals.  C16: the costmap watchdog. *)
From Verif Require Import Common SearchAvail Planner PlannerProofs PlannerLedger.
From Coq Require Import Permutation.
Local Open Scope Z_scope.

(** C15.  For every history of goals, cancellations, maps, costmap updates, poses, escape triggers and planning cycles nothing is undefined
    (no null goal is read), a node with a goal is not reported as done, an active action always has a goal behind it, and the two
    actions are never active together. *)
Theorem C15_goal_state_is_consistent : forall C es, exists s, run C es = Ok s /\
  (has_goal s = true -> status s <> DONE) /\
  (forall w, cur (server_of w s) <> None -> has_goal s = true) /\
  (cur (act s) = None \/ cur (tol s) = None).
Proof.
  intros C es. destruct (run_from_good C es initial good_initial) as [s [E G]]. exists s. split; [exact E|]. split; [apply (goal_busy s G)|]. split.
  - intros w H. apply (active_goal s G w). unfold active. destruct (cur _); congruence.
  - pose proof (one_active s G) as O. unfold active in O. cbn in O. destruct (cur (act s)), (cur (tol s)); auto. exfalso. auto.
Qed.

Lemma NoDup_left (l h : list Z) : NoDup (l ++ h) -> NoDup l.
Proof. induction l as [|x l IH]; cbn; intros Q; [constructor|]. inversion Q; subst. constructor; [intros X; apply H1; apply in_or_app; auto|auto]. Qed.
Lemma NoDup_disjoint (l h : list Z) x : NoDup (l ++ h) -> In x l -> ~ In x h.
Proof.
  induction l as [|y l IH]; cbn; [intros _ []|]. intros Q H Y. inversion Q; subst. destruct H as [->|H].
  - apply H2. apply in_or_app. auto.
  - exact (IH H3 H Y).
Qed.
(** C15.  Goals with distinct ids: every goal received by a server has exactly one of: one result, being active, being pending. *)
Theorem C15_goals_are_answered_at_most_once : forall C es s w, run C es = Ok s -> NoDup (received w es) ->
  NoDup (results_of w (out s)) /\
  (forall id, In id (received w es) <->
     (In id (results_of w (out s)) \/ cur (server_of w s) = Some id \/ next (server_of w s) = Some id)) /\
  (forall id, In id (results_of w (out s)) -> cur (server_of w s) <> Some id /\ next (server_of w s) <> Some id).
Proof.
  intros C es s w H N. pose proof (run_ledger C es s w H) as P.
  assert (Hd : forall id, In id (held w s) <-> (cur (server_of w s) = Some id \/ next (server_of w s) = Some id)).
  { intros id. unfold held. destruct (server_of w s) as [[a|] [b|]]; cbn; intuition congruence. }
  assert (ND : NoDup (results_of w (out s) ++ held w s)) by (eapply Permutation_NoDup; [symmetry; exact P|exact N]).
  split; [|split].
  - eapply NoDup_left. exact ND.
  - intros id. rewrite <- Hd. rewrite <- in_app_iff. split; [exact (Permutation_in id (Permutation_sym P))|exact (Permutation_in id P)].
  - intros id Hr. assert (X : ~ In id (held w s)) by (exact (NoDup_disjoint _ _ _ ND Hr)).
    rewrite Hd in X. tauto.
Qed.

(** C15.  A goal becomes active only when it arrives, in the frame of the map and with a unit orientation. *)
Theorem C15_only_valid_goals_become_active : forall C es s e t w id, run C es = Ok s -> step C s e = Ok t ->
  cur (server_of w t) = Some id -> cur (server_of w s) <> Some id ->
  exists g, e = EAction w id g /\ g_frame g = true /\ g_unit g = true.
Proof.
  intros C es s e t w id H E K N. apply run_good in H. destruct (is_action e) eqn:A.
  - destruct e as [|v i g| | | | | |]; try discriminate. destruct (action_cur C v i g s t w id H E K) as [X|[-> [-> X]]]; [contradiction|]. eauto.
  - destruct (keeps_step C s e t E A w) as [[X|X] _]; congruence.
Qed.
(** C15.  A goal with an invalid orientation is never active, and clears the goal of the node if it is in the map frame and no other action runs. *)
Theorem C15_invalid_orientation_clears_the_goal : forall C es s w id g t, run C es = Ok s -> step C s (EAction w id g) = Ok t -> g_unit g = false ->
  cur (server_of w t) = None /\ (g_frame g = true -> cur (server_of (other w) s) = None -> has_goal t = false /\ cur (act t) = None /\ cur (tol t) = None).
Proof.
  intros C es s w id g t H E U. apply run_good in H. cbn [step] in E. change (goal_arrives C w id g s) with (cbAction C w g (arrived w id s)) in E.
  destruct (arrived_spec w id s H) as [Ga [a1 [a2 a3]]].
  destruct (cbAction_spec C w g _ t Ga a1 ltac:(congruence) E) as [Gt [X Y]]. specialize (X U).
  split; [unfold active in X; destruct (cur _); congruence|]. intros F O.
  assert (Z : has_goal t = false). { apply Y; auto. apply a3. unfold active. rewrite O. reflexivity. }
  split; [exact Z|]. pose proof (active_goal t Gt) as W.
  split.
  - specialize (W Move). unfold active in W. cbn in W. destruct (cur (act t)); [rewrite W in Z by reflexivity; discriminate|reflexivity].
  - specialize (W Tolerant). unfold active in W. cbn in W. destruct (cur (tol t)); [rewrite W in Z by reflexivity; discriminate|reflexivity].
Qed.

(** C15.  Success is reported only in a planning cycle that finds the final orientation reached, or, in continuous movement mode, the goal
    position; or for a goal that clears the current one. *)
Definition planning (e : event) (y : cycle) : Prop := (exists now, e = ECycle now y) \/ (exists now fits c, e = ECostmap now fits c y).
Definition earned (s : pl) (e : event) (w : which) (id : Z) : Prop :=
  (cur (server_of w s) = Some id /\ exists y, planning e y /\
     ((status s = FINISHING /\ y_final y = true) \/ (w = Tolerant /\ y_start y = StartFinishing /\ tol_goal s = Some true))) \/
  (exists g, e = EAction w id g /\ g_unit g = false).
Definition ok_pub (s : pl) (e : event) (p : pub) : Prop := match p with Result w id Succeeded => earned s e w id | _ => True end.

Lemma plan_search_adds (P : pub -> Prop) C y s n t : P (Path 0) -> plan_search C y s = Ok (n, t) -> adds P s t.
Proof.
  intros HP. unfold plan_search. pose proof (adds_emits P (y_progress y) (Path 0) s HP) as A. destruct (y_reached y); cbn [negb].
  - destruct (y_search y); [intros H; inversion H; subst; exact A|]. destruct (find_best C); intros H; inversion H; subst; exact A.
  - intros H. inversion H; subst. destruct (temporary_escape C); [|apply adds_refl; reflexivity].
    eapply adds_trans; [|apply adds_frame, escape_goal_frame; intros; apply create_inner_frame]. apply adds_refl. reflexivity.
Qed.
Lemma planPath_adds s e y C now a t : planning e y -> out a = out s -> act a = act s -> tol a = tol s -> tol_goal a = tol_goal s ->
  (status a = FINISHING -> status s = FINISHING) -> planPath C now y a = Ok t -> adds (ok_pub s e) a t.
Proof.
  intros Pl Ho Ha Ht Hg Hs. unfold planPath. cbv zeta. pose proof (refresh_frame C y a) as F. set (s1 := refresh C y a) in *.
  assert (F1 : act s1 = act s /\ tol s1 = tol s /\ tol_goal s1 = tol_goal s /\ (status s1 = FINISHING -> status s = FINISHING) /\ adds (ok_pub s e) a s1).
  { pose proof (adds_frame (ok_pub s e) _ _ F). unfold frame in F. decompose [and] F. repeat (split; [congruence|]). split; [|assumption]. intros X. apply Hs. destruct H10 as [Y|[Y Z]]; congruence. }
  clear F. clearbody s1. destruct F1 as [a1 [b1 [c1 [d1 e1]]]].
  set (s2 := if stale C now s1 then emit (Path 0) (set_error DATA_MISSING s1) else s1).
  assert (F2 : act s2 = act s /\ tol s2 = tol s /\ tol_goal s2 = tol_goal s /\ (status s2 = FINISHING -> status s = FINISHING) /\ adds (ok_pub s e) a s2).
  { unfold s2. destruct (stale C now s1); [|auto]. repeat (split; [assumption|]). eapply adds_trans; [exact e1|]. apply (adds_emit (ok_pub s e) (Path 0) (set_error DATA_MISSING s1)). exact I. }
  clearbody s2. clear a1 b1 c1 d1 e1. destruct F2 as [a2 [b2 [c2 [d2 e2]]]].
  assert (SV : forall w u, act u = act s -> tol u = tol s -> server_of w u = server_of w s) by (intros [] u; cbn; congruence).
  destruct (_ && negb (stale C now s1)).
  - set (s3 := set_switchback false s2). assert (a3 : act s3 = act s) by exact a2. assert (b3 : tol s3 = tol s) by exact b2. assert (c3 : tol_goal s3 = tol_goal s) by exact c2.
    assert (d3 : status s3 = FINISHING -> status s = FINISHING) by exact d2. assert (e3 : adds (ok_pub s e) a s3) by exact e2. clearbody s3. clear a2 b2 c2 d2 e2.
    assert (D : plan_doing C y s3 = Ok t -> adds (ok_pub s e) a t).
    { unfold plan_doing. destruct (_ && _).
      - intros H. inversion H; subst. eapply adds_trans; [|apply adds_finish_both; intros; exact I]. eapply adds_trans; [exact e3|].
        eapply adds_out; [..|apply (adds_emit (ok_pub s e) (Path 0) s3); exact I]; reflexivity.
      - destruct (negb (created s3)).
        + intros H. inversion H; subst. unfold publish. eapply adds_trans; [|apply adds_emit; exact I]. eapply adds_trans; [|apply adds_emit; exact I]. exact e3.
        + destruct (makePlan C y (set_error GOING_WELL s3)) as [[n u]|] eqn:M; [|discriminate]. cbn [bind].
          assert (Mu : adds (ok_pub s e) a u).
          { eapply adds_trans; [exact e3|]. eapply (adds_out _ (set_error GOING_WELL s3)); [reflexivity|reflexivity|]. revert M. unfold makePlan.
            destruct (if isEscaping _ then _ else _) as [c|] eqn:Dc; [|discriminate]. cbn [bind]. destruct (y_start y) eqn:Ys.
            - intros M. inversion M; subst. apply adds_refl. reflexivity.
            - cbn [esc set_error] in *. destruct (isEscaping (esc s3)).
              + intros M. inversion M; subst. eapply adds_trans; [|apply adds_frame, create_frame]. apply adds_refl. reflexivity.
              + destruct (_ && c) eqn:Ac.
                * intros M. apply (plan_search_adds (ok_pub s e)) in M; [|exact I]. eapply adds_trans; [|exact M].
                  eapply (adds_out _ (set_error GOING_WELL s3)); [reflexivity| |apply (adds_finish (ok_pub s e) Tolerant Succeeded)]; [reflexivity|].
                  intros id Hid. left. cbn in Hid. split; [cbn; rewrite <- b3; exact Hid|]. exists y. split; [exact Pl|]. right. split; [reflexivity|]. split; [exact Ys|].
                  apply andb_true_iff in Ac. destruct Ac as [Ac ->]. unfold deref in Dc. rewrite Ac in Dc. cbn in Dc. rewrite c3 in Dc. destruct (tol_goal s); congruence.
                * intros M. inversion M; subst. eapply (adds_out _ (set_error GOING_WELL s3)); [reflexivity| |apply (adds_emit (ok_pub s e) (Path 1)); exact I]. reflexivity.
            - intros M. apply (plan_search_adds (ok_pub s e)) in M; [|exact I]. exact M. }
          intros H. inversion H; subst. unfold publish. eapply adds_trans; [|apply adds_emit; exact I].
          assert (X : adds (ok_pub s e) a (emit (Path n) u)) by (eapply adds_trans; [exact Mu|apply adds_emit; exact I]).
          destruct (_ || _); exact X. }
    destruct (status s3) eqn:Es; [exact D|exact D|]. unfold plan_finishing. destruct (deref s3); [|discriminate]. cbn [bind].
    destruct (y_final y) eqn:Yf; intros H; inversion H; subst; unfold publish; (eapply adds_trans; [|apply adds_emit; exact I]).
    + eapply adds_trans; [exact e3|]. eapply (adds_out _ (set_goal false (set_status DONE s3))); [reflexivity|reflexivity|].
      apply adds_finish_both. intros w id Hid. left. split; [rewrite <- (SV w (set_goal false (set_status DONE s3))) by assumption; exact Hid|].
      exists y. split; [exact Pl|]. left. auto.
    + eapply adds_trans; [exact e3|]. apply adds_emit. exact I.
  - destruct (negb (has_goal s2)); intros H; inversion H; subst; unfold publish; (eapply adds_trans; [|apply adds_emit; exact I]); [|exact e2].
    eapply adds_trans; [|apply adds_emit; exact I]. destruct (retain C); exact e2.
Qed.
Theorem C15_success_is_earned : forall C es s e t, run C es = Ok s -> step C s e = Ok t ->
  exists new, out t = out s ++ new /\ forall w id, In (Result w id Succeeded) new -> earned s e w id.
Proof.
  intros C es s e t R H. apply run_good in R. cut (adds (ok_pub s e) s t).
  { intros [l [A B]]. exists l. split; [exact A|]. intros w id Hin. rewrite Forall_forall in B. exact (B _ Hin). }
  destruct e as [g|v id g|v id|c|b|now fits c y|f r|now y]; cbn [step] in H.
  - inversion H; subst. unfold cbGoal. destruct (active Move s) eqn:A; [apply adds_refl; reflexivity|]. destruct (active Tolerant s) eqn:B; [apply adds_refl; reflexivity|].
    cbn [orb]. apply adds_setGoal; [intros; exact I|]. intros _ w id Hid. exfalso. unfold active in *. destruct w; cbn in *; rewrite Hid in *; discriminate.
  - change (goal_arrives C v id g s) with (cbAction C v g (arrived v id s)) in H. destruct (arrived_spec v id s R) as [Ga [a1 [a2 _]]].
    assert (Ad : adds (ok_pub s (EAction v id g)) s (arrived v id s)).
    { unfold arrived. set (s1 := match next (server_of v s) with Some n => _ | None => s end). set (s2 := set_server v _ s1).
      assert (X : adds (ok_pub s (EAction v id g)) s s2).
      { unfold s2, s1. destruct (next (server_of v s)); [|destruct v; apply adds_refl; reflexivity].
        eapply adds_trans; [apply (adds_emit _ (Result v z Canceled)); exact I|]. destruct v; apply adds_refl; reflexivity. }
      destruct (active v s2); [|exact X]. eapply adds_trans; [exact X|]. unfold cbPreempt. eapply (adds_out _ s2); [reflexivity|reflexivity|]. apply (adds_finish_both _ Canceled). intros; exact I. }
    eapply adds_trans; [exact Ad|]. set (a := arrived v id s) in *. clearbody a. revert H. unfold cbAction. destruct (active (other v) a) eqn:Ao; [intros H; inversion H; apply adds_refl; reflexivity|].
    unfold accept. rewrite a2. cbn [bind]. set (b := match v with Tolerant => _ | Move => _ end).
    assert (B : adds (ok_pub s (EAction v id g)) a b).
    { eapply adds_trans; [apply (adds_finish _ v Canceled); intros; exact I|]. apply adds_refl. unfold b. destruct v; reflexivity. }
    assert (Cu : cur (server_of v b) = Some id /\ cur (server_of (other v) b) = None).
    { assert (No : cur (server_of (other v) a) = None) by (unfold active in Ao; destruct (cur (server_of (other v) a)); [discriminate|reflexivity]).
      unfold b. destruct (finish_fields v Canceled a) as [_ [_ [_ [_ [_ [_ [_ [_ [_ [_ f]]]]]]]]]]. destruct v; cbn in *; rewrite ?f; auto. }
    clearbody b. destruct Cu as [c1 c2].
    assert (Sg : adds (ok_pub s (EAction v id g)) b (snd (setGoal C g b))).
    { apply adds_setGoal; [intros; exact I|]. intros U w i Hi. right. exists g. split; [|exact U].
      assert (w = v /\ i = id) by (destruct w, v; cbn [other] in *; split; congruence). destruct H; subst; reflexivity. }
    destruct (setGoal C g b) as [ok u]. cbn [snd] in Sg. intros H. inversion H; subst. eapply adds_trans; [exact B|]. eapply adds_trans; [exact Sg|].
    destruct ok; [apply adds_refl; reflexivity|]. apply adds_finish. intros; exact I.
  - inversion H; subst. unfold cancel_arrives. destruct (cur _); [|apply adds_refl; reflexivity]. destruct (_ =? _); [|apply adds_refl; reflexivity].
    unfold cbPreempt. eapply (adds_out _ s); [reflexivity|reflexivity|]. apply (adds_finish_both _ Canceled). intros; exact I.
  - inversion H; subst. eapply adds_trans; [|apply adds_frame, create_frame]. apply (adds_emit _ (Path 0)). exact I.
  - inversion H; subst. apply adds_refl. reflexivity.
  - destruct (negb (has_map s)); [inversion H; subst; apply adds_refl; reflexivity|]. cbv zeta in H.
    assert (X : out (apply_costmap C now fits c s) = out s /\ act (apply_costmap C now fits c s) = act s /\ tol (apply_costmap C now fits c s) = tol s /\ tol_goal (apply_costmap C now fits c s) = tol_goal s /\
      (status (apply_costmap C now fits c s) = FINISHING -> status s = FINISHING)).
    { unfold apply_costmap. destruct fits; cbn [negb]; [|auto]. destruct (negb _); [cbn; auto|]. destruct c as [c'|]; [|cbn; auto].
      pose proof (create_frame C c' (set_last now s)) as F. unfold frame in F. cbn in F. decompose [and] F. repeat (split; [congruence|]). intros Y. destruct H10 as [Z|[Z W]]; congruence. }
    destruct X as [x1 [x2 [x3 [x4 x5]]]]. destruct (trigger C).
    + eapply (adds_out _ (apply_costmap C now fits c s)); [exact x1|reflexivity|].
      eapply planPath_adds; [| exact x1|exact x2|exact x3|exact x4|exact x5|exact H]. right. eauto.
    + inversion H; subst. apply adds_refl. exact x1.
  - inversion H; subst. destruct (has_map s); [|apply adds_refl; reflexivity]. apply adds_frame, escape_goal_frame. intros. apply create_inner_frame.
  - eapply planPath_adds; [..|exact H]; auto. left. eauto.
Qed.

(** C15.  Without a goal a planning cycle publishes only empty paths. *)
Theorem C15_no_goal_no_path : forall C es s now y t, run C es = Ok s -> has_goal s = false -> step C s (ECycle now y) = Ok t ->
  has_goal t = false /\ status t = status s /\ exists e, (out t = out s ++ [Path 0; Status (status t) e] \/ out t = out s ++ [Path 0; Path 0; Status (status t) e]).
Proof.
  intros C es s now y t _ Hg. cbn [step]. unfold planPath, refresh. rewrite Hg, !andb_false_r. cbv zeta.
  destruct (stale C now s); cbn [has_map has_goal has_start emit set_error]; rewrite Hg, ?andb_false_r, ?andb_false_l; cbn [negb andb];
  intros H; inversion H; subst; clear H; destruct (retain C); cbn; (split; [exact Hg|]); (split; [reflexivity|]); eexists; rewrite <- ?app_assoc; cbn; eauto.
Qed.

(** C15, false direction: a node without a goal is not always reported as done.  After a goal on the topic, a goal with an invalid orientation
    clears it, and the status stays DOING in every later cycle. *)
Definition free_call : ccall := CCall (CRes POk POk) EscNone (CRes POk POk).
Definition good_goal : goal := Goal true true false free_call.
Definition bad_goal : goal := Goal true false false free_call.
Definition plain : config := Config 1 false (-1) true true true false.
Fixpoint cycles (l : list (Z * cycle)) : list event := match l with [] => [] | (n, y) :: r => ECycle n y :: cycles r end.
Theorem C15_no_goal_means_done_refuted : exists es, forall l, exists s, run plain (es ++ cycles l) = Ok s /\ has_goal s = false /\ status s = DOING.
Proof.
  exists [EMap free_call; EStart true; EGoal good_goal; EGoal bad_goal]. intros l.
  assert (X : forall s, has_goal s = false -> status s = DOING -> good s -> exists t, foldM (step plain) (cycles l) s = Ok t /\ has_goal t = false /\ status t = DOING).
  { induction l as [|[n y] l IH]; intros s Hg Hs G; cbn [cycles foldM]; [eauto|].
    destruct (step_good plain s (ECycle n y) G) as [t [E Gt]]. rewrite E. cbn [bind].
    assert (has_goal t = false /\ status t = status s) as [Ht Hst].
    { revert E. cbn [step]. unfold planPath, refresh. rewrite Hg, !andb_false_r. cbv zeta.
      destruct (stale plain n s); cbn [has_map has_goal has_start emit set_error]; rewrite Hg, ?andb_false_r, ?andb_false_l; cbn [negb andb]; intros E; inversion E; subst; cbn; auto. }
    apply IH; [assumption|congruence|assumption]. }
  unfold run. rewrite foldM_app.
  destruct (foldM (step plain) [EMap free_call; EStart true; EGoal good_goal; EGoal bad_goal] initial) as [s|] eqn:E; [|vm_compute in E; discriminate].
  cbn [bind]. assert (G : good s) by (apply (run_good plain [EMap free_call; EStart true; EGoal good_goal; EGoal bad_goal]); exact E).
  apply X; [| |exact G]; vm_compute in E; inversion E; reflexivity.
Qed.

(** C15, finding: a goal sent to one server while the other one is active is neither accepted nor rejected: it stays pending until another
    goal is sent to the same server, whatever else happens. *)
Definition not_for (w : which) (e : event) : Prop := match e with EAction v _ _ => v <> w | _ => True end.
Lemma pending_stays C w id es s t : Forall (not_for w) es -> next (server_of w s) = Some id -> foldM (step C) es s = Ok t -> next (server_of w t) = Some id.
Proof.
  revert s. induction es as [|e es IH]; intros s F N; cbn [foldM]; [intros H; inversion H; subst; exact N|].
  inversion F; subst. destruct (step C s e) as [u|] eqn:E; [|discriminate]. cbn [bind]. apply IH; [assumption|].
  destruct (is_action e) eqn:A.
  - destruct e as [|v i g| | | | | |]; try discriminate. rewrite <- N. eapply action_keeps_next; [exact E|]. cbn in H1. congruence.
  - destruct (keeps_step C s e u E A w) as [_ X]. congruence.
Qed.
Lemma run_app C a b : run C (a ++ b) = bind (run C a) (foldM (step C) b).
Proof. unfold run. apply foldM_app. Qed.
Definition blocked : list event := [EMap free_call; EStart true; EAction Move 1 good_goal; EAction Tolerant 2 good_goal].
Lemma blocked_run : exists u, run plain blocked = Ok u /\ next (tol u) = Some 2.
Proof. eexists. split; [vm_compute; reflexivity|reflexivity]. Qed.
Lemma blocked_stays later s : Forall (not_for Tolerant) later -> run plain (blocked ++ later) = Ok s -> next (tol s) = Some 2.
Proof.
  intros F H. destruct blocked_run as [u [E K]]. rewrite run_app, E in H.
  exact (pending_stays plain Tolerant 2 later u s F K H).
Qed.
Lemma none_received later : Forall (not_for Tolerant) later -> received Tolerant later = [].
Proof.
  induction 1 as [|e l He _ IH]; [reflexivity|]. change (received Tolerant (e :: l)) with (received_by Tolerant e ++ received Tolerant l). rewrite IH, app_nil_r.
  destruct e as [|v i g| | | | | |]; try reflexivity. destruct v; [reflexivity|]. exfalso. apply He. reflexivity.
Qed.
Theorem C15_goal_for_the_other_action_is_answered_refuted : exists C es id, forall later s, Forall (not_for Tolerant) later ->
  run C (es ++ later) = Ok s -> In id (received Tolerant es) /\ next (tol s) = Some id /\ ~ In id (results_of Tolerant (out s)).
Proof.
  exists plain, blocked, 2. intros later s F H. pose proof (blocked_stays later s F H) as N. split; [left; reflexivity|]. split; [exact N|].
  destruct (C15_goals_are_answered_at_most_once plain _ s Tolerant H) as [_ [_ X]].
  - unfold received. rewrite flat_map_app. fold (received Tolerant later). rewrite none_received by exact F. repeat constructor. intros [].
  - intros Hin. destruct (X 2 Hin) as [_ Y]. exact (Y N).
Qed.

(** C15, finding: giving up after too many retries is not reported on the status topic: the action is aborted, the status of that cycle is not
    published, and the next cycle says that all is well. *)
Definition rock_call : ccall := CCall (CRes POk PInRock) EscNone (CRes POk PInRock).
Definition rock_goal : goal := Goal true true false rock_call.
Definition rock_cycle : cycle := Cycle rock_call false StartNormal rock_call false EscNone (CRes POk PInRock) 0 false 0 false.
Theorem C15_giving_up_is_reported_refuted : exists C es s, run C es = Ok s /\
  In (Result Move 1 Aborted) (out s) /\ status s = DONE /\ has_goal s = false /\ last (out s) (Path 0) = Status DONE GOING_WELL /\
  forall st e, In (Status st e) (out s) -> e = GOING_WELL.
Proof.
  exists (Config 0 false 1 false false true false), [EMap rock_call; EStart true; EAction Move 1 rock_goal; ECycle 0 rock_cycle; ECycle 1 rock_cycle].
  eexists. split; [vm_compute; reflexivity|]. split; [cbn; tauto|]. repeat (split; [reflexivity|]).
  intros st e H. cbn in H. repeat destruct H as [H|H]; try discriminate; try contradiction; inversion H; reflexivity.
Qed.

(** C16.  The time of the newest costmap update that was applied. *)
Fixpoint newest (seen : bool) (t : Z) (es : list event) : Z :=
  match es with
  | [] => t
  | EMap _ :: r => newest true t r
  | ECostmap now true _ _ :: r => newest seen (if seen then now else t) r
  | _ :: r => newest seen t r
  end.
Lemma planPath_last C now y s t : planPath C now y s = Ok t -> last_costmap t = last_costmap s /\ has_map t = has_map s.
Proof.
  unfold planPath. cbv zeta. pose proof (refresh_frame C y s) as F. set (s1 := refresh C y s) in *.
  assert (L : last_costmap s1 = last_costmap s /\ has_map s1 = has_map s) by (split; apply F). clear F. clearbody s1.
  set (s2 := if stale C now s1 then emit (Path 0) (set_error DATA_MISSING s1) else s1).
  assert (L2 : last_costmap s2 = last_costmap s /\ has_map s2 = has_map s) by (unfold s2; destruct (stale C now s1); exact L). clearbody s2.
  assert (FB : forall r u, last_costmap (finish_both r u) = last_costmap u /\ has_map (finish_both r u) = has_map u).
  { intros r u. destruct (finish_both_fields r u) as [a [_ [_ [_ [_ [_ [b _]]]]]]]. auto. }
  destruct (_ && negb (stale C now s1)).
  - set (s3 := set_switchback false s2). assert (L3 : last_costmap s3 = last_costmap s /\ has_map s3 = has_map s) by exact L2. clearbody s3.
    assert (D : plan_doing C y s3 = Ok t -> last_costmap t = last_costmap s /\ has_map t = has_map s).
    { unfold plan_doing. destruct (_ && _); [intros H; inversion H; subst; destruct (FB Aborted (emit (Path 0) (set_goal false (set_status DONE (set_error PATH_NOT_FOUND s3))))) as [-> ->]; exact L3|].
      destruct (negb (created s3)); [intros H; inversion H; subst; exact L3|].
      destruct (makePlan C y (set_error GOING_WELL s3)) as [[n u]|] eqn:M; [|discriminate]. cbn [bind].
      assert (SR : forall x m v, plan_search C y x = Ok (m, v) -> last_costmap v = last_costmap x /\ has_map v = has_map x).
      { intros x m v. unfold plan_search. destruct (emits_fields (y_progress y) x) as [l [-> _]]. destruct (y_reached y); cbn [negb].
        - destruct (y_search y); [intros H; inversion H; auto|]. destruct (find_best C); intros H; inversion H; auto.
        - intros H; inversion H; subst. destruct (temporary_escape C); [|auto].
          assert (F : frame (set_error PATH_NOT_FOUND x) (escape_goal C (y_found y) (create_inner C (y_inner y)) (set_error PATH_NOT_FOUND x))) by (apply escape_goal_frame; intros; apply create_inner_frame).
          split; apply F. }
      assert (Mu : last_costmap u = last_costmap s /\ has_map u = has_map s).
      { revert M. unfold makePlan. destruct (if isEscaping _ then _ else _) as [c|]; [|discriminate]. cbn [bind]. destruct (y_start y).
        - intros M; inversion M; subst. exact L3.
        - destruct (isEscaping _).
          + intros M; inversion M; subst. pose proof (create_frame C (y_escaped y) (set_esc NOT_ESCAPING (set_error GOING_WELL s3))) as F.
            destruct L3 as [<- <-]. split; apply F.
          + destruct (_ && c).
            * intros M. apply SR in M. destruct M as [-> ->]. cbn. destruct (finish_fields Tolerant Succeeded (set_error GOING_WELL s3)) as [-> [_ [_ [_ [_ [_ [-> _]]]]]]]. exact L3.
            * intros M; inversion M; subst. exact L3.
        - intros M. apply SR in M. destruct M as [-> ->]. exact L3. }
      intros H; inversion H; subst. destruct (_ || _); exact Mu. }
    destruct (status s3); [exact D|exact D|]. unfold plan_finishing. destruct (deref s3); [|discriminate]. cbn [bind].
    destruct (y_final y); intros H; inversion H; subst; [|exact L3]. unfold publish. cbn [last_costmap has_map emit].
    destruct (FB Succeeded (set_goal false (set_status DONE s3))) as [-> ->]. exact L3.
  - destruct (negb (has_goal s2)); intros H; inversion H; subst; [destruct (retain C)|]; exact L2.
Qed.
Lemma setGoal_last C g s : last_costmap (snd (setGoal C g s)) = last_costmap s /\ has_map (snd (setGoal C g s)) = has_map s.
Proof. pose proof (fun o q => setGoal_spec C g s o q) as Sp. destruct (setGoal C g s) as [o q]. destruct (Sp o q eq_refl) as [a [b _]]. auto. Qed.
Lemma step_last C s e t : step C s e = Ok t -> match e with
  | EMap _ => last_costmap t = last_costmap s /\ has_map t = true
  | ECostmap now true _ _ => last_costmap t = (if has_map s then now else last_costmap s) /\ has_map t = has_map s
  | _ => last_costmap t = last_costmap s /\ has_map t = has_map s end.
Proof.
  assert (FN : forall w r u, last_costmap (finish w r u) = last_costmap u /\ has_map (finish w r u) = has_map u).
  { intros w r u. destruct (finish_fields w r u) as [a [_ [_ [_ [_ [_ [b _]]]]]]]. auto. }
  destruct e as [g|v id g|v id|c|b|now fits c y|f r|now y]; cbn [step].
  - intros H; inversion H; subst. unfold cbGoal. destruct (_ || _); [auto|apply setGoal_last].
  - change (goal_arrives C v id g s) with (cbAction C v g (arrived v id s)).
    assert (A : last_costmap (arrived v id s) = last_costmap s /\ has_map (arrived v id s) = has_map s).
    { unfold arrived. set (s1 := match next (server_of v s) with Some n => _ | None => s end). set (s2 := set_server v _ s1).
      assert (X : last_costmap s2 = last_costmap s /\ has_map s2 = has_map s) by (unfold s2, s1; destruct (next (server_of v s)); destruct v; auto).
      destruct (active v s2); [|exact X]. destruct (cbPreempt_fields s2) as [_ [_ [_ [_ [a b]]]]]. rewrite a, b. exact X. }
    destruct A as [<- <-]. set (a := arrived v id s). clearbody a. unfold cbAction. destruct (active (other v) a); [intros H; inversion H; auto|].
    unfold accept. destruct (next (server_of v a)) as [i|]; [|discriminate]. cbn [bind]. set (b := match v with Tolerant => _ | Move => _ end).
    assert (B : last_costmap b = last_costmap a /\ has_map b = has_map a) by (destruct (FN v Canceled a) as [<- <-]; unfold b; destruct v; auto). clearbody b.
    pose proof (setGoal_last C g b) as Sl. destruct (setGoal C g b) as [ok u]. cbn [snd] in Sl. intros H; inversion H; subst.
    destruct B as [<- <-]. destruct ok; [exact Sl|]. destruct (FN v Aborted u) as [-> ->]. exact Sl.
  - intros H; inversion H; subst. unfold cancel_arrives. destruct (cur _); [|auto]. destruct (_ =? _); [|auto]. destruct (cbPreempt_fields s) as [_ [_ [_ [_ [a b]]]]]. auto.
  - intros H; inversion H; subst. pose proof (create_frame C c (set_map true (emit (Path 0) s))) as F. split; apply F.
  - intros H; inversion H; subst. auto.
  - assert (X : last_costmap (apply_costmap C now fits c s) = (if fits then now else last_costmap s) /\ has_map (apply_costmap C now fits c s) = has_map s).
    { unfold apply_costmap. destruct fits; cbn [negb]; [|auto]. destruct (negb _); [auto|]. destruct c as [c'|]; [|auto]. pose proof (create_frame C c' (set_last now s)) as F. split; apply F. }
    destruct (has_map s) eqn:Hm; cbn [negb].
    + cbv zeta. assert (Y : forall u, last_costmap u = last_costmap (apply_costmap C now fits c s) /\ has_map u = has_map (apply_costmap C now fits c s) ->
        if fits then last_costmap u = now /\ has_map u = true else last_costmap u = last_costmap s /\ has_map u = true).
      { intros u [-> ->]. destruct X as [-> ->]. destruct fits; auto. }
      destruct (trigger C); intros H; [apply planPath_last in H|inversion H; subst]; apply Y; auto.
    + intros H; inversion H; subst. destruct fits; auto.
  - intros H; inversion H; subst. destruct (has_map s) eqn:Hm; [|auto].
    assert (F : frame s (escape_goal C f (create_inner C r) s)) by (apply escape_goal_frame; intros; apply create_inner_frame). rewrite <- Hm. split; apply F.
  - apply planPath_last.
Qed.
Lemma run_last C es s t : foldM (step C) es s = Ok t -> last_costmap t = newest (has_map s) (last_costmap s) es.
Proof.
  revert s. induction es as [|e es IH]; intros s; cbn [foldM]; [intros H; inversion H; reflexivity|].
  destruct (step C s e) as [u|] eqn:E; [|discriminate]. cbn [bind]. intros H. apply IH in H. rewrite H. apply step_last in E.
  destruct e as [g|v id g|v id|c|b|now fits c y|f r|now y]; cbn [newest]; try (destruct E as [-> ->]; reflexivity).
  destruct fits; destruct E as [-> ->]; reflexivity.
Qed.

(** C16.  If the newest costmap is too old, a planning cycle with a goal publishes one empty path and DATA_MISSING, nothing else, and reads
    nothing of what a search would give. *)
Theorem C16_stale_costmap_stops : forall C es s now y t, run C es = Ok s ->
  0 < watchdog C < now - newest false 0 es -> has_goal s = true \/ retain C = true ->
  step C s (ECycle now y) = Ok t ->
  error t = DATA_MISSING /\
  out t = out s ++ (if has_goal s then [Path 0] else [Path 0; Path 0]) ++ [Status (status t) DATA_MISSING] /\
  has_goal t = has_goal s /\ act t = act s /\ tol t = tol s /\ (status t = FINISHING -> status s = FINISHING).
Proof.
  intros C es s now y t R W G. pose proof (run_last C es initial s R) as L. cbn [initial has_map last_costmap] in L. cbn [step]. unfold planPath. cbv zeta.
  pose proof (refresh_frame C y s) as F. set (s1 := refresh C y s) in *. clearbody s1.
  destruct F as [a [b [c [d [e [f [_ [g [h i]]]]]]]]].
  assert (St : stale C now s1 = true). { unfold stale. rewrite g, L. apply andb_true_iff. split; apply Z.ltb_lt; lia. }
  rewrite St. cbn [negb]. rewrite andb_false_r. cbn [has_goal emit set_error]. rewrite b.
  destruct (has_goal s) eqn:Hg; cbn [negb].
  - intros H; inversion H; subst; clear H. cbn. split; [reflexivity|]. rewrite <- app_assoc, h. repeat (split; [reflexivity || assumption|]).
    intros X. destruct i as [i|[i j]]; congruence.
  - destruct G as [G|G]; [discriminate|]. rewrite G. intros H; inversion H; subst; clear H. cbn. split; [reflexivity|]. rewrite <- !app_assoc, h. repeat (split; [reflexivity || assumption|]).
    intros X. destruct i as [i|[i j]]; congruence.
Qed.
(** C16.  With any goal state, a cycle on a stale costmap publishes only empty paths. *)
Theorem C16_stale_costmap_gives_no_path : forall C es s now y t, run C es = Ok s ->
  0 < watchdog C < now - newest false 0 es -> step C s (ECycle now y) = Ok t ->
  exists new, out t = out s ++ Path 0 :: new /\ forall n, In (Path n) new -> n = O.
Proof.
  intros C es s now y t R W. pose proof (run_last C es initial s R) as L. cbn [initial has_map last_costmap] in L. cbn [step]. unfold planPath. cbv zeta.
  pose proof (refresh_frame C y s) as F. set (s1 := refresh C y s) in *. clearbody s1.
  destruct F as [a [b [c [d [e [f [_ [g [h i]]]]]]]]].
  assert (St : stale C now s1 = true). { unfold stale. rewrite g, L. apply andb_true_iff. split; apply Z.ltb_lt; lia. }
  rewrite St. cbn [negb]. rewrite andb_false_r. cbn [has_goal emit set_error].
  destruct (negb (has_goal s1)); intros H; inversion H; subst; clear H; [destruct (retain C)|]; cbn; rewrite <- ?app_assoc, h; eexists; (split; [reflexivity|]); cbn; intros n Hn; intuition congruence.
Qed.

(** C16, corner: without a goal the error is reset although the costmap is old. *)
Definition any_cycle : cycle := Cycle free_call false StartNormal free_call true EscNone (CRes POk POk) 0 true 5 false.
Theorem C16_stale_costmap_is_reported_without_goal_refuted : exists C es s, run C es = Ok s /\ 0 < watchdog C < 100 - newest false 0 es /\
  exists t, step C s (ECycle 100 any_cycle) = Ok t /\ forall st e, In (Status st e) (out t) -> e = GOING_WELL.
Proof.
  exists (Config 1 false (-1) false false true false), [EMap free_call; EStart true]. eexists. split; [vm_compute; reflexivity|].
  split; [vm_compute; auto|]. eexists. split; [vm_compute; reflexivity|]. intros st e H. cbn in H. repeat destruct H as [H|H]; try discriminate; try contradiction; inversion H; reflexivity.
Qed.
(** C16, finding: if planning is triggered by costmap updates, an update that is refused still triggers planning on the old costmap, however old it is. *)
Theorem C16_refused_update_plans_on_stale_costmap_refuted : forall late, exists C es s, trigger C = true /\ run C es = Ok s /\ newest false 0 es = 0 /\ watchdog C = 1 /\
  exists t, step C s (ECostmap late false None any_cycle) = Ok t /\ In (Path 5) (out t) /\ error t = GOING_WELL.
Proof.
  intros late. exists (Config 1 false (-1) false false true true), [EMap free_call; EStart true; EGoal good_goal]. eexists. split; [reflexivity|]. split; [vm_compute; reflexivity|].
  split; [reflexivity|]. split; [reflexivity|]. eexists. split; [vm_compute; reflexivity|]. split; [cbn; tauto|reflexivity].
Qed.

Module Examples.
  (** A goal that is reached: three cycles, the tolerant action first pending for nobody. *)
  Definition finishing : cycle := Cycle free_call true StartFinishing free_call true EscNone (CRes POk POk) 0 true 5 false.
  Definition history : list event := [EMap free_call; EStart true; ECostmap 0 true None any_cycle; EAction Move 7 good_goal; ECycle 0 any_cycle; ECycle 1 finishing; ECycle 1 finishing].
  Example reached : exists s, run plain history = Ok s /\
    out s = [Path 0; Status DOING GOING_WELL; Path 5; Status DOING GOING_WELL; Path 1; Path 0; Status FINISHING GOING_WELL; Result Move 7 Succeeded; Status DONE GOING_WELL] /\
    results_of Move (out s) = received Move history /\ has_goal s = false.
  Proof. eexists. split; [vm_compute; reflexivity|]. repeat split. Qed.
  (** The hypotheses of the watchdog theorems are met by a history with a goal and a path. *)
  Example stale_history : exists s, run plain [EMap free_call; EStart true; ECostmap 3 true None any_cycle; EGoal good_goal; ECycle 4 any_cycle] = Ok s /\
    has_goal s = true /\ In (Path 5) (out s) /\ 0 < watchdog plain < 5 - newest false 0 [EMap free_call; EStart true; ECostmap 3 true None any_cycle; EGoal good_goal; ECycle 4 any_cycle] /\
    exists t, step plain s (ECycle 5 any_cycle) = Ok t /\ out t = out s ++ [Path 0; Status DOING DATA_MISSING].
  Proof. eexists. split; [vm_compute; reflexivity|]. split; [reflexivity|]. split; [cbn; tauto|]. split; [vm_compute; auto|]. eexists. split; vm_compute; reflexivity. Qed.
  (** Preemption: the second goal of the same server cancels the first. *)
  Example preempted : exists s, run plain [EMap free_call; EStart true; EAction Tolerant 1 good_goal; EAction Tolerant 2 good_goal] = Ok s /\
    results_of Tolerant (out s) = [1] /\ cur (tol s) = Some 2 /\ has_goal s = true.
  Proof. eexists. split; [vm_compute; reflexivity|]. repeat split. Qed.
End Examples.

Print Assumptions C15_goal_state_is_consistent.
Print Assumptions C15_goals_are_answered_at_most_once.
Print Assumptions C15_only_valid_goals_become_active.
Print Assumptions C15_invalid_orientation_clears_the_goal.
Print Assumptions C15_success_is_earned.
Print Assumptions C15_no_goal_no_path.
Print Assumptions C15_no_goal_means_done_refuted.
Print Assumptions C15_goal_for_the_other_action_is_answered_refuted.
Print Assumptions C15_giving_up_is_reported_refuted.
Print Assumptions C16_stale_costmap_stops.
Print Assumptions C16_stale_costmap_gives_no_path.
Print Assumptions C16_stale_costmap_is_reported_without_goal_refuted.
Print Assumptions C16_refused_update_plans_on_stale_costmap_refuted.
