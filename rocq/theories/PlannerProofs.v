(** Proofs about the goal handling of the planner. *)
From Verif Require Import Common SearchAvail Planner.
From Coq Require Import Permutation.
Local Open Scope Z_scope.

(** What createCostEstimCache and updateTemporaryEscapeGoal leave alone. *)
Definition frame (s s' : pl) : Prop :=
  has_map s' = has_map s /\ has_goal s' = has_goal s /\ has_start s' = has_start s /\ error s' = error s /\ act s' = act s /\ tol s' = tol s /\
  tol_goal s' = tol_goal s /\ last_costmap s' = last_costmap s /\ out s' = out s /\ (status s' = status s \/ (status s = FINISHING /\ status s' = DOING)).
Lemma frame_refl s : frame s s.
Proof. unfold frame. intuition. Qed.
Lemma frame_trans a b c : frame a b -> frame b c -> frame a c.
Proof. unfold frame. intros. decompose [and] H. decompose [and] H0. repeat (split; [congruence|]). intuition congruence. Qed.
Ltac fr := unfold frame; cbn; intuition.

Lemma create_body_frame C f r s : (forall x, frame x (f x)) -> frame s (snd (create_body C f r s)).
Proof.
  intros Hf. unfold create_body. destruct (has_goal s); [|fr]. destruct (has_map s && has_start s); [|fr]. cbn [negb].
  destruct (r_start r); try (cbn [snd]; fr);
  (destruct (r_goal r); try (cbn [snd]; fr);
   (destruct (isEscaping _); [cbn [snd]; fr|]; cbn [snd]; destruct (_ && _); [|fr];
    eapply frame_trans; [|apply Hf]; fr)).
Qed.
Lemma escape_goal_frame C found inner s : (forall x, frame x (snd (inner x))) -> frame s (escape_goal C found inner s).
Proof.
  intros Hf. unfold escape_goal. destruct (negb _); [fr|]. destruct (switchback s); [fr|]. destruct found as [| |b]; [fr| |]; cbv zeta.
  { eapply frame_trans; [|apply Hf]. fr. }
  eapply frame_trans; [|apply Hf]. destruct (status (set_esc _ s)) eqn:E; cbn in E; unfold frame; cbn; rewrite ?E; intuition.
Qed.
Lemma create_inner_frame C r s : frame s (snd (create_inner C r s)).
Proof. apply create_body_frame. apply frame_refl. Qed.
Lemma create_frame C c s : frame s (snd (create C c s)).
Proof. apply create_body_frame. intros x. apply escape_goal_frame. intros y. apply create_inner_frame. Qed.

(** The invariant. *)
Record good (s : pl) : Prop := Good {
  goal_busy : has_goal s = true -> status s <> DONE;
  active_goal : forall w, active w s = true -> has_goal s = true;
  one_active : active Move s = true -> active Tolerant s = true -> False;
  tol_deref : active Tolerant s = true -> tol_goal s <> None }.

Lemma good_initial : good initial.
Proof. constructor; try discriminate. intros []; discriminate. Qed.
Lemma frame_active s s' w : frame s s' -> active w s' = active w s.
Proof. unfold frame, active. intros [_ [_ [_ [_ [a [b _]]]]]]. destruct w; cbn; rewrite ?a, ?b; reflexivity. Qed.
Lemma frame_good s s' : frame s s' -> good s -> good s'.
Proof.
  intros F G. pose proof (fun w => frame_active s s' w F) as A. unfold frame in F. decompose [and] F. clear F.
  constructor.
  - intros Hg. assert (status s <> DONE) by (apply (goal_busy s G); congruence). intuition congruence.
  - intros w Hw. rewrite A in Hw. rewrite H1. exact (active_goal s G w Hw).
  - rewrite !A. apply (one_active s G).
  - rewrite A, H5. apply (tol_deref s G).
Qed.

Lemma finish_fields w r s :
  has_map (finish w r s) = has_map s /\ has_goal (finish w r s) = has_goal s /\ has_start (finish w r s) = has_start s /\
  status (finish w r s) = status s /\ error (finish w r s) = error s /\ tol_goal (finish w r s) = tol_goal s /\ last_costmap (finish w r s) = last_costmap s /\
  active w (finish w r s) = false /\ active (other w) (finish w r s) = active (other w) s /\
  next (server_of w (finish w r s)) = next (server_of w s) /\ server_of (other w) (finish w r s) = server_of (other w) s.
Proof. unfold finish, active. destruct w; cbn; destruct (cur _) eqn:E; cbn; rewrite ?E; intuition. Qed.
Lemma finish_both_fields r s :
  has_map (finish_both r s) = has_map s /\ has_goal (finish_both r s) = has_goal s /\ has_start (finish_both r s) = has_start s /\
  status (finish_both r s) = status s /\ error (finish_both r s) = error s /\ tol_goal (finish_both r s) = tol_goal s /\ last_costmap (finish_both r s) = last_costmap s /\
  (forall w, active w (finish_both r s) = false) /\ (forall w, next (server_of w (finish_both r s)) = next (server_of w s)).
Proof.
  unfold finish_both. pose proof (finish_fields Move r s) as A. pose proof (finish_fields Tolerant r (finish Move r s)) as B.
  decompose [and] A. decompose [and] B. cbn [other] in *. repeat (split; [congruence|]). split; intros []; cbn [server_of] in *; congruence.
Qed.
Lemma idle_good s : (forall w, active w s = false) -> (has_goal s = true -> status s <> DONE) -> good s.
Proof. intros A B. constructor; auto; intros; rewrite A in *; discriminate. Qed.

Lemma cbPreempt_fields s : has_goal (cbPreempt s) = false /\ status (cbPreempt s) = DONE /\ (forall w, active w (cbPreempt s) = false) /\
  (forall w, next (server_of w (cbPreempt s)) = next (server_of w s)) /\ has_map (cbPreempt s) = has_map s /\ last_costmap (cbPreempt s) = last_costmap s.
Proof.
  unfold cbPreempt. pose proof (finish_both_fields Canceled s) as A. destruct A as [a [_ [_ [_ [_ [_ [b [c d]]]]]]]].
  split; [reflexivity|]. split; [reflexivity|]. split; [intros []; [exact (c Move)|exact (c Tolerant)]|].
  split; [intros []; [exact (d Move)|exact (d Tolerant)]|]. split; assumption.
Qed.
Lemma cbPreempt_good s : good (cbPreempt s).
Proof. pose proof (cbPreempt_fields s) as A. decompose [and] A. apply idle_good; [assumption|congruence]. Qed.

(** setGoal keeps the servers unless it clears the goal. *)
Lemma setGoal_spec C g s ok s' : setGoal C g s = (ok, s') ->
  has_map s' = has_map s /\ last_costmap s' = last_costmap s /\ (forall w, next (server_of w s') = next (server_of w s)) /\
  (g_frame g = false -> ok = false /\ s' = s) /\
  (g_frame g = true -> g_unit g = true ->
     act s' = act s /\ tol s' = tol s /\ tol_goal s' = tol_goal s /\
     (ok = true -> has_goal s' = true /\ status s' = DOING /\ out s' = out s ++ [Status DOING (error s')]) /\
     (ok = false -> has_goal s' = false /\ out s' = out s)) /\
  (g_frame g = true -> g_unit g = false -> ok = true /\ has_goal s' = false /\ forall w, active w s' = false).
Proof.
  unfold setGoal. destruct (g_frame g); cbn [negb].
  2:{ intros H. inversion H; subst. repeat (split; [easy|]). easy. }
  destruct (g_unit g).
  - match goal with |- context [create C ?c ?x] => pose proof (create_frame C c x) as F; destruct (create C c x) as [o t] end.
    cbn [snd] in F. unfold frame in F. cbn in F. decompose [and] F. destruct o; cbn [negb]; intros HH; inversion HH; subst; cbn.
    + split; [congruence|]. split; [congruence|]. split; [intros []; cbn; congruence|]. split; [discriminate|]. split; [|discriminate].
      intros _ _. do 3 (split; [congruence|]). split; [|discriminate]. intros _. split; [assumption|]. split; [reflexivity|]. congruence.
    + split; [congruence|]. split; [congruence|]. split; [intros []; cbn; congruence|]. split; [discriminate|]. split; [|discriminate].
      intros _ _. do 3 (split; [congruence|]). split; [discriminate|]. intros _. split; congruence.
  - intros H. inversion H; subst. pose proof (finish_both_fields Succeeded (set_goal false s)) as A. decompose [and] A. cbn in *.
    do 2 (split; [congruence|]). split; [intros w; rewrite H9; destruct w; reflexivity|]. split; [discriminate|]. split; [discriminate|]. intros _ _. auto.
Qed.

Lemma cbGoal_good C g s : good s -> good (cbGoal C g s).
Proof.
  intros G. unfold cbGoal. destruct (active Move s) eqn:A; [exact G|]. destruct (active Tolerant s) eqn:B; [exact G|]. cbn [orb].
  destruct (setGoal C g s) as [ok s'] eqn:E. cbn [snd]. apply setGoal_spec in E. destruct E as [_ [_ [_ [X1 [X2 X3]]]]].
  destruct (g_frame g); [|destruct X1; [reflexivity|subst; exact G]].
  destruct (g_unit g).
  - destruct X2 as [a [b [c [d e]]]]; auto. apply idle_good.
    + intros []; unfold active in *; cbn in *; rewrite ?a, ?b; assumption.
    + destruct ok; [destruct d as [_ [d _]]; auto; congruence|destruct e; auto; congruence].
  - destruct X3 as [a [b c]]; auto. apply idle_good; auto. congruence.
Qed.

Lemma cbAction_spec C w g s s' : good s -> active w s = false -> next (server_of w s) <> None -> cbAction C w g s = Ok s' ->
  good s' /\ (g_unit g = false -> active w s' = false) /\ (g_frame g = true -> g_unit g = false -> active (other w) s = false -> has_goal s' = false).
Proof.
  intros G A N. unfold cbAction. destruct (active (other w) s) eqn:B.
  - intros H. inversion H; subst. split; [exact G|]. split; [auto|discriminate].
  - unfold accept. destruct (next (server_of w s)) as [id|] eqn:En; [|congruence]. cbn [bind].
    assert (F : finish w Canceled s = s). { unfold finish. unfold active in A. destruct (cur (server_of w s)); [discriminate|reflexivity]. }
    rewrite F.
    set (s2 := match w with Tolerant => set_tol_goal (Some (g_continuous g)) (set_server w (Server (Some id) None) s) | Move => set_server w (Server (Some id) None) s end).
    assert (S2 : active w s2 = true /\ active (other w) s2 = false /\ has_goal s2 = has_goal s /\ status s2 = status s /\ (w = Tolerant -> tol_goal s2 <> None)).
    { unfold s2. destruct w; cbn; (repeat split; try assumption; try reflexivity; try discriminate). }
    destruct S2 as [a2 [b2 [c2 [d2 e2]]]]. clearbody s2.
    destruct (setGoal C g s2) as [ok s3] eqn:E. apply setGoal_spec in E. destruct E as [_ [_ [_ [X1 [X2 X3]]]]].
    intros Q. inversion Q; subst s'; clear Q.
    destruct (finish_fields w Aborted s3) as [_ [f2 [_ [f4 [_ [_ [_ [f8 [f9 _]]]]]]]]].
    destruct (g_frame g).
    2:{ destruct X1 as [-> ->]; [reflexivity|]. split; [|split; [congruence|discriminate]]. apply idle_good.
        - intros w'. destruct w, w'; cbn [other] in *; congruence.
        - rewrite f2, f4, c2, d2. exact (goal_busy s G). }
    destruct (g_unit g).
    + destruct X2 as [p [q [r [t u]]]]; auto. split; [|split; discriminate].
      assert (T : active w s3 = true /\ active (other w) s3 = false).
      { unfold active in *. destruct w; cbn in *; rewrite p, q; auto. }
      destruct T as [T1 T2].
      destruct ok.
      * destruct t as [t1 [t2 _]]; auto. constructor.
        -- intros _. congruence.
        -- intros; assumption.
        -- destruct w; cbn [other] in *; congruence.
        -- intros X. rewrite r. apply e2. destruct w; cbn [other] in *; congruence.
      * destruct u as [u1 _]; auto. apply idle_good; [intros w'; destruct w, w'; cbn [other] in *; congruence|congruence].
    + destruct X3 as [-> [b c]]; auto. split; [apply idle_good; auto; congruence|]. auto.
Qed.
Lemma cbAction_ok C w g s : next (server_of w s) <> None -> exists s', cbAction C w g s = Ok s'.
Proof.
  intros N. unfold cbAction. destruct (active (other w) s); [eauto|]. unfold accept. destruct (next (server_of w s)); [|congruence]. cbn [bind].
  match goal with |- context [setGoal C ?g ?x] => destruct (setGoal C g x) end. eauto.
Qed.

(** The state a goal callback starts from. *)
Definition arrived (w : which) (id : Z) (s : pl) : pl :=
  let s1 := match next (server_of w s) with Some n => emit (Result w n Canceled) s | None => s end in
  let s2 := set_server w (Server (cur (server_of w s1)) (Some id)) s1 in
  if active w s2 then cbPreempt s2 else s2.
Lemma arrived_spec w id s : good s -> good (arrived w id s) /\ active w (arrived w id s) = false /\ next (server_of w (arrived w id s)) = Some id /\
  (active (other w) s = false -> active (other w) (arrived w id s) = false).
Proof.
  intros G. unfold arrived.
  set (s1 := match next (server_of w s) with Some n => emit (Result w n Canceled) s | None => s end).
  assert (E1 : server_of w s1 = server_of w s /\ server_of (other w) s1 = server_of (other w) s /\ has_goal s1 = has_goal s /\ status s1 = status s /\ tol_goal s1 = tol_goal s).
  { unfold s1. destruct (next (server_of w s)); destruct w; cbn; auto. }
  destruct E1 as [a [b [c [d e]]]]. clearbody s1.
  set (s2 := set_server w (Server (cur (server_of w s1)) (Some id)) s1).
  assert (E2 : active w s2 = active w s /\ active (other w) s2 = active (other w) s /\ has_goal s2 = has_goal s /\ status s2 = status s /\ tol_goal s2 = tol_goal s /\ next (server_of w s2) = Some id).
  { unfold s2, active. destruct w; cbn in *; rewrite ?a, ?b, ?c, ?d, ?e; repeat split. }
  destruct E2 as [a2 [b2 [c2 [d2 [e2 f2]]]]]. clearbody s2.
  destruct (active w s2) eqn:A.
  - pose proof (cbPreempt_fields s2) as P. decompose [and] P. split; [apply cbPreempt_good|]. split; [auto|]. split; [congruence|]. auto.
  - split; [|split; [assumption|split; [assumption|congruence]]]. constructor.
    + rewrite c2, d2. apply (goal_busy s G).
    + intros w' Hw. rewrite c2. apply (active_goal s G w'). destruct w, w'; cbn [other] in *; congruence.
    + destruct w; cbn [other] in *; congruence.
    + intros X. rewrite e2. apply (tol_deref s G). destruct w; cbn [other] in *; congruence.
Qed.

Lemma deref_ok s : good s -> exists c, deref s = Ok c.
Proof. intros G. unfold deref. destruct (active Tolerant s) eqn:A; [|eauto]. pose proof (tol_deref s G A). destruct (tol_goal s); [eauto|congruence]. Qed.

Lemma good_emit s p : good s -> good (emit p s).
Proof. intros [a b c d]. constructor; auto. Qed.
Lemma emits_fields n s : exists l, emits n (Path 0) s = Pl (has_map s) (has_goal s) (has_start s) (created s) (occupied s) (status s) (error s) (act s) (tol s) (tol_goal s) (stuck s) (esc s) (last_costmap s) (switchback s) (out s ++ l) /\ l = repeat (Path 0) n.
Proof.
  revert s. induction n; intros s; cbn [emits repeat].
  - exists []. rewrite app_nil_r. destruct s; auto.
  - destruct (IHn (emit (Path 0) s)) as [l [-> ->]]. eexists. split; [|reflexivity]. cbn. rewrite <- app_assoc. reflexivity.
Qed.
Lemma good_same s t : has_goal t = has_goal s -> status t = status s -> act t = act s -> tol t = tol s -> tol_goal t = tol_goal s -> good s -> good t.
Proof.
  intros a b c d e G. assert (A : forall w, active w t = active w s) by (intros []; unfold active; cbn; rewrite ?c, ?d; reflexivity).
  constructor; intros *; rewrite ?A, ?a, ?b, ?e; apply G.
Qed.

Lemma plan_search_good C y x : good x -> exists n t, plan_search C y x = Ok (n, t) /\ good t.
Proof.
  intros Gx. unfold plan_search. destruct (y_reached y); cbn [negb].
  - destruct (emits_fields (y_progress y) x) as [l [Em _]]. cbv zeta. rewrite Em.
    destruct (y_search y); [do 2 eexists; split; [reflexivity|eapply good_same; [..|exact Gx]; reflexivity]|].
    destruct (find_best C); (do 2 eexists; split; [reflexivity|eapply good_same; [..|exact Gx]; reflexivity]).
  - cbv zeta. do 2 eexists. split; [reflexivity|]. assert (good (set_error PATH_NOT_FOUND x)) by (eapply good_same; [..|exact Gx]; reflexivity).
    destruct (temporary_escape C); [|assumption]. eapply frame_good; [|eassumption]. apply escape_goal_frame. intros z. apply create_inner_frame.
Qed.
Lemma makePlan_good C y s : good s -> has_goal s = true -> exists n t, makePlan C y s = Ok (n, t) /\ good t.
Proof.
  intros G Hg. unfold makePlan.
  assert (D : exists c, (if isEscaping (esc s) then Ok false else deref s) = Ok c) by (destruct (isEscaping (esc s)); [eauto|apply deref_ok; exact G]).
  destruct D as [c ->]. cbv beta iota delta [bind].
  pose proof (plan_search_good C y) as Sr.
  cbv zeta. destruct (y_start y).
  - do 2 eexists. split; [reflexivity|]. eapply good_same; [..|exact G]; reflexivity.
  - destruct (isEscaping (esc s)).
    + do 2 eexists. split; [reflexivity|]. eapply frame_good; [apply create_frame|]. eapply good_same; [..|exact G]; reflexivity.
    + destruct (active Tolerant s && c) eqn:E.
      * apply Sr. apply andb_true_iff in E. destruct E as [E _].
        destruct (finish_fields Tolerant Succeeded s) as [_ [f2 [_ [f4 [_ [_ [_ [f8 [f9 _]]]]]]]]]. cbn [other] in *.
        assert (M : active Move s = false). { destruct (active Move s) eqn:M; [|reflexivity]. exfalso. exact (one_active s G M E). }
        apply idle_good.
        -- intros []; unfold active in *; cbn in *; congruence.
        -- cbn. rewrite f2, f4. apply (goal_busy s G).
      * do 2 eexists. split; [reflexivity|]. constructor; cbn.
        -- discriminate.
        -- apply (active_goal s G).
        -- apply (one_active s G).
        -- apply (tol_deref s G).
  - apply Sr. exact G.
Qed.

Lemma refresh_frame C y s : frame s (refresh C y s).
Proof. unfold refresh. destruct (_ && _); [apply create_frame|apply frame_refl]. Qed.
Lemma plan_finishing_good y s : good s -> exists t, plan_finishing y s = Ok t /\ good t.
Proof.
  intros G. unfold plan_finishing. destruct (deref_ok s G) as [c ->]. cbn [bind]. destruct (y_final y).
  - eexists. split; [reflexivity|]. apply good_emit.
    destruct (finish_both_fields Succeeded (set_goal false (set_status DONE s))) as [_ [b [_ [_ [_ [_ [_ [c' _]]]]]]]].
    apply idle_good; [assumption|]. rewrite b. discriminate.
  - eexists. split; [reflexivity|]. do 2 apply good_emit. exact G.
Qed.
Lemma plan_doing_good C y s : good s -> has_goal s = true -> exists t, plan_doing C y s = Ok t /\ good t.
Proof.
  intros G Hg. unfold plan_doing. destruct (_ && _).
  - eexists. split; [reflexivity|].
    match goal with |- good (finish_both ?r ?x) => destruct (finish_both_fields r x) as [_ [b [_ [_ [_ [_ [_ [c' _]]]]]]]] end.
    apply idle_good; [assumption|]. rewrite b. discriminate.
  - destruct (negb (created s)).
    + eexists. split; [reflexivity|]. apply good_emit, good_emit. eapply good_same; [..|exact G]; reflexivity.
    + destruct (makePlan_good C y (set_error GOING_WELL s)) as [n [t [-> Gt]]].
      * eapply good_same; [..|exact G]; reflexivity.
      * exact Hg.
      * cbn [bind]. eexists. split; [reflexivity|]. apply good_emit. destruct (_ || _); (eapply good_same; [..|exact Gt]; reflexivity).
Qed.
Lemma planPath_good C now y s : good s -> exists t, planPath C now y s = Ok t /\ good t.
Proof.
  intros G. unfold planPath. cbv zeta.
  assert (G1 : good (refresh C y s)) by (eapply frame_good; [apply refresh_frame|exact G]). set (s1 := refresh C y s) in *. clearbody s1.
  set (s2 := if stale C now s1 then emit (Path 0) (set_error DATA_MISSING s1) else s1).
  assert (G2 : good s2). { unfold s2. destruct (stale C now s1); [|exact G1]. apply good_emit. eapply good_same; [..|exact G1]; reflexivity. }
  clearbody s2.
  destruct (has_map s2 && has_goal s2 && has_start s2 && negb (stale C now s1)) eqn:Go.
  - assert (Hg : has_goal s2 = true) by (apply andb_true_iff in Go; destruct Go as [Go _]; apply andb_true_iff in Go; destruct Go as [Go _]; apply andb_true_iff in Go; apply Go).
    set (s3 := set_switchback false s2). assert (G3 : good s3) by (eapply good_same; [..|exact G2]; reflexivity).
    assert (Hg3 : has_goal s3 = true) by exact Hg. clearbody s3.
    destruct (status s3); [apply plan_doing_good; assumption|apply plan_doing_good; assumption|apply plan_finishing_good; assumption].
  - destruct (negb (has_goal s2)).
    + eexists. split; [reflexivity|]. do 2 apply good_emit. destruct (retain C); [exact G2|]. eapply good_same; [..|exact G2]; reflexivity.
    + eexists. split; [reflexivity|]. apply good_emit. exact G2.
Qed.

Lemma apply_costmap_good C now fits c s : good s -> good (apply_costmap C now fits c s).
Proof.
  intros G. unfold apply_costmap. destruct fits; [|exact G]. cbn [negb].
  assert (good (set_last now s)) by (eapply good_same; [..|exact G]; reflexivity).
  destruct (negb _); [assumption|]. destruct c; [|assumption]. eapply frame_good; [apply create_frame|assumption].
Qed.
Lemma step_good C s e : good s -> exists t, step C s e = Ok t /\ good t.
Proof.
  intros G. destruct e as [g|w id g|w id|c|b|now fits c y|f r|now y]; cbn [step].
  - eexists. split; [reflexivity|]. apply cbGoal_good. exact G.
  - change (goal_arrives C w id g s) with (cbAction C w g (arrived w id s)).
    destruct (arrived_spec w id s G) as [a [b [c _]]].
    destruct (cbAction_ok C w g (arrived w id s)) as [t E]; [congruence|]. exists t. split; [exact E|].
    apply cbAction_spec in E; [apply E|assumption|assumption|congruence].
  - eexists. split; [reflexivity|]. unfold cancel_arrives. destruct (cur _); [|exact G]. destruct (_ =? _); [apply cbPreempt_good|exact G].
  - eexists. split; [reflexivity|]. eapply frame_good; [apply create_frame|]. eapply good_same; [..|exact G]; reflexivity.
  - eexists. split; [reflexivity|]. eapply good_same; [..|exact G]; reflexivity.
  - destruct (negb (has_map s)); [eauto|]. cbv zeta. pose proof (apply_costmap_good C now fits c s G). destruct (trigger C); [|eauto].
    apply planPath_good. assumption.
  - eexists. split; [reflexivity|]. destruct (has_map s); [|exact G]. eapply frame_good; [|exact G]. apply escape_goal_frame. intros z. apply create_inner_frame.
  - apply planPath_good. exact G.
Qed.
Lemma run_from_good C es s : good s -> exists t, foldM (step C) es s = Ok t /\ good t.
Proof.
  revert s. induction es as [|e es IH]; intros s G; cbn [foldM]; [eauto|].
  destruct (step_good C s e G) as [t [-> Gt]]. cbn [bind]. apply IH. exact Gt.
Qed.
Lemma run_good C es s : run C es = Ok s -> good s.
Proof. intros H. destruct (run_from_good C es initial good_initial) as [t [E G]]. unfold run in H. congruence. Qed.
