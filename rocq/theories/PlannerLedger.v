(** What is published and how goals are accounted for. *)
From Verif Require Import Common SearchAvail Planner PlannerProofs.
From Coq Require Import Permutation.
Local Open Scope Z_scope.

Definition which_eqb (a b : which) : bool := match a, b with Move, Move | Tolerant, Tolerant => true | _, _ => false end.
Definition result_id (w : which) (p : pub) : list Z := match p with Result w' id _ => if which_eqb w w' then [id] else [] | _ => [] end.
(** The goals of a server that got a result, in the order of the results. *)
Definition results_of (w : which) (l : list pub) : list Z := flat_map (result_id w) l.
Definition olist (o : option Z) : list Z := match o with Some x => [x] | None => [] end.
Definition held (w : which) (s : pl) : list Z := olist (cur (server_of w s)) ++ olist (next (server_of w s)).
Definition ledger (w : which) (s : pl) : list Z := results_of w (out s) ++ held w s.

Lemma results_app w a b : results_of w (a ++ b) = results_of w a ++ results_of w b.
Proof. apply flat_map_app. Qed.
Lemma frame_ledger w s t : frame s t -> ledger w t = ledger w s.
Proof. unfold frame, ledger, held. intros [_ [_ [_ [_ [a [b [_ [_ [c _]]]]]]]]]. rewrite c. destruct w; cbn; rewrite ?a, ?b; reflexivity. Qed.
Lemma emit_ledger w p s : result_id w p = [] -> ledger w (emit p s) = ledger w s.
Proof. intros H. unfold ledger. cbn [out emit]. rewrite results_app. cbn [results_of flat_map]. rewrite H, app_nil_r. destruct w; reflexivity. Qed.
Lemma finish_ledger w v r s : ledger w (finish v r s) = ledger w s.
Proof.
  unfold finish. destruct (cur (server_of v s)) as [id|] eqn:E; [|reflexivity]. unfold ledger, held. cbn [out emit].
  replace (out (set_server v _ s)) with (out s) by (destruct v; reflexivity). rewrite results_app. cbn [results_of flat_map result_id].
  destruct w, v; cbn in *; rewrite ?E, ?app_nil_r, <- ?app_assoc; reflexivity.
Qed.
Lemma finish_both_ledger w r s : ledger w (finish_both r s) = ledger w s.
Proof. unfold finish_both. rewrite !finish_ledger. reflexivity. Qed.
Lemma same_ledger w s t : act t = act s -> tol t = tol s -> out t = out s -> ledger w t = ledger w s.
Proof. intros a b c. unfold ledger, held. rewrite c. destruct w; cbn; rewrite ?a, ?b; reflexivity. Qed.
Ltac same := apply same_ledger; reflexivity.

Lemma cbPreempt_ledger w s : ledger w (cbPreempt s) = ledger w s.
Proof. unfold cbPreempt. etransitivity; [|apply (finish_both_ledger w Canceled s)]. same. Qed.
Lemma setGoal_ledger C g s w : ledger w (snd (setGoal C g s)) = ledger w s.
Proof.
  unfold setGoal. destruct (g_frame g); [|reflexivity]. cbn [negb]. destruct (g_unit g).
  - match goal with |- context [create C ?c ?x] => pose proof (create_frame C c x) as F; destruct (create C c x) as [o t] end.
    cbn [snd] in F. apply (frame_ledger w) in F. destruct o; cbn [negb snd].
    + rewrite emit_ledger by reflexivity. etransitivity; [|exact F]. same.
    + etransitivity; [|exact F]. same.
  - cbn [snd]. rewrite finish_both_ledger. same.
Qed.
Lemma cbGoal_ledger C g s w : ledger w (cbGoal C g s) = ledger w s.
Proof. unfold cbGoal. destruct (_ || _); [reflexivity|]. apply setGoal_ledger. Qed.
Lemma cbAction_ledger C v g s s' w : cbAction C v g s = Ok s' -> ledger w s' = ledger w s.
Proof.
  unfold cbAction. destruct (active (other v) s); [congruence|]. unfold accept. destruct (next (server_of v s)) as [id|] eqn:En; [|discriminate]. cbn [bind].
  set (s1 := set_server v (Server (Some id) None) (finish v Canceled s)).
  assert (L1 : ledger w s1 = ledger w s).
  { etransitivity; [|apply (finish_ledger w v Canceled s)]. unfold s1, ledger.
    replace (out (set_server v _ _)) with (out (finish v Canceled s)) by (destruct v; reflexivity). f_equal.
    destruct (finish_fields v Canceled s) as [_ [_ [_ [_ [_ [_ [_ [a [_ [b _]]]]]]]]]].
    unfold held. destruct (which_eqb w v) eqn:Ev.
    - assert (w = v) by (destruct w, v; congruence || discriminate). subst w. rewrite b, En.
      unfold active in a. destruct (cur (server_of v (finish v Canceled s))); [discriminate|]. destruct v; reflexivity.
    - destruct w, v; try discriminate; reflexivity. }
  clearbody s1. set (s2 := match v with Tolerant => _ | Move => s1 end).
  assert (L2 : ledger w s2 = ledger w s1) by (unfold s2; destruct v; [reflexivity|same]). clearbody s2.
  pose proof (setGoal_ledger C g s2 w) as L3. destruct (setGoal C g s2) as [ok s3]. cbn [snd] in L3. intros H. inversion H; subst.
  destruct ok; [congruence|]. rewrite finish_ledger. congruence.
Qed.
Lemma arrived_ledger v id s w : Permutation (ledger w (arrived v id s)) (ledger w s ++ (if which_eqb w v then [id] else [])).
Proof.
  unfold arrived.
  set (s1 := match next (server_of v s) with Some n => emit (Result v n Canceled) s | None => s end).
  set (s2 := set_server v (Server (cur (server_of v s1)) (Some id)) s1).
  assert (P : Permutation (ledger w s2) (ledger w s ++ (if which_eqb w v then [id] else []))).
  { unfold s2, s1, ledger, held. destruct (which_eqb w v) eqn:Ev.
    - assert (w = v) by (destruct w, v; congruence || discriminate). subst w.
      destruct (next (server_of v s)) as [n|] eqn:En.
      + replace (out (set_server v _ _)) with (out s ++ [Result v n Canceled]) by (destruct v; reflexivity).
        rewrite results_app. cbn [results_of flat_map result_id]. rewrite Ev. cbn [app].
        replace (server_of v (set_server v _ _)) with (Server (cur (server_of v s)) (Some id)) by (destruct v; reflexivity). cbn [cur next olist].
        fold (results_of v (out s)).
        rewrite <- !app_assoc. apply Permutation_app_head. rewrite !app_assoc. apply Permutation_app_tail. apply Permutation_app_comm.
      + replace (out (set_server v _ _)) with (out s) by (destruct v; reflexivity).
        replace (server_of v (set_server v _ _)) with (Server (cur (server_of v s)) (Some id)) by (destruct v; reflexivity). cbn [cur next olist].
        rewrite app_nil_r, <- !app_assoc. reflexivity.
    - rewrite app_nil_r. destruct (next (server_of v s)) as [n|] eqn:En.
      + replace (out (set_server v _ _)) with (out s ++ [Result v n Canceled]) by (destruct v; reflexivity).
        rewrite results_app. cbn [results_of flat_map result_id]. rewrite Ev. cbn [app]. rewrite app_nil_r.
        destruct w, v; try discriminate; reflexivity.
      + destruct w, v; try discriminate; reflexivity. }
  destruct (active v s2); [rewrite cbPreempt_ledger; exact P|exact P].
Qed.
Lemma emits_ledger w n s : ledger w (emits n (Path 0) s) = ledger w s.
Proof. revert s. induction n; intros s; cbn [emits]; [reflexivity|]. rewrite IHn. apply emit_ledger. reflexivity. Qed.
Lemma plan_search_ledger C y s n t w : plan_search C y s = Ok (n, t) -> ledger w t = ledger w s.
Proof.
  unfold plan_search. destruct (y_reached y); cbn [negb].
  - destruct (y_search y); [intros H; inversion H; subst; apply emits_ledger|].
    assert (X : ledger w (set_error PATH_NOT_FOUND (emits (y_progress y) (Path 0) s)) = ledger w s) by (etransitivity; [|apply (emits_ledger w (y_progress y))]; same).
    destruct (find_best C); intros H; inversion H; subst; exact X.
  - intros H. inversion H; subst. destruct (temporary_escape C); [|same].
    etransitivity; [apply frame_ledger, escape_goal_frame; intros; apply create_inner_frame|same].
Qed.
Lemma makePlan_ledger C y s n t w : makePlan C y s = Ok (n, t) -> ledger w t = ledger w s.
Proof.
  unfold makePlan. destruct (if isEscaping (esc s) then _ else _) as [c|]; [|discriminate]. cbn [bind]. destruct (y_start y).
  - intros H. inversion H; subst. same.
  - destruct (isEscaping (esc s)).
    + intros H. inversion H; subst. etransitivity; [apply frame_ledger, create_frame|same].
    + destruct (_ && c).
      * intros H. apply plan_search_ledger with (w := w) in H. rewrite H. etransitivity; [|apply (finish_ledger w Tolerant Succeeded)]. same.
      * intros H. inversion H; subst. rewrite emit_ledger by reflexivity. same.
  - apply plan_search_ledger.
Qed.
Lemma planPath_ledger C now y s t w : planPath C now y s = Ok t -> ledger w t = ledger w s.
Proof.
  unfold planPath. cbv zeta. pose proof (frame_ledger w _ _ (refresh_frame C y s)) as L. set (s1 := refresh C y s) in *. clearbody s1.
  set (s2 := if stale C now s1 then emit (Path 0) (set_error DATA_MISSING s1) else s1).
  assert (L2 : ledger w s2 = ledger w s). { unfold s2. destruct (stale C now s1); [|exact L]. rewrite emit_ledger by reflexivity. etransitivity; [|exact L]. same. }
  clearbody s2. destruct (_ && negb (stale C now s1)).
  - set (s3 := set_switchback false s2). assert (L3 : ledger w s3 = ledger w s) by (etransitivity; [|exact L2]; same). clearbody s3.
    assert (D : plan_doing C y s3 = Ok t -> ledger w t = ledger w s).
    { unfold plan_doing. destruct (_ && _).
      - intros H. inversion H; subst. rewrite finish_both_ledger, emit_ledger by reflexivity. etransitivity; [|exact L3]. same.
      - destruct (negb (created s3)).
        + intros H. inversion H; subst. unfold publish. rewrite !emit_ledger by reflexivity. etransitivity; [|exact L3]. same.
        + destruct (makePlan C y (set_error GOING_WELL s3)) as [[n u]|] eqn:M; [|discriminate]. cbn [bind]. apply makePlan_ledger with (w := w) in M.
          intros H. inversion H; subst. unfold publish. rewrite emit_ledger by reflexivity.
          assert (X : ledger w (emit (Path n) u) = ledger w s). { rewrite emit_ledger by reflexivity. rewrite M. etransitivity; [|exact L3]. same. }
          destruct (_ || _); (etransitivity; [|exact X]; same). }
    destruct (status s3); [exact D|exact D|]. unfold plan_finishing. destruct (deref s3); [|discriminate]. cbn [bind].
    destruct (y_final y); intros H; inversion H; subst; unfold publish.
    + rewrite emit_ledger by reflexivity. rewrite finish_both_ledger. etransitivity; [|exact L3]. same.
    + rewrite !emit_ledger by reflexivity. exact L3.
  - destruct (negb (has_goal s2)); intros H; inversion H; subst; unfold publish; rewrite !emit_ledger by reflexivity.
    + etransitivity; [|exact L2]. destruct (retain C); [reflexivity|same].
    + exact L2.
Qed.
Lemma apply_costmap_frame_ledger C now fits c s w : ledger w (apply_costmap C now fits c s) = ledger w s.
Proof.
  unfold apply_costmap. destruct fits; [|reflexivity]. cbn [negb]. destruct (negb _); [same|]. destruct c; [|same].
  etransitivity; [apply frame_ledger, create_frame|same].
Qed.

(** The goals received by a server. *)
Definition received_by (w : which) (e : event) : list Z := match e with EAction v id _ => if which_eqb w v then [id] else [] | _ => [] end.
Definition received (w : which) (es : list event) : list Z := flat_map (received_by w) es.

Lemma step_ledger C s e t w : step C s e = Ok t -> Permutation (ledger w t) (ledger w s ++ received_by w e).
Proof.
  destruct e as [g|v id g|v id|c|b|now fits c y|f r|now y]; cbn [step received_by]; rewrite ?app_nil_r.
  - intros H. inversion H; subst. rewrite cbGoal_ledger. reflexivity.
  - change (goal_arrives C v id g s) with (cbAction C v g (arrived v id s)). intros H. apply cbAction_ledger with (w := w) in H. rewrite H. apply arrived_ledger.
  - intros H. inversion H; subst. unfold cancel_arrives. destruct (cur _); [|reflexivity]. destruct (_ =? _); [rewrite cbPreempt_ledger|]; reflexivity.
  - intros H. inversion H; subst. rewrite (frame_ledger w _ _ (create_frame C c _)).
    replace (ledger w (set_map true (emit (Path 0) s))) with (ledger w (emit (Path 0) s)) by (symmetry; same). rewrite emit_ledger by reflexivity. reflexivity.
  - intros H. inversion H; subst. replace (ledger w (set_start b s)) with (ledger w s) by (symmetry; same). reflexivity.
  - destruct (negb (has_map s)); [intros H; inversion H; reflexivity|]. cbv zeta. destruct (trigger C).
    + intros H. apply planPath_ledger with (w := w) in H. rewrite H, apply_costmap_frame_ledger. reflexivity.
    + intros H. inversion H; subst. rewrite apply_costmap_frame_ledger. reflexivity.
  - intros H. inversion H; subst. destruct (has_map s); [|reflexivity]. rewrite (frame_ledger w s) by (apply escape_goal_frame; intros; apply create_inner_frame). reflexivity.
  - intros H. apply planPath_ledger with (w := w) in H. rewrite H. reflexivity.
Qed.
Lemma run_from_ledger C es s t w : foldM (step C) es s = Ok t -> Permutation (ledger w t) (ledger w s ++ received w es).
Proof.
  revert s. induction es as [|e es IH]; intros s; cbn [foldM received flat_map].
  - intros H. inversion H. rewrite app_nil_r. reflexivity.
  - destruct (step C s e) as [u|] eqn:E; [|discriminate]. cbn [bind]. intros H. apply IH in H. rewrite H, (step_ledger _ _ _ _ w E), <- app_assoc. reflexivity.
Qed.
Lemma run_ledger C es s w : run C es = Ok s -> Permutation (results_of w (out s) ++ held w s) (received w es).
Proof. intros H. apply run_from_ledger with (w := w) in H. replace (ledger w initial) with (@nil Z) in H by (destruct w; reflexivity). exact H. Qed.

(** What a step adds to the output. *)
Definition adds (P : pub -> Prop) (s t : pl) : Prop := exists l, out t = out s ++ l /\ Forall P l.
Lemma adds_refl P s t : out t = out s -> adds P s t.
Proof. intros H. exists []. rewrite app_nil_r. auto. Qed.
Lemma adds_trans P a b c : adds P a b -> adds P b c -> adds P a c.
Proof. intros [l [A B]] [m [D E]]. exists (l ++ m). rewrite D, A, <- app_assoc. split; [reflexivity|apply Forall_app; auto]. Qed.
Lemma adds_emit (P : pub -> Prop) p s : P p -> adds P s (emit p s).
Proof. intros H. exists [p]. auto. Qed.
Lemma adds_frame P s t : frame s t -> adds P s t.
Proof. unfold frame. intros H. apply adds_refl. apply H. Qed.
Lemma adds_finish (P : pub -> Prop) w r s : (forall id, cur (server_of w s) = Some id -> P (Result w id r)) -> adds P s (finish w r s).
Proof.
  intros H. unfold finish. destruct (cur (server_of w s)) as [id|] eqn:E; [|apply adds_refl; reflexivity].
  exists [Result w id r]. split; [destruct w; reflexivity|]. constructor; auto.
Qed.
Lemma adds_finish_both (P : pub -> Prop) r s : (forall w id, cur (server_of w s) = Some id -> P (Result w id r)) -> adds P s (finish_both r s).
Proof.
  intros H. unfold finish_both. eapply adds_trans; [apply adds_finish; intros; apply H; assumption|]. apply adds_finish. intros id.
  destruct (finish_fields Move r s) as [_ [_ [_ [_ [_ [_ [_ [_ [_ [_ a]]]]]]]]]]. cbn [other] in a. rewrite a. apply H.
Qed.
Lemma adds_emits (P : pub -> Prop) n p s : P p -> adds P s (emits n p s).
Proof. intros H. revert s. induction n; intros s; cbn [emits]; [apply adds_refl; reflexivity|]. eapply adds_trans; [apply adds_emit; exact H|apply IHn]. Qed.
(** [adds] looks only at the output. *)
Lemma adds_out P s s' t t' : out s = out s' -> out t = out t' -> adds P s t -> adds P s' t'.
Proof. unfold adds. intros -> ->. auto. Qed.

Lemma adds_setGoal (P : pub -> Prop) C g s : (forall e, P (Status DOING e)) -> (g_unit g = false -> forall w id, cur (server_of w s) = Some id -> P (Result w id Succeeded)) -> adds P s (snd (setGoal C g s)).
Proof.
  intros H K. unfold setGoal. destruct (g_frame g); [|apply adds_refl; reflexivity]. cbn [negb]. destruct (g_unit g).
  - match goal with |- context [create C ?c ?x] => pose proof (adds_frame P _ _ (create_frame C c x)) as F; destruct (create C c x) as [o t] end.
    cbn [snd] in F. destruct o; cbn [negb snd].
    + eapply adds_trans; [|apply adds_emit; apply H]. exact F.
    + exact F.
  - cbn [snd]. apply (adds_finish_both P Succeeded (set_goal false s)). intros w id. destruct w; [exact (K eq_refl Move id)|exact (K eq_refl Tolerant id)].
Qed.

(** Planning does not activate goals and does not touch pending ones. *)
Definition keeps (s t : pl) : Prop :=
  forall w, (cur (server_of w t) = cur (server_of w s) \/ cur (server_of w t) = None) /\ next (server_of w t) = next (server_of w s).
Lemma keeps_same s t : act t = act s -> tol t = tol s -> keeps s t.
Proof. intros a b w. destruct w; cbn; rewrite ?a, ?b; auto. Qed.
Lemma keeps_trans a b c : keeps a b -> keeps b c -> keeps a c.
Proof. intros A B w. destruct (A w) as [x y], (B w) as [z u]. split; [|congruence]. destruct z as [z|z]; [|auto]. rewrite z. exact x. Qed.
Lemma keeps_frame s t : frame s t -> keeps s t.
Proof. unfold frame. intros H. apply keeps_same; apply H. Qed.
Lemma keeps_finish v r s : keeps s (finish v r s).
Proof.
  intros w. unfold finish. destruct (cur (server_of v s)) eqn:E; [|auto]. destruct v, w; cbn; auto.
Qed.
Lemma keeps_finish_both r s : keeps s (finish_both r s).
Proof. unfold finish_both. eapply keeps_trans; apply keeps_finish. Qed.
Lemma keeps_cbPreempt s : keeps s (cbPreempt s).
Proof. unfold cbPreempt. eapply keeps_trans; [apply (keeps_finish_both Canceled)|apply keeps_same; reflexivity]. Qed.
Lemma keeps_setGoal C g s : keeps s (snd (setGoal C g s)).
Proof.
  unfold setGoal. destruct (g_frame g); [|apply keeps_same; reflexivity]. cbn [negb]. destruct (g_unit g).
  - match goal with |- context [create C ?c ?x] => pose proof (keeps_frame _ _ (create_frame C c x)) as F; destruct (create C c x) as [o t] end.
    cbn [snd] in F. destruct o; cbn [negb snd]; exact F.
  - cbn [snd]. eapply keeps_trans; [|apply keeps_finish_both]. apply keeps_same; reflexivity.
Qed.
Lemma emits_servers n p s : act (emits n p s) = act s /\ tol (emits n p s) = tol s.
Proof. revert s. induction n; intros s; cbn [emits]; [auto|]. destruct (IHn (emit p s)) as [-> ->]. auto. Qed.
Lemma keeps_plan_search C y s n t : plan_search C y s = Ok (n, t) -> keeps s t.
Proof.
  unfold plan_search. destruct (emits_servers (y_progress y) (Path 0) s) as [a b]. destruct (y_reached y); cbn [negb].
  - destruct (y_search y); [intros H; inversion H; subst; apply keeps_same; assumption|].
    destruct (find_best C); intros H; inversion H; subst; apply keeps_same; cbn; assumption.
  - intros H. inversion H; subst. destruct (temporary_escape C); [|apply keeps_same; reflexivity].
    eapply keeps_trans; [|apply keeps_frame, escape_goal_frame; intros; apply create_inner_frame]. apply keeps_same; reflexivity.
Qed.
Lemma keeps_makePlan C y s n t : makePlan C y s = Ok (n, t) -> keeps s t.
Proof.
  unfold makePlan. destruct (if isEscaping (esc s) then _ else _) as [c|]; [|discriminate]. cbn [bind]. destruct (y_start y).
  - intros H. inversion H; subst. apply keeps_same; reflexivity.
  - destruct (isEscaping (esc s)).
    + intros H. inversion H; subst. eapply keeps_trans; [|apply keeps_frame, create_frame]. apply keeps_same; reflexivity.
    + destruct (_ && c).
      * intros H. apply keeps_plan_search in H. eapply keeps_trans; [|exact H]. eapply keeps_trans; [apply (keeps_finish Tolerant Succeeded)|]. apply keeps_same; reflexivity.
      * intros H. inversion H; subst. apply keeps_same; reflexivity.
  - apply keeps_plan_search.
Qed.
Lemma keeps_planPath C now y s t : planPath C now y s = Ok t -> keeps s t.
Proof.
  unfold planPath. cbv zeta. pose proof (keeps_frame _ _ (refresh_frame C y s)) as L. set (s1 := refresh C y s) in *. clearbody s1.
  set (s2 := if stale C now s1 then emit (Path 0) (set_error DATA_MISSING s1) else s1).
  assert (L2 : keeps s s2). { unfold s2. destruct (stale C now s1); [|exact L]. exact L. }
  clearbody s2. destruct (_ && negb (stale C now s1)).
  - set (s3 := set_switchback false s2). assert (L3 : keeps s s3) by exact L2. clearbody s3.
    assert (D : plan_doing C y s3 = Ok t -> keeps s t).
    { unfold plan_doing. destruct (_ && _).
      - intros H. inversion H; subst. eapply keeps_trans; [|apply keeps_finish_both]. exact L3.
      - destruct (negb (created s3)).
        + intros H. inversion H; subst. exact L3.
        + destruct (makePlan C y (set_error GOING_WELL s3)) as [[n u]|] eqn:M; [|discriminate]. cbn [bind]. apply keeps_makePlan in M.
          intros H. inversion H; subst. eapply keeps_trans; [exact L3|]. eapply keeps_trans; [exact M|]. destruct (_ || _); apply keeps_same; reflexivity. }
    destruct (status s3); [exact D|exact D|]. unfold plan_finishing. destruct (deref s3); [|discriminate]. cbn [bind].
    destruct (y_final y); intros H; inversion H; subst.
    + eapply keeps_trans; [exact L3|]. eapply keeps_trans; [apply (keeps_finish_both Succeeded (set_goal false (set_status DONE s3)))|]. apply keeps_same; reflexivity.
    + exact L3.
  - destruct (negb (has_goal s2)); intros H; inversion H; subst; [destruct (retain C)|]; exact L2.
Qed.
Lemma keeps_apply_costmap C now fits c s : keeps s (apply_costmap C now fits c s).
Proof.
  unfold apply_costmap. destruct fits; [|apply keeps_same; reflexivity]. cbn [negb]. destruct (negb _); [apply keeps_same; reflexivity|].
  destruct c; [|apply keeps_same; reflexivity]. eapply keeps_trans; [|apply keeps_frame, create_frame]. apply keeps_same; reflexivity.
Qed.
Definition is_action (e : event) : bool := match e with EAction _ _ _ => true | _ => false end.
Lemma keeps_step C s e t : step C s e = Ok t -> is_action e = false -> keeps s t.
Proof.
  destruct e as [g|v id g|v id|c|b|now fits c y|f r|now y]; cbn [step is_action]; try discriminate; intros H _.
  - inversion H; subst. unfold cbGoal. destruct (_ || _); [apply keeps_same; reflexivity|apply keeps_setGoal].
  - inversion H; subst. unfold cancel_arrives. destruct (cur _); [|apply keeps_same; reflexivity]. destruct (_ =? _); [apply keeps_cbPreempt|apply keeps_same; reflexivity].
  - inversion H; subst. eapply keeps_trans; [|apply keeps_frame, create_frame]. apply keeps_same; reflexivity.
  - inversion H; subst. apply keeps_same; reflexivity.
  - destruct (negb (has_map s)); [inversion H; subst; apply keeps_same; reflexivity|]. cbv zeta in H. pose proof (keeps_apply_costmap C now fits c s) as A. destruct (trigger C).
    + eapply keeps_trans; [exact A|]. eapply keeps_planPath. exact H.
    + inversion H; subst. exact A.
  - inversion H; subst. destruct (has_map s); [|apply keeps_same; reflexivity]. apply keeps_frame, escape_goal_frame. intros. apply create_inner_frame.
  - eapply keeps_planPath. exact H.
Qed.
(** A goal for the other server leaves the pending goal of this one. *)
Lemma action_keeps_next C v id g s t w : step C s (EAction v id g) = Ok t -> w <> v -> next (server_of w t) = next (server_of w s).
Proof.
  cbn [step]. change (goal_arrives C v id g s) with (cbAction C v g (arrived v id s)). intros H Hw.
  assert (A : next (server_of w (arrived v id s)) = next (server_of w s)).
  { unfold arrived. set (s1 := match next (server_of v s) with Some n => _ | None => s end). set (s2 := set_server v _ s1).
    assert (E : next (server_of w s2) = next (server_of w s)) by (unfold s2, s1; destruct (next (server_of v s)); destruct w, v; try congruence; reflexivity).
    destruct (active v s2); [|exact E]. destruct (cbPreempt_fields s2) as [_ [_ [_ [n _]]]]. rewrite n. exact E. }
  rewrite <- A. set (a := arrived v id s) in *. clearbody a. revert H. unfold cbAction. destruct (active (other v) a); [intros H; inversion H; reflexivity|].
  unfold accept. destruct (next (server_of v a)) as [i|]; [|discriminate]. cbn [bind].
  set (a2 := match v with Tolerant => _ | Move => _ end).
  assert (E2 : next (server_of w a2) = next (server_of w a)).
  { pose proof (keeps_finish v Canceled a w) as [_ k]. rewrite <- k. unfold a2. destruct w, v; try congruence; reflexivity. }
  clearbody a2. pose proof (keeps_setGoal C g a2 w) as [_ k]. destruct (setGoal C g a2) as [ok s3]. cbn [snd] in k. intros H. inversion H; subst.
  destruct ok; [congruence|]. pose proof (keeps_finish v Aborted s3 w) as [_ k2]. congruence.
Qed.
(** A goal that becomes active is a valid goal that just arrived. *)
Lemma action_cur C v id g s t w x : good s -> step C s (EAction v id g) = Ok t -> cur (server_of w t) = Some x ->
  cur (server_of w s) = Some x \/ (w = v /\ x = id /\ g_frame g = true /\ g_unit g = true).
Proof.
  intros G. cbn [step]. change (goal_arrives C v id g s) with (cbAction C v g (arrived v id s)). intros H Hx.
  destruct (arrived_spec v id s G) as [Ga [a1 [a2 _]]].
  assert (A : forall z, cur (server_of w (arrived v id s)) = Some z -> cur (server_of w s) = Some z).
  { intros z. unfold arrived. set (s1 := match next (server_of v s) with Some n => _ | None => s end). set (s2 := set_server v _ s1).
    assert (E : cur (server_of w s2) = cur (server_of w s)) by (unfold s2, s1; destruct (next (server_of v s)); destruct w, v; reflexivity).
    destruct (active v s2); [|rewrite E; auto]. destruct (keeps_cbPreempt s2 w) as [[k|k] _]; rewrite k; [rewrite E; auto|discriminate]. }
  set (a := arrived v id s) in *. clearbody a.
  pose proof (cbAction_spec C v g a t Ga a1 ltac:(congruence) H) as [Gt [U _]].
  revert H. unfold cbAction. destruct (active (other v) a) eqn:Ao; [intros H; inversion H; subst; auto|].
  unfold accept. rewrite a2. cbn [bind]. set (b := match v with Tolerant => _ | Move => _ end).
  assert (B : cur (server_of v b) = Some id /\ cur (server_of (other v) b) = None).
  { assert (No : cur (server_of (other v) a) = None) by (unfold active in Ao; destruct (cur (server_of (other v) a)); [discriminate|reflexivity]).
    unfold b. destruct (finish_fields v Canceled a) as [_ [_ [_ [_ [_ [_ [_ [_ [_ [_ f]]]]]]]]]].
    destruct v; cbn in *; rewrite ?f; auto. }
  destruct B as [B1 B2]. clearbody b. pose proof (keeps_setGoal C g b w) as [k _]. pose proof (fun o q => setGoal_spec C g b o q) as Sp. destruct (setGoal C g b) as [ok s3]. cbn [snd] in k.
  specialize (Sp ok s3 eq_refl). destruct Sp as [_ [_ [_ [X1 [X2 X3]]]]].
  intros H. inversion H; subst t; clear H. right.
  destruct (g_frame g).
  - destruct (g_unit g).
    + destruct ok.
      * destruct k as [k|k]; [|congruence]. rewrite k in Hx. destruct w, v; cbn [other] in *; (split; [congruence|]); (split; [congruence|]); auto.
      * destruct X2 as [p [q _]]; auto. destruct (finish_fields v Aborted s3) as [_ [_ [_ [_ [_ [_ [_ [f [f' _]]]]]]]]].
        assert (N : active w (finish v Aborted s3) = false).
        { destruct w, v; cbn [other] in *; try assumption; rewrite f'; unfold active; cbn in *; rewrite ?p, ?q, B2; reflexivity. }
        unfold active in N. rewrite Hx in N. discriminate.
    + destruct X3 as [-> [_ X3]]; auto. specialize (X3 w). unfold active in X3. rewrite Hx in X3. discriminate.
  - destruct X1 as [-> ->]; auto. destruct (finish_fields v Aborted b) as [_ [_ [_ [_ [_ [_ [_ [f [f' _]]]]]]]]].
    assert (N : active w (finish v Aborted b) = false).
    { destruct w, v; cbn [other] in *; try assumption; rewrite f'; unfold active; cbn in *; rewrite B2; reflexivity. }
    unfold active in N. rewrite Hx in N. discriminate.
Qed.
