(** Property C17: patrolling visits way-points in order, once each. *)
From Coq Require Import ZifyBool ZifyNat.
From Verif Require Import Common Patrol.

(** *** Specification.  An action result that ends the current way-point. *)
Definition finished_result (s : goal_state) : bool :=
  match s with G_SUCCEEDED | G_ABORTED => true | _ => false end.
Definition finished_count (ss : list goal_state) : nat := length (filter finished_result ss).

(** Goals that must have been sent after the loop polled results [polls] since the
    path [msg] arrived: none before the first loop; then the first way-point, and
    one more for each finished result after that, as long as way-points remain. *)
Definition expected {P} (msg : list P) (polls : list goal_state) : list P :=
  match polls with
  | [] => []
  | _ :: later => firstn (S (finished_count later)) msg
  end.
(** The patrol is over when every way-point was sent and one more result ended the last. *)
Definition patrol_over {P} (msg : list P) (polls : list goal_state) : bool :=
  match polls with
  | [] => match msg with [] => true | _ => false end
  | _ :: later => (length msg <=? finished_count later)%nat
  end.

Section Proofs.
  Context {P : Type}.
  Implicit Types (msg : list P).

  Definition at_state msg (polls : list goal_state) (st : pstate) : Prop :=
    if patrol_over msg polls then p_path st = []
    else p_path st = msg /\ p_pos st = length (expected msg polls).

  Lemma prun_app (es1 es2 : list (@event P)) : forall st, 
    prun st (es1 ++ es2) =
    let '(s1, o1) := prun st es1 in let '(s2, o2) := prun s1 es2 in (s2, o1 ++ o2).
  Proof.
    induction es1 as [|e es1 IH]; intros st; simpl; [destruct (prun st es2); reflexivity|].
    destruct (pstep st e) as [s1 o1]. rewrite IH. destruct (prun s1 es1) as [s2 o2].
    destruct (prun s2 es2) as [s3 o3]. rewrite app_assoc. reflexivity.
  Qed.

  Lemma firstn_S_nth msg n p : nth_error msg n = Some p -> firstn (S n) msg = firstn n msg ++ [p].
  Proof.
    revert n. induction msg as [|a msg IH]; intros [|n] H; simpl in *; try discriminate.
    - injection H as <-. reflexivity.
    - rewrite <- (IH _ H). reflexivity.
  Qed.

  Lemma loops_spec msg : forall polls st o,
    prun (mkP msg 0) (map EvLoop polls) = (st, o) ->
    o = map Send (expected msg polls) /\ at_state msg polls st.
  Proof.
    induction polls as [|s polls IH] using rev_ind; intros st o E.
    - simpl in E. injection E as <- <-. split; [reflexivity|]. unfold at_state. simpl. destruct msg; simpl; auto.
    - rewrite map_app, prun_app in E. destruct (prun (mkP msg 0) (map EvLoop polls)) as [s1 o1].
      destruct (IH s1 o1 eq_refl) as [-> HA]. clear IH. simpl in E.
      destruct (loop_body s1 s) as [s2 o2] eqn:El. injection E as <- <-. rewrite app_nil_r.
      unfold at_state in *.
      destruct polls as [|s0 later].
      + simpl in *. destruct msg as [|a msg]; simpl in *.
        * unfold loop_body in El. rewrite HA in El. simpl in El. injection El as <- <-. auto.
        * destruct HA as [H1 H2]. unfold loop_body in El. rewrite H1, H2 in El. simpl in El.
          unfold sendNextGoal in El. rewrite H1, H2 in El. simpl in El. injection El as <- <-. auto.
      + change ((s0 :: later) ++ [s]) with (s0 :: (later ++ [s])). cbn [patrol_over expected] in *.
        assert (HF : finished_count (later ++ [s]) = (finished_count later + (if finished_result s then 1 else 0))%nat).
        { unfold finished_count. rewrite filter_app, app_length. simpl. destruct (finished_result s); reflexivity. }
        rewrite HF. set (n := finished_count later) in *. clearbody n. clear HF.
        destruct (length msg <=? n)%nat eqn:En.
        * unfold loop_body in El. rewrite HA in El. simpl in El. injection El as <- <-.
          rewrite app_nil_r. replace (length msg <=? _)%nat with true by (destruct (finished_result s); lia).
          split; [|exact HA].
          rewrite !firstn_all2 by (destruct (finished_result s); lia). reflexivity.
        * destruct HA as [H1 H2]. unfold loop_body in El. rewrite H1, H2 in El.
          rewrite firstn_length_le in El by lia.
          replace (length msg =? 0)%nat with false in El by lia. cbn [Nat.eqb] in El.
          destruct (finished_result s) eqn:Es.
          -- assert (El' : sendNextGoal s1 = (s2, o2)) by (destruct s; try discriminate; exact El).
             unfold sendNextGoal in El'. rewrite H1, H2, firstn_length_le in El' by lia.
             destruct (length msg <=? S n)%nat eqn:E2.
             ++ injection El' as <- <-. rewrite app_nil_r. replace (length msg <=? n + 1)%nat with true by lia.
                split; [|reflexivity]. rewrite !firstn_all2 by lia. reflexivity.
             ++ destruct (nth_error msg (S n)) as [p|] eqn:Ep; [|apply nth_error_None in Ep; lia].
                injection El' as <- <-. replace (length msg <=? n + 1)%nat with false by lia.
                replace (n + 1)%nat with (S n) by lia.
                rewrite (firstn_S_nth msg (S n) p Ep), map_app. split; [reflexivity|].
                split; [reflexivity|]. cbn [p_pos]. rewrite app_length, firstn_length_le by lia. simpl. lia.
          -- assert (El' : (s1, []) = (s2, o2)) by (destruct s; try discriminate; exact El).
             injection El' as <- <-. rewrite Nat.add_0_r, app_nil_r. rewrite En. auto.
  Qed.
End Proofs.

(** *** C17.  For every history, every path and every sequence of polled results
    after the path arrived, the goals sent since then are exactly the expected ones:
    the way-points in path order, the next one only after a finished result. *)
Theorem C17_goals_in_order {P} (history : list (@event P)) msg polls st1 o1 st2 o2 :
  prun pinit (history ++ [EvPath msg]) = (st1, o1) ->
  prun st1 (map EvLoop polls) = (st2, o2) ->
  o2 = map Send (expected msg polls).
Proof.
  intros E1 E2. rewrite prun_app in E1. destruct (prun pinit history) as [s0 o0]. simpl in E1.
  injection E1 as <- <-. apply loops_spec in E2. tauto.
Qed.

(** No way-point is skipped: when enough results arrived, all were sent. *)
Theorem C17_all_waypoints_sent {P} (history : list (@event P)) msg s polls st1 o1 st2 o2 :
  prun pinit (history ++ [EvPath msg]) = (st1, o1) ->
  prun st1 (map EvLoop (s :: polls)) = (st2, o2) ->
  (length msg <= S (finished_count polls))%nat -> o2 = map Send msg.
Proof.
  intros E1 E2 H. rewrite (C17_goals_in_order _ _ _ _ _ _ _ E1 E2). unfold expected.
  rewrite firstn_all2 by exact H. reflexivity.
Qed.

(** A new path cancels the running goal exactly when the previous patrol is not over;
    nothing is sent by the arrival itself. *)
Theorem C17_new_path_cancels_running_patrol {P} (history : list (@event P)) msg polls msg' st1 o1 st2 o2 st3 o3 :
  prun pinit (history ++ [EvPath msg]) = (st1, o1) ->
  prun st1 (map EvLoop polls) = (st2, o2) ->
  prun st2 [EvPath msg'] = (st3, o3) ->
  o3 = if patrol_over msg polls then [] else [Cancel].
Proof.
  intros E1 E2 E3. rewrite prun_app in E1. destruct (prun pinit history) as [s0 o0]. simpl in E1.
  injection E1 as <- <-. apply loops_spec in E2. destruct E2 as [_ H]. unfold at_state in H.
  simpl in E3. injection E3 as _ <-. rewrite app_nil_r.
  destruct (patrol_over msg polls) eqn:E; [rewrite H; reflexivity|]. destruct H as [-> _].
  replace (0 <? length msg)%nat with true; [reflexivity|].
  destruct polls; simpl in E; destruct msg; simpl in *; try discriminate; try reflexivity.
Qed.

(** Before any path message nothing is sent. *)
Theorem C17_idle_without_path {P} (polls : list goal_state) :
  snd (prun (P := P) pinit (map EvLoop polls)) = [].
Proof.
  destruct (prun pinit (map EvLoop polls)) as [st o] eqn:E. apply (loops_spec (P := P)) in E.
  destruct E as [-> _]. destruct polls; [reflexivity|]. simpl. reflexivity.
Qed.

(** *** Examples *)
Example C17_ex :
  snd (prun pinit [EvPath [10; 20; 30]; EvLoop G_LOST; EvLoop G_ACTIVE; EvLoop G_SUCCEEDED; EvLoop G_PENDING;
                   EvLoop G_ABORTED; EvLoop G_ACTIVE; EvPath [7; 8]; EvLoop G_PREEMPTED; EvLoop G_SUCCEEDED;
                   EvLoop G_SUCCEEDED; EvPath [9]; EvLoop G_ACTIVE])
  = [Send 10; Send 20; Send 30; Cancel; Send 7; Send 8; Send 9].
Proof. reflexivity. Qed.
Example C17_ex_expected : expected [10; 20; 30] [G_LOST; G_ACTIVE; G_SUCCEEDED] = [10; 20].
Proof. reflexivity. Qed.

Print Assumptions C17_goals_in_order.
Print Assumptions C17_all_waypoints_sent.
Print Assumptions C17_new_path_cancels_running_patrol.
Print Assumptions C17_idle_without_path.
