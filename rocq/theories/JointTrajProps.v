(** C66: the trajectories published by the 2-DoF joint planner respect the velocity limits of the joints, take the requested time, and end at
    the commanded angles; with the commands for which the node fails. *)
From Coq Require Import Reals Lra Lia Psatz.
From Verif Require Import Common JointTraj.
Local Open Scope R_scope.

(** *** Specification *)
Definition limits_ok (C : jcfg) : Prop := 0 < j_vmax0 C /\ 0 < j_vmax1 C.
Definition slowest (C : jcfg) : R := Rmin (j_vmax0 C) (j_vmax1 C).
(** From the angles [p] at time [t]: every point is reached in time without moving a joint faster than [v], and passed at most as fast. *)
Fixpoint within (v : R) (p : jpos) (t : R) (l : list jout) : Prop :=
  match l with
  | [] => True
  | o :: l' =>
      t <= jo_time o /\
      Rabs (fst (jo_pos o) - fst p) <= v * (jo_time o - t) /\ Rabs (snd (jo_pos o) - snd p) <= v * (jo_time o - t) /\
      Rabs (fst (jo_vel o)) <= v /\ Rabs (snd (jo_vel o)) <= v /\
      within v (jo_pos o) (jo_time o) l'
  end.
(** The joints stand still at the end. *)
Definition stops (l : list jout) : Prop := exists l' o, l = l' ++ [o] /\ jo_vel o = (0, 0).
(** The plan of an event. *)
Definition plan_of (e : jevent) : planner := match e with EJoint _ _ p => p | ECommand _ _ p => p end.
(** The search returns paths from its start to its end. *)
Definition from_to (plan : planner) : Prop := forall s e path same, plan s e = Some (path, same) -> exists rest, path = s :: rest /\ rest <> [] /\ last rest s = e.
(** Neighbours on a path, and points two apart, differ. *)
Definition apart (a b : jpos) : Prop := a <> b.
Fixpoint travels (l : list jpos) : Prop :=
  match l with
  | a :: ((b :: l'') as l') => apart a b /\ match l'' with c :: _ => apart a c | [] => True end /\ travels l'
  | _ => True
  end.
Definition direct (plan : planner) : Prop := forall s e path same, plan s e = Some (path, same) -> s <> e -> travels path.

(** The length of a path: the larger change of the two angles counts. *)
Fixpoint way (l : list jpos) : R :=
  match l with a :: ((b :: _) as l') => Rmax (Rabs (fst b - fst a)) (Rabs (snd b - snd a)) + way l' | _ => 0 end.

(** *** Proofs *)
Lemma dmax_nonneg a b : 0 <= dmax a b.
Proof. unfold dmax. eapply Rle_trans; [apply Rabs_pos|apply Rmax_l]. Qed.
Lemma dmax_fst a b : Rabs (fst b - fst a) <= dmax a b.
Proof. apply Rmax_l. Qed.
Lemma dmax_snd a b : Rabs (snd b - snd a) <= dmax a b.
Proof. apply Rmax_r. Qed.
Lemma pos_sum_way l : pos_sum l = way l.
Proof. induction l as [|a [|b l] IH]; [reflexivity|reflexivity|]. change (dmax a b + pos_sum (b :: l) = Rmax (Rabs (fst b - fst a)) (Rabs (snd b - snd a)) + way (b :: l)). rewrite IH. reflexivity. Qed.
Lemma pos_sum_nonneg l : 0 <= pos_sum l.
Proof. induction l as [|a [|b l] IH]; cbn [pos_sum] in *; try lra. pose proof (dmax_nonneg a b). lra. Qed.
Lemma qdiv_ok a b : b <> 0 -> qdiv a b = Ok (a / b).
Proof. intros H. unfold qdiv. destruct (Req_EM_T b 0); [contradiction|reflexivity]. Qed.
Lemma qdiv_inv a b c : qdiv a b = Ok c -> b <> 0 /\ c = a / b.
Proof. unfold qdiv. destruct (Req_EM_T b 0); [discriminate|]. intros H. injection H as <-. auto. Qed.

Section WithC.
  Variable C : jcfg.
  Hypothesis L : limits_ok C.

  Lemma slowest_pos : 0 < slowest C.
  Proof. unfold slowest. apply Rmin_glb_lt; apply L. Qed.
  Lemma average_bounds time sum : 0 <= sum -> 0 <= average_velocity C time sum <= slowest C.
  Proof.
    intros H. pose proof slowest_pos. destruct L. unfold average_velocity, slowest in *. destruct (Rle_dec time 0); [lra|].
    assert (0 <= sum / time) by (apply Rmult_le_pos; [lra|left; apply Rinv_0_lt_compat; lra]).
    destruct (Rlt_dec (j_vmax0 C) (sum / time)); [destruct (Rlt_dec (j_vmax1 C) (j_vmax0 C))|destruct (Rlt_dec (j_vmax1 C) (sum / time))];
      (split; [lra|apply Rmin_glb; lra]).
  Qed.
  Lemma average_value time sum : 0 < time -> average_velocity C time sum = Rmin (sum / time) (slowest C).
  Proof.
    intros T. unfold average_velocity, slowest. destruct (Rle_dec time 0); [lra|].
    destruct (Rlt_dec (j_vmax0 C) (sum / time)); [destruct (Rlt_dec (j_vmax1 C) (j_vmax0 C))|destruct (Rlt_dec (j_vmax1 C) (sum / time))];
      unfold Rmin; repeat destruct (Rle_dec _ _); try lra;
      repeat match goal with |- context [Rle_dec ?a ?b] => destruct (Rle_dec a b) end; lra.
  Qed.

  Lemma velocity_bound v prev cur rest w : 0 < v -> velocity C v prev cur rest = Ok w -> Rabs (fst w) <= v /\ Rabs (snd w) <= v.
  Proof.
    intros V. unfold velocity. destruct rest as [|n rest]; [intros E; injection E as <-; cbn; rewrite Rabs_R0; lra|].
    set (d := direction C prev cur n). rewrite qdiv_ok by lra. cbn [bind]. set (m := Rmax (Rabs (fst d)) (Rabs (snd d))).
    destruct (qdiv (fst d) (m / v)) as [a|] eqn:Ea; [|discriminate]. apply qdiv_inv in Ea as [N ->]. cbn [bind]. rewrite qdiv_ok by exact N. cbn [bind].
    intros E. injection E as <-. cbn [fst snd].
    assert (M0 : m <> 0) by (intros Q; apply N; rewrite Q; field; lra).
    assert (M : 0 < m). { assert (0 <= m) by (eapply Rle_trans; [apply Rabs_pos|apply Rmax_l]). lra. }
    assert (B : forall x, Rabs x <= m -> Rabs (x / (m / v)) <= v).
    { intros x Hx. replace (x / (m / v)) with (x * (v / m)) by (field; lra). rewrite Rabs_mult. rewrite (Rabs_right (v / m)) by (apply Rle_ge; apply Rmult_le_pos; [lra|left; apply Rinv_0_lt_compat; lra]).
      apply (Rmult_le_reg_r m); [exact M|]. replace (Rabs x * (v / m) * m) with (Rabs x * v) by (field; lra). nra. }
    split; apply B; [apply Rmax_l|apply Rmax_r].
  Qed.
  Lemma within_mono v v' p t l : v <= v' -> within v p t l -> within v' p t l.
  Proof.
    intros V. revert p t. induction l as [|o l IH]; intros p t; cbn [within]; [auto|].
    intros (H1 & H2 & H3 & H4 & H5 & H6). repeat split; try lra; try nra. apply IH. exact H6.
  Qed.
  Lemma timed_within v sum prev l out : 0 < v -> timed C v sum prev l = Ok out -> within v prev (sum / v) out /\ map jo_pos out = l /\ (l <> [] -> stops out).
  Proof.
    intros V. revert sum prev out. induction l as [|cur rest IH]; intros sum prev out; cbn [timed].
    - intros E. injection E as <-. cbn. repeat split. intros H. contradiction.
    - destruct (velocity C v prev cur rest) as [w|] eqn:Ew; [|discriminate]. cbn [bind]. rewrite qdiv_ok by lra. cbn [bind].
      destruct (timed C v (sum + dmax prev cur) cur rest) as [r|] eqn:Er; [|discriminate]. cbn [bind]. intros E. injection E as <-.
      destruct (IH _ _ _ Er) as (W & M & St). pose proof (velocity_bound v prev cur rest w V Ew) as [W1 W2]. pose proof (dmax_nonneg prev cur) as D.
      cbn [within map jo_pos jo_vel jo_time].
      assert (G : (sum + dmax prev cur) / v - sum / v = dmax prev cur / v) by (field; lra).
      assert (G2 : v * (dmax prev cur / v) = dmax prev cur) by (field; lra).
      assert (0 <= dmax prev cur / v) by (apply Rmult_le_pos; [exact D|left; apply Rinv_0_lt_compat; exact V]).
      split; [repeat split; try assumption; [lra|rewrite G, G2; apply dmax_fst|rewrite G, G2; apply dmax_snd]|].
      split; [f_equal; exact M|]. intros _. destruct rest as [|n rest].
      + cbn [timed] in Er. injection Er as <-. cbn [velocity] in Ew. injection Ew as <-. exists [], (JOut cur (0, 0) ((sum + dmax prev cur) / v)). split; reflexivity.
      + destruct (St ltac:(discriminate)) as (l' & o & -> & So). exists (JOut cur w ((sum + dmax prev cur) / v) :: l'), o. split; [reflexivity|exact So].
  Qed.
  Lemma timed_last v sum prev l out : 0 < v -> timed C v sum prev l = Ok out -> l <> [] ->
    exists out' o, out = out' ++ [o] /\ jo_time o = (sum + pos_sum (prev :: l)) / v.
  Proof.
    intros V. revert sum prev out. induction l as [|cur rest IH]; intros sum prev out E N; [contradiction|]. cbn [timed] in E.
    destruct (velocity C v prev cur rest) as [w|] eqn:Ew; [|discriminate]. cbn [bind] in E. rewrite qdiv_ok in E by lra. cbn [bind] in E.
    destruct (timed C v (sum + dmax prev cur) cur rest) as [r|] eqn:Er; [|discriminate]. cbn [bind] in E. injection E as <-.
    destruct rest as [|n rest].
    - cbn [timed] in Er. injection Er as <-. exists [], (JOut cur w ((sum + dmax prev cur) / v)). split; [reflexivity|]. cbn [pos_sum jo_time]. f_equal. ring.
    - destruct (IH _ _ _ Er ltac:(discriminate)) as (o' & o & -> & T). exists (JOut cur w ((sum + dmax prev cur) / v) :: o'), o. split; [reflexivity|]. rewrite T.
      change (pos_sum (prev :: cur :: n :: rest)) with (dmax prev cur + pos_sum (cur :: n :: rest)). f_equal. ring.
  Qed.
  (** Division by a velocity of zero shows at the first point. *)
  Lemma timed_zero v prev cur rest out : timed C v 0 prev (cur :: rest) = Ok out -> v <> 0.
  Proof.
    cbn [timed]. destruct (velocity C v prev cur rest); [|discriminate]. cbn [bind]. destruct (qdiv (0 + dmax prev cur) v) eqn:E; [|discriminate]. intros _. apply qdiv_inv in E. apply E.
  Qed.
  Lemma path_limits v first rest out : 0 <= v -> rest <> [] -> timed C v 0 first rest = Ok out ->
    0 < v /\ within v first 0 out /\ map jo_pos out = rest /\ stops out.
  Proof.
    intros V N E. destruct rest as [|cur rest]; [contradiction|]. pose proof (timed_zero _ _ _ _ _ E) as Z. assert (0 < v) as P by lra.
    destruct (timed_within v 0 first (cur :: rest) out P E) as (W & M & S). replace (0 / v) with 0 in W by (field; lra). split; [exact P|]. split; [exact W|]. split; [exact M|]. apply S. discriminate.
  Qed.

  (** The velocity is decided once per command. *)
  Definition vel_ok (s : jst) : Prop := js_vel s < 0 \/ 0 <= js_vel s <= slowest C.
  Definition outs_ok (plan : planner) (s s' : jst) : Prop :=
    js_out s' = js_out s \/ exists out, js_out s' = js_out s ++ [out] /\ within (slowest C) (js_cur s') 0 out /\ stops out.

  Lemma replan_spec now plan s s' : from_to plan -> vel_ok s -> replan C now plan s = Ok s' -> vel_ok s' /\ outs_ok plan s s' /\ js_cur s' = js_cur s.
  Proof.
    intros F V. unfold replan. destruct (js_has s); cbn [negb]; [|intros E; injection E as <-; split; [exact V|split; [left|]; reflexivity]].
    destruct (js_id s) as [[a b]|]; [|intros E; injection E as <-; split; [exact V|split; [left|]; reflexivity]].
    destruct (nth_or_ub (js_points s) 0) as [p|]; [|discriminate]. cbn [bind].
    destruct (nth_or_ub (jp_pos p) a) as [x|]; [|discriminate]. cbn [bind].
    destruct (nth_or_ub (jp_pos p) b) as [y|]; [|discriminate]. cbn [bind].
    destruct (plan (js_cur s) (x, y)) as [[path same]|] eqn:P.
    - destruct (F _ _ _ _ P) as (rest & -> & N & _). set (v := if Rlt_dec (js_vel s) 0 then _ else _).
      assert (Vv : 0 <= v <= slowest C). { unfold v. destruct (Rlt_dec (js_vel s) 0); [apply average_bounds; apply pos_sum_nonneg|]. destruct V; lra. }
      destruct (timed C v 0 (js_cur s) rest) as [out|] eqn:T; [|discriminate]. cbn [bind]. intros E. injection E as <-. unfold vel_ok, outs_ok. cbn [js_vel js_out js_cur].
      split; [right; exact Vv|]. split; [|reflexivity]. right. exists out. split; [reflexivity|].
      destruct (path_limits v _ _ _ (proj1 Vv) N T) as (P0 & W & _ & S). split; [|exact S]. eapply within_mono; [|exact W]. lra.
    - intros E. injection E as <-. unfold vel_ok, outs_ok. cbn [js_vel js_out js_cur]. split; [exact V|]. split; [|reflexivity]. right. eexists. split; [reflexivity|].
      split; [cbn [within jo_time jo_pos jo_vel fst snd]; rewrite !Rminus_diag_eq by reflexivity; rewrite Rmult_0_r, Rabs_R0; pose proof slowest_pos; repeat split; lra|].
      exists [], (JOut (js_cur s) (0, 0) 0). split; reflexivity.
  Qed.
  Lemma step_spec e s s' : from_to (plan_of e) -> vel_ok s -> jstep C s e = Ok s' -> vel_ok s' /\ outs_ok (plan_of e) s s'.
  Proof.
    intros F V. destruct e as [m now plan|m now plan]; cbn [jstep plan_of] in *.
    - unfold cb_joint. destruct (link_ids C (jm_names m)) as [[a b]|]; [|intros E; injection E as <-; split; [exact V|left; reflexivity]].
      destruct (nth_or_ub (jm_pos m) a) as [x|]; [|discriminate]. cbn [bind]. destruct (nth_or_ub (jm_pos m) b) as [y|]; [|discriminate]. cbn [bind js_prev].
      match goal with |- (if ?b then _ else _) = _ -> _ => destruct b end.
      + intros E. apply replan_spec in E; [|exact F|exact V]. destruct E as (E1 & E2 & _). split; [exact E1|exact E2].
      + intros E. injection E as <-. split; [exact V|left; reflexivity].
    - unfold cb_trajectory. cbn [js_id]. destruct (link_ids C (jc_names m)) as [[a b]|]; [|intros E; injection E as <-; split; [exact V|left; reflexivity]].
      destruct (nth_or_ub (jc_points m) 0) as [p|]; [|discriminate]. cbn [bind].
      destruct (nth_or_ub (jp_pos p) a) as [x|]; [|discriminate]. cbn [bind]. destruct (nth_or_ub (jp_pos p) b) as [y|]; [|discriminate]. cbn [bind].
      destruct (cmd_eq _ _); [intros E; injection E as <-; split; [exact V|left; reflexivity]|].
      intros E. apply replan_spec in E; [|exact F|left; cbn [js_vel]; lra]. destruct E as (E1 & E2 & _). split; [exact E1|exact E2].
  Qed.
  Lemma run_vel es s : Forall (fun e => from_to (plan_of e)) es -> jrun C es = Ok s -> vel_ok s.
  Proof.
    unfold jrun. assert (V : vel_ok jinit) by (right; cbn; pose proof slowest_pos; lra). revert V. generalize jinit. induction es as [|e es IH]; intros s0 V F E.
    - injection E as <-. exact V.
    - inversion_clear F. cbn [foldM] in E. destruct (jstep C s0 e) as [s1|] eqn:E1; [|discriminate]. cbn [bind] in E. apply (IH s1); [|assumption|exact E].
      apply (step_spec e s0 s1 H V E1).
  Qed.
End WithC.

Lemma timed_positions C v sum prev l out : timed C v sum prev l = Ok out -> map jo_pos out = l.
Proof.
  revert sum prev out. induction l as [|c l IH]; intros sum prev out; cbn [timed]; [intros E; injection E as <-; reflexivity|].
  destruct (velocity C v prev c l); [|discriminate]. cbn [bind]. destruct (qdiv _ _); [|discriminate]. cbn [bind].
  destruct (timed C v _ c l) eqn:T; [|discriminate]. cbn [bind]. intros E. injection E as <-. cbn. f_equal. eapply IH. exact T.
Qed.
(** Between two points the joints pass along the configured direction, the faster one with velocity [v]. *)
Definition course (C : jcfg) (p c n : jpos) : jpos :=
  let minus (a b : jpos) := (fst a - fst b, snd a - snd b) in
  match j_mode C with VEL_PREV => minus c p | VEL_NEXT => minus n c | VEL_AVG => minus n p end.
Fixpoint passes (C : jcfg) (v : R) (p : jpos) (l : list jout) : Prop :=
  match l with
  | o :: ((n :: _) as l') =>
      (exists k, 0 < k /\ jo_vel o = (k * fst (course C p (jo_pos o) (jo_pos n)), k * snd (course C p (jo_pos o) (jo_pos n)))) /\
      Rmax (Rabs (fst (jo_vel o))) (Rabs (snd (jo_vel o))) = v /\ passes C v (jo_pos o) l'
  | _ => True
  end.
Lemma timed_passes C v sum prev l out : 0 < v -> timed C v sum prev l = Ok out -> passes C v prev out.
Proof.
  intros V. revert sum prev out. induction l as [|c l IH]; intros sum prev out; cbn [timed]; [intros E; injection E as <-; exact I|].
  destruct (velocity C v prev c l) as [w|] eqn:Ew; [|discriminate]. cbn [bind]. rewrite qdiv_ok by lra. cbn [bind].
  destruct (timed C v (sum + dmax prev c) c l) as [r|] eqn:T; [|discriminate]. cbn [bind]. intros E. injection E as <-. pose proof (IH _ _ _ T) as P. apply timed_positions in T.
  destruct l as [|n l]; [destruct r; [exact I|discriminate]|]. destruct r as [|o r]; [discriminate|]. cbn [map] in T. injection T as To Tr.
  unfold velocity in Ew. rewrite qdiv_ok in Ew by lra. cbn [bind] in Ew. set (d := direction C prev c n) in *. set (m := Rmax (Rabs (fst d)) (Rabs (snd d))) in *.
  destruct (qdiv (fst d) (m / v)) as [a|] eqn:Ea; [|discriminate]. apply qdiv_inv in Ea as [N ->]. cbn [bind] in Ew. rewrite qdiv_ok in Ew by exact N. cbn [bind] in Ew. injection Ew as <-.
  assert (M0 : m <> 0) by (intros Q; apply N; rewrite Q; field; lra).
  assert (M : 0 < m). { assert (0 <= m) by (eapply Rle_trans; [apply Rabs_pos|apply Rmax_l]). lra. }
  assert (Kv : 0 < v / m) by (apply Rmult_lt_0_compat; [exact V|apply Rinv_0_lt_compat; exact M]).
  assert (Q : forall x, x / (m / v) = v / m * x) by (intros x; field; lra). rewrite !Q.
  assert (D : course C prev c n = d) by (unfold d, course, direction; destruct (j_mode C); reflexivity).
  split; [cbn [jo_vel jo_pos]; rewrite To, D; exists (v / m); split; [exact Kv|reflexivity]|]. split; [|exact P]. cbn [jo_vel].
  cbn [fst snd]. rewrite !Rabs_mult, (Rabs_right (v / m)) by lra. rewrite RmaxRmult by lra. fold m. field. lra.
Qed.

(** *** Theorems *)
(** After any history, whatever an event publishes starts at the current angles, never needs a joint to move faster than the slower of the two
    limits and ends at rest. *)
Theorem C66_joint_limits_hold C es e s s' : limits_ok C -> Forall (fun e => from_to (plan_of e)) (es ++ [e]) -> jrun C es = Ok s -> jstep C s e = Ok s' ->
  js_out s' = js_out s \/ exists out, js_out s' = js_out s ++ [out] /\ within (slowest C) (js_cur s') 0 out /\ stops out.
Proof.
  intros L F R E. apply Forall_app in F as [F1 F2]. inversion_clear F2. exact (proj2 (step_spec C L e s s' H (run_vel C L es s F1 R) E)).
Qed.

(** The angles and the time of a command: the last entry of each link name. *)
Definition command_of (C : jcfg) (m : jcmd) : option (R * jpos) :=
  match link_ids C (jc_names m), jc_points m with
  | Some (a, b), p :: _ =>
      match nth_error (jp_pos p) a, nth_error (jp_pos p) b with Some x, Some y => Some (jp_time p, (x, y)) | _, _ => None end
  | _, _ => None
  end.
(** A new command is planned at once.  If it asks for a time, the trajectory takes that time, or longer if the joints are too slow for it; without a
    time it is as fast as the slower joint allows.  It passes the points of the path. *)
Theorem C66_new_commands_take_the_requested_time C m now plan s s' time target path same : limits_ok C -> from_to plan ->
  js_has s = true -> command_of C m = Some (time, target) -> js_cmd s <> (time, target) -> plan (js_cur s) target = Some (path, same) ->
  jstep C s (ECommand m now plan) = Ok s' ->
  exists out o, js_out s' = js_out s ++ [out ++ [o]] /\ js_cur s :: map jo_pos (out ++ [o]) = path /\ jo_pos o = target /\
    jo_time o = (if Rle_dec time 0 then way path / slowest C else Rmax time (way path / slowest C)) /\
    0 < js_vel s' /\ jo_time o = way path / js_vel s' /\ passes C (js_vel s') (js_cur s) (out ++ [o]).
Proof.
  intros L F H Cm N P. cbn [jstep]. unfold command_of in Cm. unfold cb_trajectory. cbn [js_id].
  destruct (link_ids C (jc_names m)) as [[a b]|]; [|discriminate]. destruct (jc_points m) as [|p ps] eqn:Ep; [discriminate|].
  unfold nth_or_ub. cbn [nth_error bind]. destruct (nth_error (jp_pos p) a) as [x|] eqn:Ex; [|discriminate]. destruct (nth_error (jp_pos p) b) as [y|] eqn:Ey; [|discriminate].
  injection Cm as <- <-. cbn [bind js_cmd]. rename p into pt.
  assert (Q : cmd_eq (js_cmd s) (jp_time pt, (x, y)) = false).
  { unfold cmd_eq. cbn [fst snd]. destruct (Req_EM_T _ _) as [E1|]; [|reflexivity]. destruct (Req_EM_T _ _) as [E2|]; [|reflexivity]. destruct (Req_EM_T _ _) as [E3|]; [|reflexivity].
    exfalso. apply N. destruct (js_cmd s) as [t [u v]]. cbn [fst snd] in *. congruence. }
  rewrite Q. unfold replan. cbn [js_has js_id js_points js_cur js_vel js_out]. rewrite H. cbn [negb]. unfold nth_or_ub. cbn [nth_error bind]. rewrite Ex. cbn [bind]. rewrite Ey. cbn [bind]. rewrite P.
  destruct (F _ _ _ _ P) as (rest & -> & Nr & La). destruct (Rlt_dec (-1) 0); [|lra].
  set (v := average_velocity C (jp_time pt) (pos_sum (js_cur s :: rest))).
  pose proof (average_bounds C L (jp_time pt) _ (pos_sum_nonneg (js_cur s :: rest))) as B. fold v in B.
  destruct (timed C v 0 (js_cur s) rest) as [out|] eqn:T; [|discriminate]. cbn [bind]. intros E. injection E as <-. cbn [js_out].
  destruct (path_limits C v _ _ _ (proj1 B) Nr T) as (V & _ & M & _). destruct (timed_last C v 0 _ _ _ V T Nr) as (out' & o & -> & To).
  exists out', o. split; [reflexivity|]. rewrite M. split; [reflexivity|].
  split. { rewrite map_app in M. cbn [map] in M. rewrite <- M in La. rewrite last_last in La. exact La. }
  cbn [js_vel]. rewrite To, Rplus_0_l. pose proof (timed_passes _ _ _ _ _ _ V T) as Ps'. assert (Tail : 0 < v /\ pos_sum (js_cur s :: rest) / v = way (js_cur s :: rest) / v /\ passes C v (js_cur s) (out' ++ [o])) by (split; [exact V|split; [rewrite pos_sum_way; reflexivity|exact Ps']]).
  split; [|exact Tail]. clear Tail Ps'. change (way (js_cur s :: rest)) with (pos_sum (js_cur s :: rest)). pose proof (slowest_pos C L) as Sp. pose proof (pos_sum_nonneg (js_cur s :: rest)) as Ps. set (sum := pos_sum (js_cur s :: rest)) in *.
  destruct (Rle_dec (jp_time pt) 0) as [T0|T0].
  - f_equal. unfold v, average_velocity. destruct (Rle_dec (jp_time pt) 0); [reflexivity|lra].
  - assert (0 < jp_time pt) by lra. assert (Vd : v = Rmin (sum / jp_time pt) (slowest C)) by (apply average_value; lra).
    assert (Sm : 0 < sum). { destruct (Rle_lt_or_eq_dec _ _ Ps) as [|Z]; [assumption|]. exfalso. rewrite <- Z in Vd. replace (0 / jp_time pt) with 0 in Vd by (field; lra). rewrite Rmin_left in Vd by lra. lra. }
    rewrite Vd. unfold Rmin, Rmax. assert (U : sum / jp_time pt * jp_time pt = sum) by (field; lra). assert (U2 : sum / slowest C * slowest C = sum) by (field; lra).
    assert (0 < sum / jp_time pt) by (apply Rmult_lt_0_compat; [lra|apply Rinv_0_lt_compat; lra]).
    destruct (Rle_dec (sum / jp_time pt) (slowest C)) as [W|W]; destruct (Rle_dec (jp_time pt) (sum / slowest C)) as [X|X].
    + assert (sum / jp_time pt = slowest C) as ->; [|reflexivity]. apply Rle_antisym; [exact W|]. apply (Rmult_le_reg_r (jp_time pt)); [lra|]. rewrite U. nra.
    + field. split; lra.
    + reflexivity.
    + exfalso. apply X. apply (Rmult_le_reg_r (slowest C)); [lra|]. rewrite U2. nra.
Qed.

Lemma cmd_eq_true a b : cmd_eq a b = true -> a = b.
Proof.
  destruct a as [t [u v]], b as [t' [u' v']]. unfold cmd_eq. cbn [fst snd]. destruct (Req_EM_T t t') as [->|]; [|discriminate]. destruct (Req_EM_T u u') as [->|]; [|discriminate].
  destruct (Req_EM_T v v') as [->|]; [|discriminate]. reflexivity.
Qed.

(** Joint states alone do not change the velocity: a trajectory replanned after them takes time in proportion to its way. *)
Theorem C66_replans_keep_the_velocity C m now plan s s1 time target path same js s2 m' now' plan' s' : limits_ok C -> from_to plan -> from_to plan' ->
  js_has s = true -> command_of C m = Some (time, target) -> js_cmd s <> (time, target) -> plan (js_cur s) target = Some (path, same) ->
  jstep C s (ECommand m now plan) = Ok s1 ->
  Forall (fun e => exists a b c, e = EJoint a b c /\ from_to c) js -> foldM (jstep C) js s1 = Ok s2 -> jstep C s2 (EJoint m' now' plan') = Ok s' ->
  js_out s' = js_out s2 \/
  (exists path' same' out o t1, plan' (js_cur s') target = Some (path', same') /\ js_out s' = js_out s2 ++ [out ++ [o]] /\ js_cur s' :: map jo_pos (out ++ [o]) = path' /\
     (exists l o1, js_out s1 = js_out s ++ [l ++ [o1]] /\ jo_time o1 = t1) /\ jo_time o * way path = t1 * way path' /\
     exists v, 0 < v /\ passes C v (js_cur s') (out ++ [o])) \/
  plan' (js_cur s') target = None /\ js_out s' = js_out s2 ++ [[JOut (js_cur s') (0, 0) 0]].
Proof.
  intros L F F' H Cm N P E1 FJ E2 E3.
  destruct (C66_new_commands_take_the_requested_time C m now plan s s1 time target path same L F H Cm N P E1) as (l1 & o1 & O1 & M1 & _ & _ & V1 & T1 & _).
  set (v := js_vel s1) in *.
  assert (G1 : exists p ps a b, js_points s1 = p :: ps /\ js_id s1 = Some (a, b) /\ nth_error (jp_pos p) a = Some (fst target) /\ nth_error (jp_pos p) b = Some (snd target) /\ js_vel s1 = v).
  { clear -Cm N E1 v. cbn [jstep] in E1. unfold command_of in Cm. unfold cb_trajectory in E1. cbn [js_id] in E1. destruct (link_ids C (jc_names m)) as [[a b]|]; [|discriminate].
    destruct (jc_points m) as [|p ps]; [discriminate|]. unfold nth_or_ub in E1. cbn [nth_error bind] in E1. destruct (nth_error (jp_pos p) a) as [x|] eqn:Ex; [|discriminate].
    destruct (nth_error (jp_pos p) b) as [y|] eqn:Ey; [|discriminate]. injection Cm as <- <-. cbn [bind js_cmd] in E1.
    destruct (cmd_eq (js_cmd s) (jp_time p, (x, y))) eqn:Q; [exfalso; apply N; apply cmd_eq_true; exact Q|].
    exists p, ps, a, b. unfold replan in E1. cbn [js_has js_id js_points] in E1. destruct (js_has s); cbn [negb] in E1; [|injection E1 as <-; cbn; repeat split; assumption].
    unfold nth_or_ub in E1. cbn [nth_error bind] in E1. rewrite Ex in E1. cbn [bind] in E1. rewrite Ey in E1. cbn [bind] in E1.
    destruct (plan _ _) as [[q sm]|]; [|injection E1 as <-; cbn; repeat split; assumption].
    match type of E1 with (do o <- ?t; _) = _ => destruct t; [|discriminate] end. cbn [bind] in E1. subst v. injection E1 as <-. cbn. repeat split; assumption. }
  clearbody v. set (good := fun st : jst => exists p ps a b, js_points st = p :: ps /\ js_id st = Some (a, b) /\ nth_error (jp_pos p) a = Some (fst target) /\ nth_error (jp_pos p) b = Some (snd target) /\ js_vel st = v).
  assert (Step : forall a b c st st', from_to c -> good st -> jstep C st (EJoint a b c) = Ok st' -> good st' /\
    (js_out st' = js_out st \/
     (exists path' same' out, c (js_cur st') target = Some (path', same') /\ js_out st' = js_out st ++ [out] /\
        exists rest, path' = js_cur st' :: rest /\ rest <> [] /\ timed C v 0 (js_cur st') rest = Ok out) \/
     c (js_cur st') target = None /\ js_out st' = js_out st ++ [[JOut (js_cur st') (0, 0) 0]])).
  { clear -V1 v. intros a b c st st' Fc (p & ps & i & j & Gp & Gi & Gx & Gy & Gv) E. cbn [jstep] in E. unfold cb_joint in E.
    destruct (link_ids C (jm_names a)) as [[a0 b0]|]; [|injection E as <-; split; [exists p, ps, i, j; auto|left; reflexivity]].
    destruct (nth_or_ub (jm_pos a) a0) as [x|]; [|discriminate]. cbn [bind] in E. destruct (nth_or_ub (jm_pos a) b0) as [y|]; [|discriminate]. cbn [bind js_prev] in E.
    match type of E with (if ?q then _ else _) = _ => destruct q end; [|injection E as <-; split; [exists p, ps, i, j; auto|left; reflexivity]].
    unfold replan in E. cbn [js_has negb js_id js_points js_cur js_vel js_cmd js_out] in E. rewrite Gi, Gp, Gv in E. unfold nth_or_ub in E. cbn [nth_error bind] in E. rewrite Gx in E. cbn [bind] in E. rewrite Gy in E. cbn [bind] in E.
    rewrite <- surjective_pairing in E. destruct (c (x, y) target) as [[q sm]|] eqn:Pc.
    - destruct (Fc _ _ _ _ Pc) as (rest & -> & Nr & _). destruct (Rlt_dec v 0); [lra|]. destruct (timed C v 0 (x, y) rest) as [out|] eqn:T; [|discriminate]. cbn [bind] in E. injection E as <-.
      split; [exists p, ps, i, j; auto|]. right. left. exists ((x, y) :: rest), sm, out. cbn. split; [exact Pc|]. split; [reflexivity|]. exists rest. auto.
    - injection E as <-. split; [exists p, ps, i, j; auto|]. right. right. cbn. auto. }
  assert (G2 : good s2).
  { change (good s1) in G1. clearbody good. clear -G1 FJ E2 Step. revert s1 G1 E2. induction FJ as [|e js (a & b & c & -> & Fc) FJ IH]; intros s1 G1 E2; [injection E2 as <-; exact G1|].
    cbn [foldM] in E2. destruct (jstep C s1 (EJoint a b c)) as [st|] eqn:E; [|discriminate]. cbn [bind] in E2. apply (IH st); [|exact E2]. exact (proj1 (Step _ _ _ _ _ Fc G1 E)). }
  destruct (proj2 (Step _ _ _ _ _ F' G2 E3)) as [Q|[(path' & same' & out & Pc & O & rest & -> & Nr & T)|Q]]; [left; exact Q| |right; right; exact Q].
  right. left. destruct (timed_last C v 0 _ _ _ V1 T Nr) as (out' & o & -> & To). exists (js_cur s' :: rest), same', out', o, (jo_time o1).
  split; [exact Pc|]. split; [exact O|]. rewrite (timed_positions _ _ _ _ _ _ T). split; [reflexivity|]. split; [exists l1, o1; auto|].
  split; [rewrite To, T1, Rplus_0_l, pos_sum_way; field; lra|]. exists v. split; [exact V1|]. exact (timed_passes _ _ _ _ _ _ V1 T).
Qed.

(** *** The target *)
(** The last command of a history. *)
Definition last_command (C : jcfg) (es : list jevent) : option (R * jpos) :=
  fold_left (fun o e => match e with ECommand m _ _ => match command_of C m with Some c => Some c | None => o end | EJoint _ _ _ => o end) es None.
(** All commands list the two links in the same places. *)
Definition same_order (C : jcfg) (ids : nat * nat) (es : list jevent) : Prop :=
  forall m now plan, In (ECommand m now plan) es -> forall i, link_ids C (jc_names m) = Some i -> i = ids.

Lemma last_command_snoc C es e : last_command C (es ++ [e]) =
  match e with ECommand m _ _ => match command_of C m with Some c => Some c | None => last_command C es end | EJoint _ _ _ => last_command C es end.
Proof. unfold last_command. rewrite fold_left_app. reflexivity. Qed.
Lemma jrun_snoc C es e s' : jrun C (es ++ [e]) = Ok s' -> exists s, jrun C es = Ok s /\ jstep C s e = Ok s'.
Proof.
  unfold jrun. generalize jinit. induction es as [|a es IH]; intros s0; cbn [app foldM].
  - destruct (jstep C s0 e) as [s1|] eqn:E; [|discriminate]. cbn [bind]. intros H. injection H as <-. exists s0. auto.
  - destruct (jstep C s0 a) as [s1|]; [|discriminate]. cbn [bind]. apply IH.
Qed.

Section Target.
  Variable C : jcfg.
  Variable ids : nat * nat.
  Definition tracks (last : option (R * jpos)) (s : jst) : Prop :=
    (js_id s = None \/ js_id s = Some ids) /\
    (js_points s = [] /\ js_cmd s = (0, (0, 0)) \/
     exists p ps, js_points s = p :: ps /\ last = Some (js_cmd s) /\ jp_time p = fst (js_cmd s) /\
       nth_error (jp_pos p) (fst ids) = Some (fst (snd (js_cmd s))) /\ nth_error (jp_pos p) (snd ids) = Some (snd (snd (js_cmd s)))).
  Definition to_target (last : option (R * jpos)) (plan : planner) (s s' : jst) : Prop :=
    js_out s' = js_out s \/
    exists time target, last = Some (time, target) /\
      ((exists out o, js_out s' = js_out s ++ [out ++ [o]] /\ jo_pos o = target) \/
       plan (js_cur s') target = None /\ js_out s' = js_out s ++ [[JOut (js_cur s') (0, 0) 0]]).

  Lemma replan_target last now plan s s' : from_to plan -> tracks last s -> replan C now plan s = Ok s' -> tracks last s' /\ to_target last plan s s'.
  Proof.
    intros F [I T]. unfold replan. destruct (js_has s); cbn [negb]; [|intros E; injection E as <-; split; [split; assumption|left; reflexivity]].
    destruct (js_id s) as [[a b]|] eqn:Ei; [|intros E; injection E as <-; split; [split; cbn; [left; reflexivity|exact T]|left; reflexivity]].
    destruct I as [I|I]; [discriminate|]. destruct T as [[T _]|(p & ps & T & L & Tt & Ta & Tb)]; [rewrite T; cbn; discriminate|].
    rewrite T. unfold nth_or_ub. cbn [nth_error bind]. injection I as I. rewrite <- I in Ta, Tb. cbn [fst snd] in Ta, Tb. rewrite Ta. cbn [bind]. rewrite Tb. cbn [bind].
    assert (Pair : (fst (snd (js_cmd s)), snd (snd (js_cmd s))) = snd (js_cmd s)) by (symmetry; apply surjective_pairing). rewrite Pair.
    destruct (plan (js_cur s) (snd (js_cmd s))) as [[path same]|] eqn:P.
    - destruct (F _ _ _ _ P) as (rest & -> & N & La).
      match goal with |- context [timed C ?v _ _ _] => destruct (timed C v 0 (js_cur s) rest) as [out|] eqn:To; [|discriminate] end. cbn [bind]. intros E. injection E as <-.
      split; [split; cbn; [right; f_equal; exact I|right; exists p, ps; rewrite <- I; cbn; repeat split; assumption]|].
      right. exists (fst (js_cmd s)), (snd (js_cmd s)). split; [rewrite L; f_equal; apply surjective_pairing|]. left. apply timed_positions in To.
      destruct (exists_last (l := out)) as (o' & o & ->); [intros ->; apply N; rewrite <- To; reflexivity|]. exists o', o. split; [reflexivity|].
      rewrite map_app in To. rewrite <- To in La. cbn [map] in La. rewrite last_last in La. exact La.
    - intros E. injection E as <-. split; [split; cbn; [right; f_equal; exact I|right; exists p, ps; rewrite <- I; cbn; repeat split; assumption]|].
      right. exists (fst (js_cmd s)), (snd (js_cmd s)). split; [rewrite L; f_equal; apply surjective_pairing|]. right. split; [exact P|reflexivity].
  Qed.
  Lemma step_target es e s s' : from_to (plan_of e) -> same_order C ids (es ++ [e]) -> tracks (last_command C es) s -> jstep C s e = Ok s' ->
    tracks (last_command C (es ++ [e])) s' /\ to_target (last_command C (es ++ [e])) (plan_of e) s s'.
  Proof.
    intros F O T. rewrite last_command_snoc. destruct e as [m now plan|m now plan]; cbn [jstep plan_of] in *.
    - unfold cb_joint. destruct (link_ids C (jm_names m)) as [[a b]|]; [|intros E; injection E as <-; split; [exact T|left; reflexivity]].
      destruct (nth_or_ub (jm_pos m) a) as [x|]; [|discriminate]. cbn [bind]. destruct (nth_or_ub (jm_pos m) b) as [y|]; [|discriminate]. cbn [bind js_prev].
      match goal with |- (if ?b then _ else _) = _ -> _ => destruct b end.
      + intros E. eapply replan_target in E; [|exact F|exact T]. exact E.
      + intros E. injection E as <-. split; [exact T|left; reflexivity].
    - unfold cb_trajectory, command_of. cbn [js_id]. specialize (O m now plan). specialize (O ltac:(apply in_or_app; right; left; reflexivity)).
      destruct (link_ids C (jc_names m)) as [[a b]|]; [|intros E; injection E as <-; split; [split; cbn; [left; reflexivity|exact (proj2 T)]|left; reflexivity]].
      specialize (O _ eq_refl). unfold nth_or_ub. destruct (jc_points m) as [|p ps] eqn:Ep; [cbn; discriminate|]. cbn [nth_error bind].
      destruct (nth_error (jp_pos p) a) as [x|] eqn:Ex; [|discriminate]. cbn [bind]. destruct (nth_error (jp_pos p) b) as [y|] eqn:Ey; [|discriminate]. cbn [bind js_cmd].
      destruct (cmd_eq (js_cmd s) (jp_time p, (x, y))) eqn:Q.
      + intros E. injection E as <-. split; [|left; reflexivity]. split; cbn; [right; f_equal; exact O|].
        assert (js_cmd s = (jp_time p, (x, y))) as Ec by (apply cmd_eq_true; exact Q).
        destruct (proj2 T) as [T'|(p' & ps' & T1 & T2 & T3 & T4 & T5)]; [left; exact T'|]. right. exists p', ps'. repeat split; try assumption. f_equal. symmetry. exact Ec.
      + intros E. eapply replan_target in E; [exact E|exact F|]. split; cbn; [right; f_equal; exact O|]. right. exists p, ps. rewrite <- O. cbn. repeat split; assumption.
  Qed.
  Lemma same_order_app es e : same_order C ids (es ++ [e]) -> same_order C ids es.
  Proof. intros O m now plan H. apply (O m now plan). apply in_or_app. left. exact H. Qed.
  Lemma run_target es s : Forall (fun e => from_to (plan_of e)) es -> same_order C ids es -> jrun C es = Ok s -> tracks (last_command C es) s.
  Proof.
    revert s. induction es as [|e es IH] using rev_ind; intros s F O E; [injection E as <-; split; [left; reflexivity|left; split; reflexivity]|].
    apply jrun_snoc in E as (s0 & E0 & E1). apply Forall_app in F as [F1 F2]. inversion_clear F2. exact (proj1 (step_target es e s0 s H O (IH s0 F1 (same_order_app _ _ O) E0) E1)).
  Qed.
End Target.

(** If all commands list the links in the same places, whatever is published leads to the angles of the last command, or holds the current angles
    when the search for them fails. *)
Theorem C66_published_trajectories_end_at_the_last_command C ids es e s s' :
  Forall (fun e => from_to (plan_of e)) (es ++ [e]) -> same_order C ids (es ++ [e]) -> jrun C es = Ok s -> jstep C s e = Ok s' ->
  js_out s' = js_out s \/
  exists time target, last_command C (es ++ [e]) = Some (time, target) /\
    ((exists out o, js_out s' = js_out s ++ [out ++ [o]] /\ jo_pos o = target) \/
     plan_of e (js_cur s') target = None /\ js_out s' = js_out s ++ [[JOut (js_cur s') (0, 0) 0]]).
Proof.
  intros F O R E. apply Forall_app in F as [F1 F2]. inversion_clear F2. exact (proj2 (step_target C ids es e s s' H O (run_target C ids es s F1 (same_order_app _ _ _ _ O) R) E)).
Qed.

(** *** No undefined behaviour *)
(** The angles reported by a message. *)
Definition reported (C : jcfg) (m : jstates) : option jpos :=
  match link_ids C (jm_names m) with
  | Some (a, b) => match nth_error (jm_pos m) a, nth_error (jm_pos m) b with Some x, Some y => Some (x, y) | _, _ => None end
  | None => None
  end.
(** Messages that name the links have values for them. *)
Definition complete (C : jcfg) (e : jevent) : Prop :=
  match e with
  | EJoint m _ _ => link_ids C (jm_names m) <> None -> reported C m <> None
  | ECommand m _ _ => link_ids C (jc_names m) <> None -> command_of C m <> None
  end.
(** No command asks for all zeros, and none for angles at which the joints were seen. *)
Definition elsewhere (C : jcfg) (es : list jevent) : Prop :=
  (forall m now plan, In (ECommand m now plan) es -> command_of C m <> Some (0, (0, 0))) /\
  (forall m now plan time x m' now' plan' y, In (ECommand m now plan) es -> command_of C m = Some (time, x) -> In (EJoint m' now' plan') es -> reported C m' = Some y -> x <> y).

Lemma dmax_pos a b : a <> b -> 0 < dmax a b.
Proof.
  intros N. pose proof (dmax_fst a b). pose proof (dmax_snd a b). pose proof (dmax_nonneg a b). destruct (Rle_lt_or_eq_dec _ _ H1) as [|Z]; [assumption|]. exfalso. rewrite <- Z in *.
  apply N. destruct a as [a1 a2], b as [b1 b2]. cbn [fst snd] in *.
  assert (forall x y, Rabs (y - x) <= 0 -> x = y). { intros x y Q. assert (y - x = 0); [|lra]. destruct (Req_dec (y - x) 0) as [|W]; [assumption|]. apply Rabs_pos_lt in W. lra. }
  f_equal; auto.
Qed.
Section Safe.
  Variable C : jcfg.
  Hypothesis L : limits_ok C.
  Variable all : list jevent.
  Variable ids : nat * nat.
  Hypothesis O : same_order C ids all.
  Hypothesis W : elsewhere C all.
  Definition seen (x : jpos) : Prop := exists m now plan, In (EJoint m now plan) all /\ reported C m = Some x.
  Definition asked (c : R * jpos) : Prop := exists m now plan, In (ECommand m now plan) all /\ command_of C m = Some c.
  Definition safe_state (s : jst) : Prop :=
    (js_has s = true -> seen (js_cur s)) /\
    (js_points s = [] /\ js_id s = None /\ js_cmd s = (0, (0, 0)) \/
     (js_vel s < 0 \/ 0 < js_vel s) /\ (js_id s = None \/ js_id s = Some ids) /\ asked (js_cmd s) /\
     exists p ps, js_points s = p :: ps /\ jp_time p = fst (js_cmd s) /\
       nth_error (jp_pos p) (fst ids) = Some (fst (snd (js_cmd s))) /\ nth_error (jp_pos p) (snd ids) = Some (snd (snd (js_cmd s)))).

  Lemma velocity_ok v prev cur rest : 0 < v -> travels (prev :: cur :: rest) -> exists w, velocity C v prev cur rest = Ok w.
  Proof.
    intros V T. unfold velocity. destruct rest as [|n rest]; [eexists; reflexivity|]. rewrite qdiv_ok by lra. cbn [bind].
    cbn [travels] in T. destruct T as (T1 & T2 & T3 & _).
    assert (D : 0 < Rmax (Rabs (fst (direction C prev cur n))) (Rabs (snd (direction C prev cur n)))).
    { unfold direction. destruct (j_mode C); cbn [fst snd]; apply dmax_pos; assumption. }
    rewrite qdiv_ok; [|apply Rgt_not_eq; apply Rmult_lt_0_compat; [exact D|apply Rinv_0_lt_compat; exact V]]. cbn [bind].
    rewrite qdiv_ok; [|apply Rgt_not_eq; apply Rmult_lt_0_compat; [exact D|apply Rinv_0_lt_compat; exact V]]. cbn [bind]. eexists. reflexivity.
  Qed.
  Lemma timed_ok v l : 0 < v -> forall sum prev, travels (prev :: l) -> exists out, timed C v sum prev l = Ok out.
  Proof.
    intros V. induction l as [|c l IH]; intros sum prev T; cbn [timed]; [eexists; reflexivity|].
    destruct (velocity_ok v prev c l V T) as (w & ->). cbn [bind]. rewrite qdiv_ok by lra. cbn [bind]. destruct (IH (sum + dmax prev c) c) as (out & ->); [apply T|]. cbn. eexists. reflexivity.
  Qed.
  Lemma average_pos time sum : 0 < sum -> 0 < average_velocity C time sum.
  Proof.
    intros S. pose proof (slowest_pos C L) as Sp. destruct (Rlt_dec 0 time) as [T|T].
    - rewrite average_value by assumption. apply Rmin_glb_lt; [apply Rmult_lt_0_compat; [exact S|apply Rinv_0_lt_compat; exact T]|exact Sp].
    - unfold average_velocity. destruct (Rle_dec time 0); [exact Sp|lra].
  Qed.
  Lemma replan_safe now plan s : from_to plan -> direct plan -> safe_state s -> exists s', replan C now plan s = Ok s' /\ safe_state s'.
  Proof.
    intros F D [S1 S2]. unfold replan. destruct (js_has s) eqn:Eh; cbn [negb]; [|exists s; split; [reflexivity|split; [rewrite Eh; discriminate|exact S2]]].
    destruct S2 as [(Sp & Si & Sc)|(Sv & Si & Sa & p & ps & Sp & St & Sx & Sy)].
    { rewrite Si. eexists. split; [reflexivity|]. split; cbn; [exact S1|left; auto]. }
    destruct Si as [Si|Si]; rewrite Si.
    { eexists. split; [reflexivity|]. split; cbn; [exact S1|]. right. split; [exact Sv|]. split; [left; reflexivity|]. split; [exact Sa|]. exists p, ps. auto. }
    destruct ids as [a b] eqn:Eids. rewrite Sp. unfold nth_or_ub. cbn [nth_error bind]. cbn [fst snd] in Sx, Sy. rewrite Sx. cbn [bind]. rewrite Sy. cbn [bind].
    assert (Pair : (fst (snd (js_cmd s)), snd (snd (js_cmd s))) = snd (js_cmd s)) by (symmetry; apply surjective_pairing). rewrite Pair.
    destruct (plan (js_cur s) (snd (js_cmd s))) as [[path same]|] eqn:P.
    - assert (N : js_cur s <> snd (js_cmd s)).
      { destruct Sa as (m & nw & pl & I1 & I2). destruct (S1 eq_refl) as (m' & nw' & pl' & I3 & I4). intros Q. symmetry in Q. revert Q.
        apply (proj2 W m nw pl (fst (js_cmd s)) _ m' nw' pl' _ I1); [rewrite I2; f_equal; apply surjective_pairing|exact I3|exact I4]. }
      pose proof (D _ _ _ _ P N) as T. destruct (F _ _ _ _ P) as (rest & -> & Nr & _). set (v := if Rlt_dec (js_vel s) 0 then _ else _).
      assert (V : 0 < v).
      { unfold v. destruct (Rlt_dec (js_vel s) 0); [|destruct Sv; lra]. apply average_pos. destruct rest as [|c rest]; [contradiction|]. cbn [travels] in T. destruct T as (T & _).
        change (0 < dmax (js_cur s) c + pos_sum (c :: rest)). pose proof (dmax_pos _ _ T). pose proof (pos_sum_nonneg (c :: rest)). lra. }
      destruct (timed_ok v rest V 0 (js_cur s) T) as (out & ->). cbn [bind]. eexists. split; [reflexivity|]. split; cbn; [exact S1|]. right. split; [right; exact V|]. rewrite Eids.
      split; [right; reflexivity|]. split; [exact Sa|]. exists p, ps. auto.
    - eexists. split; [reflexivity|]. split; cbn; [exact S1|]. right. split; [exact Sv|]. rewrite Eids. split; [right; reflexivity|]. split; [exact Sa|]. exists p, ps. auto.
  Qed.
  Lemma step_safe e s : In e all -> from_to (plan_of e) -> direct (plan_of e) -> complete C e -> safe_state s -> exists s', jstep C s e = Ok s' /\ safe_state s'.
  Proof.
    intros In_ F D Co S. destruct e as [m now plan|m now plan]; cbn [jstep plan_of complete] in *.
    - unfold cb_joint. assert (R : forall x, reported C m = Some x -> seen x) by (intros x Hx; exists m, now, plan; auto). unfold reported in R, Co.
      destruct (link_ids C (jm_names m)) as [[a b]|]; [|exists s; auto]. unfold nth_or_ub.
      destruct (nth_error (jm_pos m) a) as [x|]; [|exfalso; apply Co; [discriminate|reflexivity]]. cbn [bind].
      destruct (nth_error (jm_pos m) b) as [y|]; [|exfalso; apply Co; [discriminate|reflexivity]]. cbn [bind js_prev].
      match goal with |- context [replan C now plan ?s0] => assert (S0 : safe_state s0) by (split; cbn; [intros _; apply R; reflexivity|exact (proj2 S)]) end.
      match goal with |- context [if ?b then _ else _] => destruct b end; [apply replan_safe; assumption|]. eexists. split; [reflexivity|exact S0].
    - unfold cb_trajectory. cbn [js_id js_cmd]. pose proof (O m now plan In_) as Om. pose proof (proj1 W m now plan In_) as Wm.
      assert (R : forall x, command_of C m = Some x -> asked x) by (intros x Hx; exists m, now, plan; auto). unfold command_of in R, Co, Wm.
      destruct (link_ids C (jc_names m)) as [[a b]|].
      2:{ eexists. split; [reflexivity|]. split; cbn; [exact (proj1 S)|]. destruct (proj2 S) as [(Sp & Si & Sc)|(Sv & Si & Sr)]; [left; auto|right; split; [exact Sv|split; [left; reflexivity|exact Sr]]]. }
      specialize (Om _ eq_refl). unfold nth_or_ub. destruct (jc_points m) as [|p ps]; [exfalso; apply Co; [discriminate|reflexivity]|]. cbn [nth_error bind].
      destruct (nth_error (jp_pos p) a) as [x|] eqn:Ex; [|exfalso; apply Co; [discriminate|reflexivity]]. cbn [bind].
      destruct (nth_error (jp_pos p) b) as [y|] eqn:Ey; [|exfalso; apply Co; [discriminate|reflexivity]]. cbn [bind].
      destruct (cmd_eq (js_cmd s) (jp_time p, (x, y))) eqn:Q.
      + eexists. split; [reflexivity|]. split; cbn; [exact (proj1 S)|].
        assert (js_cmd s = (jp_time p, (x, y))) as Ec by (apply cmd_eq_true; exact Q).
        destruct (proj2 S) as [(Sp & Si & Sc)|(Sv & Si & Sr)]; [exfalso; apply Wm; rewrite <- Ec, Sc; reflexivity|]. right. split; [exact Sv|]. split; [right; f_equal; exact Om|exact Sr].
      + apply replan_safe; [exact F|exact D|]. split; cbn; [exact (proj1 S)|]. right. split; [left; lra|]. split; [right; f_equal; exact Om|]. split; [apply R; reflexivity|].
        exists p, ps. rewrite <- Om. cbn. auto.
  Qed.
End Safe.

(** Messages of this form never lead to undefined behaviour. *)
Theorem C66_no_undefined_behaviour C ids es : limits_ok C -> same_order C ids es -> elsewhere C es ->
  Forall (fun e => complete C e /\ from_to (plan_of e) /\ direct (plan_of e)) es -> exists s, jrun C es = Ok s.
Proof.
  intros L O W F.
  assert (G : forall l s, incl l es -> safe_state C es ids s -> exists s', foldM (jstep C) l s = Ok s').
  { induction l as [|e l IH]; intros s I S; [eexists; reflexivity|]. rewrite Forall_forall in F. destruct (F e (I e (or_introl eq_refl))) as (F1 & F2 & F3).
    destruct (step_safe C L es ids O W e s (I e (or_introl eq_refl)) F2 F3 F1 S) as (s1 & E & S1). cbn [foldM]. rewrite E. cbn [bind]. apply IH; [|exact S1]. intros x Hx. apply I. right. exact Hx. }
  apply G; [intros x Hx; exact Hx|]. split; cbn; [discriminate|left; auto].
Qed.

(** *** The pace of replanning *)
Definition time_of (e : jevent) : R := match e with EJoint _ t _ => t | ECommand _ t _ => t end.
(** Joint states cause a trajectory only if the interval is positive and has passed since the last trajectory, except after a trajectory whose end
    was in the cell of the start. *)
Theorem C66_replans_wait_for_the_interval C s e s1 mid s2 m now plan s' :
  (forall a b path, plan_of e a b <> Some (path, true)) -> jstep C s e = Ok s1 -> js_out s1 <> js_out s ->
  Forall (fun e' => time_of e <= time_of e') mid -> foldM (jstep C) mid s1 = Ok s2 -> js_out s2 = js_out s1 ->
  jstep C s2 (EJoint m now plan) = Ok s' -> js_out s' <> js_out s2 -> 0 < j_interval C /\ time_of e + j_interval C < now.
Proof.
  intros Ns E1 O1 FM E2 O2 E3 O3.
  assert (Re : forall nw pl st st', replan C nw pl st = Ok st' -> (exists l, js_out st' = js_out st ++ l) /\ (js_out st' = js_out st -> js_prev st' = js_prev st \/ js_prev st' = Some nw) /\
    (js_out st' <> js_out st -> (forall a b path, pl a b <> Some (path, true)) -> js_prev st' = Some nw)).
  { intros nw pl st st'. unfold replan. destruct (js_has st); cbn [negb]; [|intros E; injection E as <-; split; [exists []; symmetry; apply app_nil_r|split; [auto|intros Q; contradiction]]].
    destruct (js_id st) as [[a b]|]; [|intros E; injection E as <-; cbn; split; [exists []; symmetry; apply app_nil_r|split; [auto|intros Q; contradiction]]].
    destruct (nth_or_ub (js_points st) 0) as [p|]; [|discriminate]. cbn [bind]. destruct (nth_or_ub (jp_pos p) a) as [x|]; [|discriminate]. cbn [bind].
    destruct (nth_or_ub (jp_pos p) b) as [y|]; [|discriminate]. cbn [bind]. destruct (pl (js_cur st) (x, y)) as [[path same]|] eqn:P.
    - match goal with |- (do o <- ?t; _) = _ -> _ => destruct t as [out|]; [|discriminate] end. cbn [bind]. intros E. injection E as <-. cbn. split; [exists [out]; reflexivity|]. split.
      + intros Q. exfalso. apply (f_equal (@length _)) in Q. rewrite app_length in Q. cbn in Q. lia.
      + intros _ Np. destruct same; [exfalso; apply (Np _ _ _ P)|reflexivity].
    - intros E. injection E as <-. cbn. split; [eexists; reflexivity|]. auto. }
  assert (St : forall ev st st', jstep C st ev = Ok st' -> (exists l, js_out st' = js_out st ++ l) /\ (js_out st' = js_out st -> js_prev st' = js_prev st \/ js_prev st' = Some (time_of ev)) /\
    (js_out st' <> js_out st -> (forall a b path, plan_of ev a b <> Some (path, true)) -> js_prev st' = Some (time_of ev))).
  { assert (Triv : forall nw (pl : planner) (st st' : jst), js_out st' = js_out st -> js_prev st' = js_prev st -> (exists l, js_out st' = js_out st ++ l) /\ (js_out st' = js_out st -> js_prev st' = js_prev st \/ js_prev st' = Some nw) /\
      (js_out st' <> js_out st -> (forall a b path, pl a b <> Some (path, true)) -> js_prev st' = Some nw)).
    { intros nw pl st st' Eo Ep. split; [exists []; rewrite app_nil_r; exact Eo|]. split; [auto|]. intros Q. contradiction. }
    intros ev st st'. destruct ev as [a t pl|a t pl]; cbn [jstep time_of plan_of].
    - unfold cb_joint. destruct (link_ids C (jm_names a)) as [[i j]|]; [|intros E; injection E as <-; apply (Triv t pl); reflexivity].
      destruct (nth_or_ub (jm_pos a) i) as [x|]; [|discriminate]. cbn [bind]. destruct (nth_or_ub (jm_pos a) j) as [y|]; [|discriminate]. cbn [bind js_prev].
      match goal with |- (if ?b then _ else _) = _ -> _ => destruct b end; [|intros E; injection E as <-; apply (Triv t pl); reflexivity]. intros E. apply Re in E. exact E.
    - unfold cb_trajectory. cbn [js_id]. destruct (link_ids C (jc_names a)) as [[i j]|]; [|intros E; injection E as <-; apply (Triv t pl); reflexivity].
      destruct (nth_or_ub (jc_points a) 0) as [p|]; [|discriminate]. cbn [bind]. destruct (nth_or_ub (jp_pos p) i) as [x|]; [|discriminate]. cbn [bind].
      destruct (nth_or_ub (jp_pos p) j) as [y|]; [|discriminate]. cbn [bind]. destruct (cmd_eq _ _); [intros E; injection E as <-; apply (Triv t pl); reflexivity|]. intros E. apply Re in E. exact E. }
  assert (P1 : exists t, js_prev s1 = Some t /\ time_of e <= t) by (exists (time_of e); split; [apply (St _ _ _ E1); assumption|lra]).
  assert (P2 : exists t, js_prev s2 = Some t /\ time_of e <= t).
  { clear E1 O1 E3 O3. revert s1 P1 E2 O2. induction FM as [|e' mid Te FM IH]; intros s1 P1 E2 O2; [injection E2 as <-; exact P1|].
    cbn [foldM] in E2. destruct (jstep C s1 e') as [st|] eqn:E; [|discriminate]. cbn [bind] in E2. destruct (St _ _ _ E) as ((l & L1) & K & _).
    assert (Lm : exists l', js_out s2 = js_out st ++ l').
    { clear -E2 St. revert st E2. induction mid as [|e' mid IH]; intros st E2; [injection E2 as <-; exists []; symmetry; apply app_nil_r|]. cbn [foldM] in E2.
      destruct (jstep C st e') as [st1|] eqn:E; [|discriminate]. cbn [bind] in E2. destruct (IH _ E2) as (l' & ->). destruct (proj1 (St _ _ _ E)) as (l & ->). exists (l ++ l'). symmetry. apply app_assoc. }
    destruct Lm as (l' & L2). rewrite O2, L1 in L2. assert (l = [] /\ l' = []) as [-> ->].
    { apply (f_equal (@length _)) in L2. rewrite !app_length in L2. destruct l, l'; cbn in L2; try lia; auto. }
    rewrite app_nil_r in L1. apply (IH st); [|exact E2|rewrite O2, L1; reflexivity]. destruct (K L1) as [->| ->]; [exact P1|exists (time_of e'); auto]. }
  destruct P2 as (t & P2 & Tt). cbn [jstep] in E3. unfold cb_joint in E3. destruct (link_ids C (jm_names m)) as [[i j]|]; [|injection E3 as <-; contradiction].
  destruct (nth_or_ub (jm_pos m) i) as [x|]; [|discriminate]. cbn [bind] in E3. destruct (nth_or_ub (jm_pos m) j) as [y|]; [|discriminate]. cbn [bind js_prev] in E3. rewrite P2 in E3.
  destruct (Rlt_dec (t + j_interval C) now) as [Q|]; [|cbn [andb] in E3; injection E3 as <-; contradiction]. destruct (Rlt_dec 0 (j_interval C)) as [I|]; [|cbn [andb] in E3; injection E3 as <-; contradiction].
  split; [exact I|lra].
Qed.

(** *** Commands for which this fails *)
(** A first command of zeros is taken for a repetition: the next joint states make the node read a trajectory without points. *)
Theorem C66_first_command_of_zeros_refuted C now plan now' plan' x y : j_link0 C <> j_link1 C -> 0 < j_interval C ->
  jrun C [ECommand (JCmd [j_link0 C; j_link1 C] [JPoint 0 [0; 0]]) now plan; EJoint (JStates [j_link0 C; j_link1 C] [x; y]) now' plan'] = UB.
Proof.
  intros N I. assert (Li : link_ids C [j_link0 C; j_link1 C] = Some (0%nat, 1%nat)).
  { unfold link_ids. cbn [find_links]. rewrite Z.eqb_refl. destruct (j_link1 C =? j_link0 C)%Z eqn:E; [apply Z.eqb_eq in E; congruence|]. rewrite Z.eqb_refl. reflexivity. }
  unfold jrun. cbn [foldM jstep]. unfold cb_trajectory. cbn [jc_names jc_points]. rewrite Li. cbn [js_id jinit js_cmd js_cur js_has js_points js_vel js_prev js_out]. unfold nth_or_ub. cbn [nth_error bind jp_pos jp_time].
  assert (cmd_eq (0, (0, 0)) (0, (0, 0)) = true) as ->.
  { unfold cmd_eq. cbn [fst snd]. destruct (Req_EM_T 0 0); [reflexivity|contradiction]. }
  cbn [bind foldM jstep]. unfold cb_joint. cbn [jm_names jm_pos]. rewrite Li. unfold nth_or_ub. cbn [nth_error bind js_prev andb]. destruct (Rlt_dec 0 (j_interval C)); [|contradiction].
  reflexivity.
Qed.

(** A command, with a time, for the angles at which the joints are: the velocity and the time become 0/0. *)
Theorem C66_command_for_the_current_angles_refuted C x y time now now' plan plan' : limits_ok C -> j_link0 C <> j_link1 C -> 0 < time ->
  plan' (x, y) (x, y) = Some ([(x, y); (x, y)], true) ->
  jrun C [EJoint (JStates [j_link0 C; j_link1 C] [x; y]) now plan; ECommand (JCmd [j_link0 C; j_link1 C] [JPoint time [x; y]]) now' plan'] = UB.
Proof.
  intros L N T P. assert (Li : link_ids C [j_link0 C; j_link1 C] = Some (0%nat, 1%nat)).
  { unfold link_ids. cbn [find_links]. rewrite Z.eqb_refl. destruct (j_link1 C =? j_link0 C)%Z eqn:E; [apply Z.eqb_eq in E; congruence|]. rewrite Z.eqb_refl. reflexivity. }
  assert (Z : average_velocity C time (pos_sum [(x, y); (x, y)]) = 0).
  { cbn [pos_sum]. unfold dmax. cbn [fst snd]. rewrite !Rminus_diag_eq by reflexivity. rewrite Rabs_R0, Rmax_left by lra. rewrite Rplus_0_l, average_value by assumption.
    replace (0 / time) with 0 by (field; lra). apply Rmin_left. pose proof (slowest_pos C L). lra. }
  unfold jrun. cbn [foldM jstep]. unfold cb_joint. cbn [jm_names jm_pos]. rewrite Li. unfold nth_or_ub at 1 2. cbn [nth_error bind js_prev jinit andb js_id js_cmd js_points js_vel js_out].
  assert (G : forall s, js_cur s = (x, y) -> js_has s = true -> js_cmd s = (0, (0, 0)) -> cb_trajectory C (JCmd [j_link0 C; j_link1 C] [JPoint time [x; y]]) now' plan' s = UB).
  2:{ destruct (Rlt_dec 0 (j_interval C)); [|cbn [bind foldM jstep]; rewrite G by reflexivity; reflexivity]. unfold replan. cbn [js_has negb js_id js_cur js_cmd js_points js_vel js_out bind foldM jstep]. rewrite G by reflexivity. reflexivity. }
  intros s Sc Sh Sm. unfold cb_trajectory. cbn [jc_names jc_points]. rewrite Li. cbn [js_id js_cmd]. unfold nth_or_ub. cbn [nth_error bind jp_pos jp_time]. rewrite Sm.
  assert (cmd_eq (0, (0, 0)) (time, (x, y)) = false) as -> by (unfold cmd_eq; cbn [fst snd]; destruct (Req_EM_T 0 time); [lra|reflexivity]).
  unfold replan. cbn [js_has js_id js_cur js_points js_vel js_out js_cmd]. rewrite Sh. cbn [negb]. unfold nth_or_ub. cbn [nth_error bind jp_pos jp_time]. rewrite Sc, P. destruct (Rlt_dec (-1) 0); [|lra].
  rewrite Z. cbn [timed velocity bind]. unfold qdiv. destruct (Req_EM_T 0 0); [reflexivity|contradiction].
Qed.

(** A command repeated with the names in the other order changes where the angles of the first message are read: the next trajectory swaps them. *)
Definition straight : planner := fun s e => Some ([s; e], false).
Definition jc : jcfg := JCfg 1 2 1 2 VEL_AVG 1.
Lemma jc_ids12 : link_ids jc [1; 2]%Z = Some (0%nat, 1%nat). Proof. reflexivity. Qed.
Lemma jc_ids21 : link_ids jc [2; 1]%Z = Some (1%nat, 0%nat). Proof. reflexivity. Qed.
Lemma jc_limits : limits_ok jc. Proof. split; cbn; lra. Qed.
Lemma straight_from_to : from_to straight.
Proof. intros s e path same E. injection E as <- <-. exists [e]. split; [reflexivity|]. split; [discriminate|reflexivity]. Qed.
Lemma straight_direct : direct straight.
Proof. intros s e path same E N. injection E as <- <-. cbn. split; [exact N|split; exact I]. Qed.
Definition ev_joint := EJoint (JStates [1; 2]%Z [0; 0]) 0 straight.
Definition ev_cmd := ECommand (JCmd [1; 2]%Z [JPoint 2 [1; 3]]) 0 straight.
Definition ev_swapped := ECommand (JCmd [2; 1]%Z [JPoint 2 [3; 1]]) 0 straight.
Definition ev_later := EJoint (JStates [1; 2]%Z [0; 0]) 2 straight.

Lemma jc_dmax a b c d : Rabs (c - a) <= Rabs (d - b) -> dmax (a, b) (c, d) = Rabs (d - b).
Proof. intros H. unfold dmax. cbn [fst snd]. apply Rmax_right. exact H. Qed.
Lemma run_cmd : jrun jc [ev_joint; ev_cmd] =
  Ok (JSt (0, 0) true (Some (0, 1)%nat) (2, (1, 3)) [JPoint 2 [1; 3]] 1 (Some 0) [[JOut (1, 3) (0, 0) 3]]).
Proof.
  unfold jrun, ev_joint, ev_cmd. cbn [foldM jstep]. unfold cb_joint. cbn [jm_names jm_pos]. rewrite jc_ids12. unfold nth_or_ub at 1 2. cbn [nth_error bind js_prev jinit andb js_id js_cmd js_points js_vel js_out].
  destruct (Rlt_dec 0 (j_interval jc)) as [_|n]; [|exfalso; apply n; cbn; lra]. unfold replan at 1. cbn [js_has negb js_id js_cur js_cmd js_points js_vel js_out bind].
  unfold cb_trajectory. cbn [jc_names jc_points]. rewrite jc_ids12. cbn [js_id js_cmd js_cur js_has js_points js_vel js_prev js_out]. unfold nth_or_ub. cbn [nth_error bind jp_pos jp_time].
  assert (cmd_eq (0, (0, 0)) (2, (1, 3)) = false) as -> by (unfold cmd_eq; cbn [fst snd]; destruct (Req_EM_T 0 2); [lra|reflexivity]).
  unfold replan. cbn [js_has js_id js_cur js_points js_vel js_out js_cmd negb]. unfold nth_or_ub. cbn [nth_error bind jp_pos jp_time straight]. destruct (Rlt_dec (-1) 0); [|lra].
  cbn [pos_sum]. assert (D : dmax (0, 0) (1, 3) = 3).
  { unfold dmax. cbn [fst snd]. rewrite !Rminus_0_r. rewrite !Rabs_right by lra. apply Rmax_right. lra. }
  rewrite D, Rplus_0_r. rewrite (average_value jc 2 3) by lra. unfold slowest. cbn [j_vmax0 j_vmax1 jc]. rewrite (Rmin_left 1 2) by lra. rewrite Rmin_right by lra.
  cbn [timed velocity bind]. rewrite D. unfold qdiv. destruct (Req_EM_T 1 0); [lra|]. cbn [bind app]. do 4 f_equal. f_equal. field.
Qed.
Theorem C66_reordered_command_refuted : exists s,
  jrun jc [ev_joint; ev_cmd; ev_swapped; ev_later] = Ok s /\
  command_of jc (JCmd [2; 1]%Z [JPoint 2 [3; 1]]) = Some (2, (1, 3)) /\ command_of jc (JCmd [1; 2]%Z [JPoint 2 [1; 3]]) = Some (2, (1, 3)) /\
  map (map jo_pos) (js_out s) = [[(1, 3)]; [(3, 1)]].
Proof.
  assert (E : jrun jc [ev_joint; ev_cmd; ev_swapped; ev_later] = (do s <- jrun jc [ev_joint; ev_cmd]; do s' <- jstep jc s ev_swapped; jstep jc s' ev_later)).
  { unfold jrun. cbn [foldM]. destruct (jstep jc jinit ev_joint) as [s|]; [|reflexivity]. cbn [bind]. destruct (jstep jc s ev_cmd) as [s1|]; [|reflexivity]. cbn [bind].
    destruct (jstep jc s1 ev_swapped) as [s2|]; [|reflexivity]. cbn [bind]. destruct (jstep jc s2 ev_later); reflexivity. }
  rewrite E, run_cmd. cbn [bind]. unfold ev_swapped, ev_later. cbn [jstep]. unfold cb_trajectory. cbn [jc_names jc_points]. rewrite jc_ids21. cbn [js_id js_cmd js_cur js_has js_points js_vel js_prev js_out].
  unfold nth_or_ub. cbn [nth_error bind jp_pos jp_time].
  assert (cmd_eq (2, (1, 3)) (2, (1, 3)) = true) as -> by (unfold cmd_eq; cbn [fst snd]; destruct (Req_EM_T 2 2); [|lra]; destruct (Req_EM_T 1 1); [|lra]; destruct (Req_EM_T 3 3); [reflexivity|lra]).
  cbn [bind]. unfold cb_joint. cbn [jm_names jm_pos]. rewrite jc_ids12. unfold nth_or_ub. cbn [nth_error bind js_prev js_id js_cmd js_points js_vel js_out]. change (j_interval jc) with 1.
  destruct (Rlt_dec (0 + 1) 2); [|lra]. destruct (Rlt_dec 0 1); [|lra]. cbn [andb]. unfold replan. cbn [js_has js_id js_cur js_points js_vel js_out js_cmd negb]. unfold nth_or_ub.
  cbn [nth_error bind jp_pos jp_time straight]. destruct (Rlt_dec 1 0); [lra|]. cbn [timed velocity bind]. unfold qdiv. destruct (Req_EM_T 1 0); [lra|]. cbn [bind].
  eexists. split; [reflexivity|]. split; [reflexivity|]. split; [reflexivity|]. reflexivity.
Qed.

(** *** The hypotheses are met *)
Example ex_joint_history : limits_ok jc /\ same_order jc (0, 1)%nat [ev_joint; ev_cmd; ev_later] /\ elsewhere jc [ev_joint; ev_cmd; ev_later] /\
  Forall (fun e => complete jc e /\ from_to (plan_of e) /\ direct (plan_of e)) [ev_joint; ev_cmd; ev_later].
Proof.
  split; [exact jc_limits|]. split.
  { intros m now plan [H|[H|[H|[]]]] i; [discriminate| |discriminate]. injection H as <- <- <-. cbn [jc_names]. rewrite jc_ids12. intros E. injection E as <-. reflexivity. }
  split.
  { assert (Cm : command_of jc (JCmd [1; 2]%Z [JPoint 2 [1; 3]]) = Some (2, (1, 3))) by reflexivity. assert (Rp : reported jc (JStates [1; 2]%Z [0; 0]) = Some (0, 0)) by reflexivity. split.
    - intros m now plan [H|[H|[H|[]]]]; [discriminate| |discriminate]. injection H as <- <- <-. rewrite Cm. intros E. apply (f_equal (fun o => match o with Some c => fst c | None => 0 end)) in E. cbn in E. lra.
    - intros m now plan time x m' now' plan' y [H|[H|[H|[]]]]; [discriminate| |discriminate]. injection H as <- <- <-. rewrite Cm. intros E.
      apply (f_equal (fun o => match o with Some c => snd c | None => (0, 0) end)) in E. cbn in E. subst x.
      assert (R : forall z, reported jc (JStates [1; 2]%Z [0; 0]) = Some z -> (1, 3) <> z).
      { intros z Ez Q. rewrite Rp in Ez. injection Ez as <-. apply (f_equal fst) in Q. cbn in Q. lra. }
      intros [H|[H|[H|[]]]]; [|discriminate|]; injection H as <- <- <-; apply R. }
  repeat (apply Forall_cons; [split; [cbn; discriminate|split; [exact straight_from_to|exact straight_direct]]|]). apply Forall_nil.
Qed.
(** The first trajectory of this history: three radians in three seconds, since two are too few. *)
Example ex_joint_trajectory : exists s, jrun jc [ev_joint; ev_cmd] = Ok s /\ js_out s = [[JOut (1, 3) (0, 0) 3]].
Proof. eexists. split; [exact run_cmd|reflexivity]. Qed.

Print Assumptions C66_joint_limits_hold.
Print Assumptions C66_new_commands_take_the_requested_time.
Print Assumptions C66_published_trajectories_end_at_the_last_command.
Print Assumptions C66_no_undefined_behaviour.
Print Assumptions C66_replans_keep_the_velocity.
Print Assumptions C66_replans_wait_for_the_interval.
