(** C38, C56, C57: the trajectory tracker's commands and status. *)
From Coq Require Import ZArith List Bool Reals Lra Lia.
From Flocq Require Import Core.Core IEEE754.BinarySingleNaN.
From Verif Require Import FloatLib CostF32 BasicControl BasicControlProps Tracker.
Import ListNotations.
Local Open Scope R_scope.

(** * Specification: what the node knows, read off the event history *)

(** The latest path message (frame given?, velocities). *)
Definition last_path (es : list ev) : option (bool * list f32) :=
  fold_left (fun a e => match e with EPath f p => Some (f, p) | _ => a end) es None.
(** The latest odometry time stamp, 0 before the first. *)
Definition last_stamp (es : list ev) : Z :=
  fold_left (fun a e => match e with EOdom t _ _ _ _ _ => t | _ => a end) es 0%Z.
(** A usable path: with a frame, not empty, without negative velocity. *)
Definition usable (es : list ev) (p : list f32) : Prop :=
  last_path es = Some (true, p) /\ p <> [] /\
  Forall (fun x => is_finite x = true -> 0 <= B2R x) p.
(** [e] makes the node control the robot, with measurements [m] (per number of
    finished path steps), references [f], odometry velocities and time step. *)
Definition controls (es : list ev) (e : ev) (m : nat -> option sensed) (f : refs) (lin ang : R) (dt : f32) : Prop :=
  (exists t, e = EOdom t m f lin ang dt /\ last_stamp es <> 0%Z) \/
  (e = ETimer (Some m) f dt /\ lin = 0 /\ ang = 0).
(** Close to the local goal / turning in place. *)
Definition near_goal (c : tcfg) (z : sensed) : Prop :=
  z_path_length z < t_min_track c \/ Rabs (z_remain_local z) < t_stop_dist c \/ z_in_place z = true.
(** Distance from the path: to the end point at either end, to the line between. *)
Definition distance_from_path (size : nat) (z : sensed) (i : nat) : R :=
  if (Nat.eqb i 0 || Nat.leb size (i + 1))%bool then Rabs (z_nearest_norm z) else Rabs (z_dist_err z).
Definition stop_msg (s : status) : list out := [OCmd s0 s0; OStatus s].
(** The last command published in a history. *)
Definition last_cmd (c : tcfg) (es : list ev) : f32 * f32 :=
  snd (fold_left (fun a e => let '(s, o) := step c (fst a) e in
         (s, fold_left (fun a x => match x with OCmd v w => (v, w) | _ => a end) o (snd a)))
       es (ninit, (s0, s0))).
Definition within (p a q : f32) : Prop := sle (ssub p a) q = true /\ sle q (sadd p a) = true.

(** * Proofs *)
Section Proofs.
  Variable c : tcfg.

  Lemma absless_iff x t : absless x t = true <-> Rabs x < t.
  Proof. unfold absless. case Rlt_bool_spec; intros; split; intros; try discriminate; auto; lra. Qed.

  Lemma bad_vel_false x : bad_vel x = false <-> (is_finite x = true -> 0 <= B2R x).
  Proof.
    unfold bad_vel. destruct (is_finite x) eqn:F; [|simpl; split; [discriminate|auto]].
    cbn [andb]. destruct (slt x (sneg s0)) eqn:L.
    - apply ltb_true in L. destruct L as (_ & _ & L). rewrite key_sneg, finite_key in L by auto.
      change (key s0) with 0 in L. split; [discriminate|]. intros H. specialize (H eq_refl). lra.
    - split; auto. intros _ _. destruct (Rle_or_lt 0 (B2R x)) as [H|H]; auto. exfalso.
      assert (slt x (sneg s0) = true); [|congruence].
      apply ltb_true. repeat split; auto using finite_nan. rewrite key_sneg, finite_key by auto.
      change (key s0) with 0. lra.
  Qed.

  Lemma fold_snoc {A B} (f : A -> B -> A) l x a : fold_left f (l ++ [x]) a = f (fold_left f l a) x.
  Proof. rewrite fold_left_app. reflexivity. Qed.

  Lemma run_snoc es e : run c (es ++ [e]) = fst (step c (run c es) e).
  Proof. unfold run. rewrite fold_snoc. reflexivity. Qed.

  Lemma control_keeps s m f lin ang dt : let s' := fst (control c s m f lin ang dt) in
    n_frame s' = n_frame s /\ n_path s' = n_path s /\ n_odom s' = n_odom s.
  Proof.
    unfold control. cbv zeta. destruct (r_status _); try (cbn; auto; fail);
    match goal with |- context [let '(v, w) := ?X in _] => destruct X as [v w] end;
    match goal with |- context [let '(v, w) := ?X in _] => destruct X as [v' w'] end; cbn; auto.
  Qed.

  Lemma run_facts es :
    n_odom (run c es) = last_stamp es /\
    n_frame (run c es) = match last_path es with Some (f, _) => f | None => false end /\
    n_path (run c es) = match last_path es with Some (_, p) => if existsb bad_vel p then [] else p | None => [] end.
  Proof.
    induction es as [|e es IH] using rev_ind; [repeat split|].
    rewrite run_snoc. unfold last_path, last_stamp in *. rewrite !fold_snoc.
    destruct IH as (A & B & D). destruct e as [fr p|t m f lin ang dt|[m|] f dt|]; cbn [step].
    - cbn. auto.
    - destruct (n_odom (run c es) =? 0)%Z eqn:E.
      + cbn. auto.
      + pose proof (control_keeps (run c es) m f lin ang dt) as K. cbv zeta in K.
        destruct (control c (run c es) m f lin ang dt) as [s1 o]. cbn in *. destruct K as (K1 & K2 & K3).
        rewrite K1, K2. auto.
    - pose proof (control_keeps (run c es) m f 0 0 dt) as K. cbv zeta in K. destruct K as (K1 & K2 & K3).
      rewrite K1, K2, K3. auto.
    - cbn. auto.
    - cbn. auto.
  Qed.

  Lemma controls_published es e m f lin ang dt : controls es e m f lin ang dt ->
    published c es e = snd (control c (run c es) m f lin ang dt).
  Proof.
    destruct (run_facts es) as (A & _). unfold published.
    intros [(t & -> & H)|(-> & -> & ->)]; cbn [step]; auto.
    rewrite A. apply Z.eqb_neq in H. rewrite H.
    destruct (control c (run c es) m f lin ang dt); reflexivity.
  Qed.

  Lemma control_no_path s m f lin ang dt :
    (forall k, r_status (tracking_result c (n_frame s) (length (n_path s)) k lin ang (m k)) = NO_PATH) ->
    snd (control c s m f lin ang dt) = stop_msg NO_PATH.
  Proof. intros H. unfold control. cbv zeta. rewrite H. reflexivity. Qed.

  Theorem C38_no_usable_path es e m f lin ang dt : controls es e m f lin ang dt ->
    (forall p, ~ usable es p) -> published c es e = stop_msg NO_PATH.
  Proof.
    intros Hc Hu. rewrite (controls_published _ _ _ _ _ _ _ Hc). apply control_no_path. intros k.
    destruct (run_facts es) as (_ & A & B). unfold tracking_result. rewrite A, B.
    destruct (last_path es) as [[[] p]|] eqn:E; [|reflexivity|reflexivity].
    destruct (existsb bad_vel p) eqn:Eb; [reflexivity|]. destruct p as [|x p]; [reflexivity|].
    exfalso. apply (Hu (x :: p)). split; [exact E|]. split; [discriminate|].
    apply Forall_forall. intros y Hy. apply bad_vel_false.
    destruct (bad_vel y) eqn:By; auto.
    assert (existsb bad_vel (x :: p) = true) by (apply existsb_exists; eauto). congruence.
  Qed.

  Theorem C38_not_localised es e m f lin ang dt : controls es e m f lin ang dt ->
    (forall k, m k = None \/ exists z, m k = Some z /\ z_nearest z = None) ->
    published c es e = stop_msg NO_PATH.
  Proof.
    intros Hc Hm. rewrite (controls_published _ _ _ _ _ _ _ Hc). apply control_no_path. intros k.
    unfold tracking_result. destruct (negb _ || _)%bool; [reflexivity|].
    destruct (Hm k) as [->|(z & -> & ->)]; reflexivity.
  Qed.

  Theorem C38_far_from_path es e m f lin ang dt p : controls es e m f lin ang dt -> usable es p ->
    (forall k, exists z i, m k = Some z /\ z_nearest z = Some i /\
       ~ near_goal c z /\ z_large_angle z = false /\ t_d_stop c < distance_from_path (length p) z i) ->
    published c es e = stop_msg FAR_FROM_PATH.
  Proof.
    intros Hc (U1 & U2 & U3) Hm. rewrite (controls_published _ _ _ _ _ _ _ Hc).
    destruct (run_facts es) as (_ & A & B). rewrite U1 in A, B.
    assert (E : existsb bad_vel p = false).
    { destruct (existsb bad_vel p) eqn:E; auto. apply existsb_exists in E. destruct E as (y & Hy & By).
      rewrite Forall_forall in U3. specialize (U3 y Hy). apply bad_vel_false in U3. congruence. }
    rewrite E in B.
    assert (G : forall k, r_status (tracking_result c (n_frame (run c es)) (length (n_path (run c es))) k lin ang (m k)) = FAR_FROM_PATH).
    { intros k. rewrite A, B. unfold tracking_result. destruct p as [|x p]; [congruence|].
      cbn [negb length Nat.eqb orb]. destruct (Hm k) as (z & i & -> & -> & Hn & Hl & Hd).
      cbv zeta. rewrite Hl.
      assert (N : (Rlt_bool (z_path_length z) (t_min_track c) || absless (z_remain_local z) (t_stop_dist c) || z_in_place z)%bool = false).
      { unfold near_goal in Hn. rewrite !orb_false_iff. repeat split.
        - apply Rlt_bool_false. apply Rnot_lt_le. intros H. apply Hn. auto.
        - apply Bool.not_true_iff_false. rewrite absless_iff. auto.
        - destruct (z_in_place z); auto. exfalso. apply Hn. auto. }
      rewrite N. cbn [orb negb andb].
      assert (D : Rlt_bool (t_d_stop c) (Rabs (if Nat.eqb i 0 then - z_nearest_norm z else
         if Nat.leb (length (x :: p)) (i + 1) then - z_nearest_norm z else z_dist_err z)) = true).
      { apply Rlt_bool_true. unfold distance_from_path in Hd.
        destruct (Nat.eqb i 0); [rewrite Rabs_Ropp; exact Hd|]. cbn [orb] in Hd.
        destruct (Nat.leb (length (x :: p)) (i + 1)); [rewrite Rabs_Ropp|]; exact Hd. }
      cbn [length] in D. rewrite D. reflexivity. }
    unfold control. cbv zeta. rewrite G. reflexivity.
  Qed.

  Theorem C38_odometry_timeout es : published c es EOdomTimeout = stop_msg NO_PATH.
  Proof. reflexivity. Qed.

  Lemma control_output s m f lin ang dt : exists v w st, snd (control c s m f lin ang dt) = [OCmd v w; OStatus st] /\
    (st = NO_PATH \/ st = FAR_FROM_PATH -> v = s0 /\ w = s0).
  Proof.
    unfold control. cbv zeta. set (r := tracking_result _ _ _ _ _ _ _).
    destruct (r_status r) eqn:E;
      try (exists s0, s0; eexists; split; [reflexivity|auto]; fail);
    (match goal with |- context [let '(v, w) := ?X in _] => destruct X as [v w] end;
     match goal with |- context [let '(v, w) := ?X in _] => destruct X as [v' w'] end;
     cbn; do 3 eexists; split; [reflexivity|intros [?|?]; discriminate]).
  Qed.

  (** Whenever a stop status is reported, apart from a lost transform in timer
      mode, a zero command is published with it. *)
  Theorem C38_stop_status_comes_with_zero_command es e st :
    In (OStatus st) (published c es e) -> st = NO_PATH \/ st = FAR_FROM_PATH ->
    (forall f dt, e <> ETimer None f dt) ->
    published c es e = stop_msg st.
  Proof.
    intros H Hs He. unfold published in *. destruct e as [fr p|t m f lin ang dt|[m|] f dt|]; cbn [step] in *.
    - destruct H.
    - destruct (n_odom (run c es) =? 0)%Z; [destruct H|].
      destruct (control_output (run c es) m f lin ang dt) as (v & w & st' & E & Hz).
      destruct (control c (run c es) m f lin ang dt) as [s1 o]. cbn in *. subst o.
      destruct H as [H|[H|[]]]; [discriminate|]. injection H as ->. destruct (Hz Hs) as [-> ->]. reflexivity.
    - destruct (control_output (run c es) m f 0 0 dt) as (v & w & st' & E & Hz). rewrite E in *.
      destruct H as [H|[H|[]]]; [discriminate|]. injection H as ->. destruct (Hz Hs) as [-> ->]. reflexivity.
    - exfalso. eapply He; eauto.
    - destruct H as [H|[H|[]]]; [discriminate|]. injection H as <-. reflexivity.
  Qed.

  (** Each control cycle publishes exactly one command and one status. *)
  Theorem C38_every_cycle_publishes_a_command es e m f lin ang dt : controls es e m f lin ang dt ->
    exists v w st, published c es e = [OCmd v w; OStatus st].
  Proof.
    intros Hc. rewrite (controls_published _ _ _ _ _ _ _ Hc).
    destruct (control_output (run c es) m f lin ang dt) as (v & w & st & E & _). eauto.
  Qed.

  Lemma lim_finite p v vel acc dt : is_finite (lim_set p v vel acc dt) = true.
  Proof.
    unfold lim_set. match goal with |- is_finite (if is_finite ?x then _ else _) = true => destruct (is_finite x) eqn:E end;
      [exact E|reflexivity].
  Qed.

  (** What a control cycle that does not stop the robot publishes. *)
  Lemma control_command s m f lin ang dt v w : In (OCmd v w) (snd (control c s m f lin ang dt)) ->
    let s' := fst (control c s m f lin ang dt) in n_v s' = v /\ n_w s' = w /\
    ((v = s0 /\ w = s0) \/
     ((exists vt, v = lim_set (n_v s) vt (f_lin_vel f) (t_acc_v c) dt /\ (vt = s0 \/ vt = f_v f)) \/
      (t_limit_by_avel c = true /\ let v1 := lim_set (n_v s) (f_v f) (f_lin_vel f) (t_acc_v c) dt in
         v = lim_set v1 (f_v2 f v1) (f_lin_vel f) (t_acc_v c) dt)) /\
     (w = lim_set (n_w s) (f_w_toc f (n_w s)) (t_vel_w c) (t_acc_w c) dt \/
      exists v1, w = lim_increment (n_w s) (f_w f v1 (n_w s)) (t_vel_w c) (t_acc_w c) dt)).
  Proof.
    intros H. cbv zeta. unfold control in *. cbv zeta in *. set (r := tracking_result _ _ _ _ _ _ _) in *.
    destruct (r_status r);
      try (cbn in *; destruct H as [H|[H|[]]]; [injection H as <- <-; auto|discriminate]; fail);
    (destruct (r_turning r); [destruct (t_use_toc c)|destruct (t_limit_by_avel c); [cbn [andb] in H|-*;
        match type of H with context [f_over f ?a] => destruct (f_over f a) end|cbn [andb] in H|-*]];
     match type of H with context [if ?b then _ else _] => destruct b end;
     cbn in *; (destruct H as [H|[H|[]]]; [injection H as <- <-|discriminate]);
     split; auto; split; auto; right; split; eauto 6).
  Qed.

  Theorem C38_commands_are_finite es e v w : In (OCmd v w) (published c es e) ->
    is_finite v = true /\ is_finite w = true.
  Proof.
    unfold published. intros H.
    assert (G : forall s m f lin ang dt, In (OCmd v w) (snd (control c s m f lin ang dt)) -> is_finite v = true /\ is_finite w = true).
    { intros s m f lin ang dt Hi. destruct (control_command _ _ _ _ _ _ _ _ Hi) as (_ & _ & [[-> ->]|[[(vt & -> & _)|[_ ->]] [->|[v1 ->]]]]);
      split; auto using lim_finite; apply lim_finite. }
    destruct e as [fr p|t m f lin ang dt|[m|] f dt|]; cbn [step] in *.
    - destruct H.
    - destruct (n_odom (run c es) =? 0)%Z; [destruct H|]. specialize (G (run c es) m f lin ang dt).
      destruct (control c (run c es) m f lin ang dt). auto.
    - eauto.
    - destruct H as [H|[]]; discriminate.
    - destruct H as [H|[H|[]]]; [injection H as <- <-; auto|discriminate].
  Qed.

  (** * C56 *)
  Lemma tracking_goal frame size k lin ang sen :
    r_status (tracking_result c frame size k lin ang sen) = GOAL ->
    frame = true /\ size <> 0%nat /\ exists z i, sen = Some z /\ z_nearest z = Some i /\
      z_local_goal z = z_size z /\
      (Rabs (z_dist_remains z) < t_goal_dist c \/ z_path_length z < t_stop_dist c \/ z_in_place z = true) /\
      (Rabs (z_dist_remains_raw z) < t_goal_dist c \/ z_path_length z < t_stop_dist c \/ z_in_place z = true) /\
      (near_goal c z -> Rabs (z_goal_angle z) < t_goal_ang c) /\
      (~ near_goal c z -> Rabs (z_angle z) < t_goal_ang c) /\
      (t_goal_lin c = 0 \/ Rabs lin < t_goal_lin c) /\ (t_goal_angv c = 0 \/ Rabs ang < t_goal_angv c) /\
      (~ near_goal c z -> z_large_angle z = false -> distance_from_path size z i <= t_d_stop c).
  Proof.
    unfold tracking_result. destruct frame; [|discriminate].
    destruct size as [|size]; [discriminate|]. cbn [negb Nat.eqb orb].
    destruct sen as [z|]; [|discriminate]. destruct (z_nearest z) as [i|] eqn:Ei; [|discriminate]. cbv zeta.
    set (ng := (Rlt_bool (z_path_length z) (t_min_track c) || absless (z_remain_local z) (t_stop_dist c) || z_in_place z)%bool).
    assert (N : ng = true <-> near_goal c z).
    { unfold ng, near_goal. rewrite !orb_true_iff, absless_iff.
      assert (Rlt_bool (z_path_length z) (t_min_track c) = true <-> z_path_length z < t_min_track c).
      { case Rlt_bool_spec; intros; split; intros; auto; try discriminate; lra. } tauto. }
    clearbody ng.
    assert (V : forall t x, vel_ok t x = true -> t = 0 \/ Rabs x < t).
    { intros t x. unfold vel_ok. rewrite orb_true_iff, absless_iff. intros [H|H]; auto. left.
      destruct (Req_bool_spec t 0); [auto|discriminate]. }
    assert (L : forall a b, Rlt_bool a b = true -> a < b).
    { intros a b. case Rlt_bool_spec; intros; auto; discriminate. }
    match goal with |- context [if (negb (z_large_angle z || ng) && ?X)%bool then _ else _] => set (fr := X) end.
    destruct (negb (z_large_angle z || ng) && fr)%bool eqn:EF; [discriminate|].
    cbn [r_status]. match goal with |- (if ?b then _ else _) = GOAL -> _ => destruct b eqn:E end; [|discriminate].
    intros _. rewrite !andb_true_iff in E. destruct E as ((((((E1 & E2) & E3) & E4) & E5) & E6) & E7).
    apply absless_iff in E1, E2, E3. apply Nat.eqb_eq in E7.
    split; [auto|]. split; [discriminate|]. exists z, i. repeat (split; [first [reflexivity|assumption]|]).
    assert (Zd : forall x, Rabs (if ((z_large_angle z || ng) && (Rlt_bool (z_path_length z) (t_stop_dist c) || z_in_place z))%bool then 0 else x) < t_goal_dist c ->
       Rabs x < t_goal_dist c \/ z_path_length z < t_stop_dist c \/ z_in_place z = true).
    { intros x Hx. destruct (Rlt_bool (z_path_length z) (t_stop_dist c)) eqn:A; [right; left; auto|].
      destruct (z_in_place z); auto. rewrite andb_false_r in Hx. auto. }
    split; [auto|]. split; [auto|]. split; [|split; [|split; [auto|split; [auto|]]]].
    - intros H. apply N in H. rewrite H, orb_true_r in E2. exact E2.
    - intros H. destruct ng; [exfalso; apply H, N; auto|]. rewrite andb_false_r in E2. exact E2.
    - intros H Hl. destruct ng; [exfalso; apply H, N; auto|]. rewrite Hl in EF. cbn in EF. unfold fr in EF.
      destruct (Rle_or_lt (distance_from_path (S size) z i) (t_d_stop c)) as [?|Hd]; auto. exfalso.
      rewrite Rlt_bool_true in EF; [discriminate|]. unfold distance_from_path in Hd. cbn [length] in *.
      destruct (Nat.eqb i 0); [rewrite Rabs_Ropp; exact Hd|]. cbn [orb] in Hd.
      change (S size <=? i + 1)%nat with (Nat.leb (S size) (i+1)) in *.
      destruct (Nat.leb (S size) (i + 1)) eqn:E8; cbn in E8; rewrite ?E8; [rewrite Rabs_Ropp|]; exact Hd.
  Qed.

  Theorem C56_goal_is_reported_only_at_the_goal es e : In (OStatus GOAL) (published c es e) ->
    exists m f lin ang dt p k z i, controls es e m f lin ang dt /\ usable es p /\
      m k = Some z /\ z_nearest z = Some i /\ z_local_goal z = z_size z /\
      (Rabs (z_dist_remains z) < t_goal_dist c \/ z_path_length z < t_stop_dist c \/ z_in_place z = true) /\
      (Rabs (z_dist_remains_raw z) < t_goal_dist c \/ z_path_length z < t_stop_dist c \/ z_in_place z = true) /\
      (near_goal c z -> Rabs (z_goal_angle z) < t_goal_ang c) /\
      (~ near_goal c z -> Rabs (z_angle z) < t_goal_ang c) /\
      (t_goal_lin c = 0 \/ Rabs lin < t_goal_lin c) /\ (t_goal_angv c = 0 \/ Rabs ang < t_goal_angv c) /\
      (~ near_goal c z -> z_large_angle z = false -> distance_from_path (length p) z i <= t_d_stop c).
  Proof.
    intros H.
    assert (C : exists m f lin ang dt, controls es e m f lin ang dt).
    { destruct (run_facts es) as (A & _). unfold published in H. destruct e as [fr p|t m f lin ang dt|[m|] f dt|]; cbn [step] in H.
      - destruct H.
      - rewrite A in H. destruct (last_stamp es =? 0)%Z eqn:E; [destruct H|]. apply Z.eqb_neq in E.
        do 5 eexists. left. eauto.
      - do 5 eexists. right. eauto.
      - destruct H as [H|[]]; discriminate.
      - destruct H as [H|[H|[]]]; discriminate. }
    destruct C as (m & f & lin & ang & dt & C). exists m, f, lin, ang, dt.
    rewrite (controls_published _ _ _ _ _ _ _ C) in H.
    assert (G : exists k, r_status (tracking_result c (n_frame (run c es)) (length (n_path (run c es))) k lin ang (m k)) = GOAL).
    { unfold control in H. cbv zeta in H. set (d := if n_updated _ then _ else _) in H. exists d.
      destruct (r_status (tracking_result _ _ _ d _ _ _)) eqn:E; auto; cbn in H;
      repeat match type of H with context [let '(v, w) := ?X in _] => destruct X end;
      destruct H as [H|[H|[]]]; try discriminate. }
    destruct G as [k G]. apply tracking_goal in G. destruct G as (F & S & z & i & G).
    destruct (run_facts es) as (_ & A & B). rewrite F in A. destruct (last_path es) as [[fr p]|] eqn:E; [|discriminate]. subst fr.
    destruct (existsb bad_vel p) eqn:Eb; [rewrite B in S; cbn in S; congruence|]. rewrite B in *.
    exists p, k, z, i. split; [exact C|]. split; [|exact G].
    split; [exact E|]. split; [destruct p; [cbn in S; congruence|discriminate]|].
    apply Forall_forall. intros y Hy. apply bad_vel_false.
    destruct (bad_vel y) eqn:By; auto.
    assert (existsb bad_vel p = true) by (apply existsb_exists; eauto). congruence.
  Qed.

  (** * C57 *)
  Lemma last_cmd_run es : fold_left (fun a e => let '(s, o) := step c (fst a) e in
         (s, fold_left (fun a x => match x with OCmd v w => (v, w) | _ => a end) o (snd a)))
       es (ninit, (s0, s0)) = (run c es, (n_v (run c es), n_w (run c es))).
  Proof.
    induction es as [|e es IH] using rev_ind; [reflexivity|].
    rewrite fold_snoc, IH, run_snoc. cbn [fst snd].
    assert (G : forall m f lin ang dt, let '(s, o) := control c (run c es) m f lin ang dt in
      fold_left (fun a x => match x with OCmd v w => (v, w) | _ => a end) o (n_v (run c es), n_w (run c es)) = (n_v s, n_w s)).
    { intros. destruct (control_output (run c es) m f lin ang dt) as (v & w & st & E & _).
      pose proof (control_command (run c es) m f lin ang dt v w) as K. rewrite E in K.
      specialize (K (or_introl eq_refl)). cbv zeta in K. destruct K as (K1 & K2 & _).
      destruct (control c (run c es) m f lin ang dt) as [s o]. cbn in *. subst. reflexivity. }
    destruct e as [fr p|t m f lin ang dt|[m|] f dt|]; cbn [step]; try reflexivity.
    - destruct (n_odom (run c es) =? 0)%Z; [reflexivity|]. specialize (G m f lin ang dt).
      destruct (control c (run c es) m f lin ang dt) as [s o]. cbn. rewrite G. reflexivity.
    - specialize (G m f 0 0 dt). destruct (control c (run c es) m f 0 0 dt) as [s o]. cbn. rewrite G. reflexivity.
  Qed.

  Lemma last_cmd_state es : last_cmd c es = (n_v (run c es), n_w (run c es)).
  Proof. unfold last_cmd. rewrite last_cmd_run. reflexivity. Qed.

  Lemma run_finite es : is_finite (n_v (run c es)) = true /\ is_finite (n_w (run c es)) = true.
  Proof.
    induction es as [|e es IH] using rev_ind; [split; reflexivity|]. rewrite run_snoc.
    assert (G : forall m f lin ang dt, is_finite (n_v (fst (control c (run c es) m f lin ang dt))) = true /\
       is_finite (n_w (fst (control c (run c es) m f lin ang dt))) = true).
    { intros. destruct (control_output (run c es) m f lin ang dt) as (v & w & st & E & _).
      pose proof (control_command (run c es) m f lin ang dt v w) as K. rewrite E in K.
      specialize (K (or_introl eq_refl)). cbv zeta in K. destruct K as (-> & -> & K).
      destruct K as [[-> ->]|[[(vt & -> & _)|[_ ->]] [->|[v1 ->]]]]; split; auto using lim_finite; apply lim_finite. }
    destruct e as [fr p|t m f lin ang dt|[m|] f dt|]; cbn [step]; auto.
    destruct (n_odom (run c es) =? 0)%Z; [auto|]. specialize (G m f lin ang dt).
    destruct (control c (run c es) m f lin ang dt); auto.
  Qed.

  Lemma lim_within p v vel acc dt : is_finite p = true -> is_nan v = false -> is_finite vel = true -> nonneg32 vel ->
    nonneg32 (smul dt acc) -> within p (smul dt acc) (lim_set p v vel acc dt).
  Proof.
    intros Fp Nv Fvel Hvel Ha. destruct (lim_set_key p v vel acc dt Fp Nv Fvel Hvel Ha) as (F & B & _).
    destruct (sadd_key p _ Fp Ha) as [Nh _]. destruct (ssub_key p _ Fp Ha) as [Nl _].
    split; apply leb_true; split; auto using finite_nan; split; auto using finite_nan; apply B.
  Qed.

  (** Successive commands: for references that are numbers, a non-negative finite
      target velocity and a non-negative acceleration times time step, a command
      is either a stop or within the acceleration limits of the previous one;
      for the linear velocity within two limit steps if the limitation by
      angular velocity is on. *)
  Theorem C57_acceleration_is_limited es e m f lin ang dt v w :
    controls es e m f lin ang dt -> In (OCmd v w) (published c es e) ->
    is_finite (f_lin_vel f) = true -> nonneg32 (f_lin_vel f) -> is_finite (t_vel_w c) = true -> nonneg32 (t_vel_w c) ->
    nonneg32 (smul dt (t_acc_v c)) -> nonneg32 (smul dt (t_acc_w c)) ->
    is_nan (f_v f) = false -> (forall x, is_nan (f_v2 f x) = false) -> (forall x, is_nan (f_w_toc f x) = false) ->
    (forall x, is_nan (sadd (snd (last_cmd c es)) (f_w f x (snd (last_cmd c es)))) = false) ->
    (v = s0 /\ w = s0) \/
    within (snd (last_cmd c es)) (smul dt (t_acc_w c)) w /\
    (within (fst (last_cmd c es)) (smul dt (t_acc_v c)) v \/
     t_limit_by_avel c = true /\ exists mid, within (fst (last_cmd c es)) (smul dt (t_acc_v c)) mid /\
       within mid (smul dt (t_acc_v c)) v).
  Proof.
    intros Hc Hi Fl Hl Fw Hw Ha1 Ha2 N1 N2 N3 N4. rewrite last_cmd_state in *. cbn [fst snd] in *.
    rewrite (controls_published _ _ _ _ _ _ _ Hc) in Hi. destruct (run_finite es) as [F1 F2].
    destruct (control_command _ _ _ _ _ _ _ _ Hi) as (_ & _ & [K|[K1 K2]]); [auto|]. right. split.
    - destruct K2 as [->|[v1 ->]]; apply lim_within; auto. 
    - destruct K1 as [(vt & -> & [-> | ->])|[K ->]].
      + left. apply lim_within; auto.
      + left. apply lim_within; auto.
      + right. split; [exact K|]. eexists. split; [apply (lim_within _ (f_v f) (f_lin_vel f) (t_acc_v c) dt); auto|].
        apply lim_within; auto using lim_finite.
  Qed.
  (** * More on C56 and C57: progress along the path and the exact commands *)

  Lemma lim_toward_zero p vel acc dt : is_finite p = true -> is_finite vel = true -> nonneg32 vel ->
    nonneg32 (smul dt acc) -> Rabs (B2R (lim_set p s0 vel acc dt)) <= Rabs (B2R p).
  Proof.
    intros Fp Fv Hv Ha. destruct (lim_set_key p s0 vel acc dt Fp eq_refl Fv Hv Ha) as (F & B & C1 & C2 & C3).
    cbv zeta in *. destruct (sadd_key p _ Fp Ha) as [_ Hh]. destruct (ssub_key p _ Fp Ha) as [_ Hl].
    assert (Ec : clip s0 vel = s0).
    { apply nonneg32_key in Hv. destruct Hv as [_ Hv].
      destruct (clip_key s0 vel eq_refl Fv Hv) as (_ & _ & D). apply D. change (key s0) with 0. lra. }
    rewrite Ec in *. change (key s0) with 0 in *.
    set (o := lim_set p s0 vel acc dt) in *. rewrite (finite_key _ _ o F) in B. rewrite (finite_key _ _ p Fp) in Hh, Hl.
    set (lo := key (ssub p (smul dt acc))) in *. set (hi := key (sadd p (smul dt acc))) in *.
    destruct (Rlt_or_le hi 0) as [L|L].
    - specialize (C2 L). assert (E : B2R o = hi) by (unfold hi; rewrite <- (finite_key _ _ o F), C2; reflexivity).
      rewrite !Rabs_left1; lra.
    - destruct (Rlt_or_le 0 lo) as [L2|L2].
      + specialize (C3 L2). assert (E : B2R o = lo) by (unfold lo; rewrite <- (finite_key _ _ o F), C3; reflexivity).
        rewrite !Rabs_pos_eq; lra.
      + rewrite C1 by lra. change (B2R s0) with 0. rewrite Rabs_R0. apply Rabs_pos.
  Qed.

  Lemma usable_run es p : usable es p ->
    n_frame (run c es) = true /\ n_path (run c es) = p /\ Nat.eqb (length p) 0 = false.
  Proof.
    intros (U1 & U2 & U3). destruct (run_facts es) as (_ & A & B). rewrite U1 in A, B.
    assert (E : existsb bad_vel p = false).
    { destruct (existsb bad_vel p) eqn:E; auto. apply existsb_exists in E. destruct E as (y & Hy & By).
      rewrite Forall_forall in U3. specialize (U3 y Hy). apply bad_vel_false in U3. congruence. }
    rewrite E in B. split; [exact A|]. split; [exact B|]. destruct p; [congruence|reflexivity].
  Qed.

  Lemma near_goal_bool z :
    (Rlt_bool (z_path_length z) (t_min_track c) || absless (z_remain_local z) (t_stop_dist c) || z_in_place z)%bool = true
    <-> near_goal c z.
  Proof.
    unfold near_goal. rewrite !orb_true_iff, absless_iff.
    assert (Rlt_bool (z_path_length z) (t_min_track c) = true <-> z_path_length z < t_min_track c).
    { case Rlt_bool_spec; intros; split; intros; auto; try discriminate; lra. } tauto.
  Qed.

  (** While turning (large angle or near the local goal) the tracking result asks
      for turning and leaves a reached local goal behind. *)
  Lemma tracking_turning size k lin ang z i : Nat.eqb size 0 = false -> z_nearest z = Some i ->
    near_goal c z \/ z_large_angle z = true ->
    let r := tracking_result c true size k lin ang (Some z) in
    r_turning r = true /\ (r_status r = GOAL \/ r_status r = FOLLOWING) /\
    (near_goal c z -> z_local_goal z <> z_size z -> r_step_done r = z_local_goal z).
  Proof.
    intros Hs Hi Ht r. unfold r, tracking_result. rewrite Hs, Hi. cbn [negb orb].
    assert (T : (z_large_angle z || (Rlt_bool (z_path_length z) (t_min_track c) || absless (z_remain_local z) (t_stop_dist c) || z_in_place z))%bool = true).
    { apply orb_true_iff. rewrite near_goal_bool. tauto. }
    cbv zeta. rewrite T. cbn [negb andb r_turning r_status r_step_done].
    split; [reflexivity|]. split; [match goal with |- context [if ?b then GOAL else _] => destruct b end; auto|].
    intros N E. apply near_goal_bool in N. rewrite N. apply Nat.eqb_neq in E. rewrite E. reflexivity.
  Qed.

  (** Turning in place only slows the robot down: no forward motion is added. *)
  Theorem C57_turning_only_slows_down es e m f lin ang dt p v w :
    controls es e m f lin ang dt -> usable es p -> In (OCmd v w) (published c es e) ->
    (forall k, exists z i, m k = Some z /\ z_nearest z = Some i /\ (near_goal c z \/ z_large_angle z = true)) ->
    is_finite (f_lin_vel f) = true -> nonneg32 (f_lin_vel f) -> nonneg32 (smul dt (t_acc_v c)) ->
    Rabs (B2R v) <= Rabs (B2R (fst (last_cmd c es))).
  Proof.
    intros Hc Hu Hi Hm Fl Hl Ha. rewrite last_cmd_state. cbn [fst].
    rewrite (controls_published _ _ _ _ _ _ _ Hc) in Hi. destruct (run_finite es) as [F1 F2].
    destruct (usable_run es p Hu) as (A & B & D).
    unfold control in Hi. cbv zeta in Hi. rewrite A, B in Hi.
    set (d := if n_updated _ then _ else _) in Hi. destruct (Hm d) as (z & i & Ez & Ei & Ht). rewrite Ez in Hi.
    destruct (tracking_turning (length p) d lin ang z i D Ei Ht) as (T1 & T2 & _).
    set (r := tracking_result _ _ _ _ _ _ _) in *. rewrite T1 in Hi.
    pose proof (lim_toward_zero _ _ _ _ F1 Fl Hl Ha) as LZ.
    assert (G : v = s0 \/ v = lim_set (n_v (run c es)) s0 (f_lin_vel f) (t_acc_v c) dt).
    { destruct T2 as [T2|T2]; rewrite T2 in Hi; 
      (match type of Hi with context [if ?b then (s0, s0) else _] => destruct b end; cbn [In snd] in Hi; 
       (destruct Hi as [Hi|[Hi|[]]]; [injection Hi as <- _; auto|discriminate Hi])). }
    destruct G as [->| ->]; [change (B2R s0) with 0; rewrite Rabs_R0; apply Rabs_pos|exact LZ].
  Qed.

  (** A new path is followed from its beginning: the progress on the previous path
      is forgotten (if the robot cannot be located from the beginning of the new
      path, it is stopped, whatever later parts of the path would give). *)
  Theorem C56_new_path_starts_at_its_beginning es fr p e m f lin ang dt :
    controls (es ++ [EPath fr p]) e m f lin ang dt ->
    (m 0%nat = None \/ exists z, m 0%nat = Some z /\ z_nearest z = None) ->
    published c (es ++ [EPath fr p]) e = stop_msg NO_PATH.
  Proof.
    intros Hc Hm. rewrite (controls_published _ _ _ _ _ _ _ Hc), run_snoc. cbn [step fst].
    unfold control. cbn [n_frame n_path n_updated n_done n_odom n_v n_w]. cbv zeta.
    assert (G : forall sz, tracking_result c fr sz 0 lin ang (m 0%nat) = no_path_result).
    { intros sz. unfold tracking_result. destruct (negb _ || _)%bool; [reflexivity|].
      destruct Hm as [->|(z & -> & ->)]; reflexivity. }
    rewrite G. cbn [r_step_done no_path_result]. rewrite G. reflexivity.
  Qed.

  (** The same event with the measurements taken from path step [k] on. *)
  Definition measured_from (k : nat) (e : ev) : ev :=
    match e with
    | EOdom t m f lin ang dt => EOdom t (fun _ => m k) f lin ang dt
    | ETimer (Some m) f dt => ETimer (Some (fun _ => m k)) f dt
    | e => e
    end.

  (** A local goal that has been reached is left behind: the next cycle measures
      from the following path step on. *)
  Theorem C56_reached_local_goal_is_left_behind es e m f lin ang dt p z i e' :
    controls es e m f lin ang dt -> usable es p ->
    (forall k, m k = Some z) -> z_nearest z = Some i -> near_goal c z -> z_local_goal z <> z_size z ->
    (forall f' p', e' <> EPath f' p') ->
    published c (es ++ [e]) e' = published c (es ++ [e]) (measured_from (z_local_goal z) e').
  Proof.
    intros Hc Hu Hm Hi Hn Hl He'. destruct (usable_run es p Hu) as (A & B & D).
    assert (G : n_done (fst (control c (run c es) m f lin ang dt)) = z_local_goal z /\
                n_updated (fst (control c (run c es) m f lin ang dt)) = false).
    { unfold control. cbv zeta. rewrite A, B. set (d := if n_updated _ then _ else _). rewrite Hm.
      destruct (tracking_turning (length p) d lin ang z i D Hi (or_introl Hn)) as (T1 & T2 & T3).
      specialize (T3 Hn Hl). set (r := tracking_result _ _ _ _ _ _ _) in *. rewrite T1.
      destruct T2 as [T2|T2]; rewrite T2;
      (match goal with |- context [if ?b then (s0, s0) else _] => destruct b end; cbn [fst n_done n_updated]; auto). }
    unfold published. rewrite run_snoc.
    assert (S : n_done (fst (step c (run c es) e)) = z_local_goal z /\ n_updated (fst (step c (run c es) e)) = false).
    { destruct (run_facts es) as (O & _). destruct Hc as [(t & -> & H)|(-> & -> & ->)]; cbn [step]; auto.
      rewrite O. apply Z.eqb_neq in H. rewrite H. destruct (control c (run c es) m f lin ang dt); auto. }
    set (s := fst (step c (run c es) e)) in *. destruct S as [S1 S2].
    assert (K : forall m' f' lin' ang' dt', control c s m' f' lin' ang' dt' = control c s (fun _ => m' (z_local_goal z)) f' lin' ang' dt').
    { intros. unfold control. cbv zeta. rewrite S1, S2. reflexivity. }
    destruct e' as [fr q|t m' f' lin' ang' dt'|[m'|] f' dt'|]; cbn [measured_from step].
    - exfalso. eapply He'; eauto.
    - rewrite K. reflexivity.
    - rewrite K. reflexivity.
    - reflexivity.
    - reflexivity.
  Qed.

  (** The command while following the path: zero within the stop tolerances of
      distance and heading (with and without prediction), otherwise the limited
      reference. *)
  Theorem C57_following_command es e m f lin ang dt p z i :
    controls es e m f lin ang dt -> usable es p ->
    (forall k, m k = Some z) -> z_nearest z = Some i -> ~ near_goal c z -> z_large_angle z = false ->
    distance_from_path (length p) z i <= t_d_stop c -> t_limit_by_avel c = false ->
    let within_tolerance := Rabs (z_dist_remains z) < t_stop_dist c /\ Rabs (z_angle z) < t_stop_ang c /\
                            Rabs (z_dist_remains_raw z) < t_stop_dist c /\ Rabs (z_angle z + z_yaw_raw z) < t_stop_ang c in
    let v := lim_set (fst (last_cmd c es)) (f_v f) (f_lin_vel f) (t_acc_v c) dt in
    let w := lim_increment (snd (last_cmd c es)) (f_w f v (snd (last_cmd c es))) (t_vel_w c) (t_acc_w c) dt in
    exists st, (st = GOAL \/ st = FOLLOWING) /\
      (within_tolerance -> published c es e = [OCmd s0 s0; OStatus st]) /\
      (~ within_tolerance -> published c es e = [OCmd v w; OStatus st]).
  Proof.
    intros Hc Hu Hm Hi Hn Hl Hd Ha wt. rewrite last_cmd_state. intros v w. cbn [fst snd] in v, w.
    rewrite (controls_published _ _ _ _ _ _ _ Hc). destruct (usable_run es p Hu) as (A & B & D).
    unfold control. cbv zeta. rewrite A, B. set (d := if n_updated _ then _ else _). rewrite Hm, Ha.
    assert (N : (Rlt_bool (z_path_length z) (t_min_track c) || absless (z_remain_local z) (t_stop_dist c) || z_in_place z)%bool = false).
    { apply Bool.not_true_iff_false. rewrite near_goal_bool. exact Hn. }
    assert (R : exists st, (st = GOAL \/ st = FOLLOWING) /\ 
       tracking_result c true (length p) d lin ang (Some z) =
       Tresult st (z_dist_remains z) (z_angle z) (z_dist_remains_raw z) (z_angle z + z_yaw_raw z) false (Nat.max d (i - 1))).
    { unfold tracking_result. rewrite D, Hi, Hl. cbv zeta. rewrite N. cbn [negb orb andb].
      assert (X : Rlt_bool (t_d_stop c) (Rabs (if Nat.eqb i 0 then - z_nearest_norm z else
         if Nat.leb (length p) (i + 1) then - z_nearest_norm z else z_dist_err z)) = false).
      { apply Rlt_bool_false. unfold distance_from_path in Hd.
        destruct (Nat.eqb i 0); [rewrite Rabs_Ropp; exact Hd|]. cbn [orb] in Hd.
        destruct (Nat.leb (length p) (i + 1)); [rewrite Rabs_Ropp|]; exact Hd. }
      rewrite X. eexists. split; [|reflexivity]. match goal with |- context [if ?b then GOAL else _] => destruct b end; auto. }
    destruct R as (st & Hst & ->). exists st. split; [exact Hst|]. cbn [r_status r_turning r_dist r_angle r_dist_raw r_angle_raw andb].
    set (b := (absless _ _ && _ && _ && _)%bool).
    assert (Eb : b = true <-> wt).
    { unfold b, wt. rewrite !andb_true_iff, !absless_iff. tauto. }
    split; intros H.
    - apply Eb in H. rewrite H. destruct Hst as [-> | ->]; reflexivity.
    - assert (E : b = false) by (apply Bool.not_true_iff_false; rewrite Eb; exact H). rewrite E.
      destruct Hst as [-> | ->]; reflexivity.
  Qed.
End Proofs.

(** * Non-trivial cases *)

Definition ex_cfg (limit : bool) : tcfg :=
  Tcfg (1/10) (1/10) 1 (1/2) (1/5) (1/5) 0 0 limit true true (fl 1 0) (fl 1 0) (fl 1 0).
(** Following the middle of a three point path / 1 m beside it / at its end. *)
Definition on_path : sensed := Sensed 3 (Some 1%nat) 3 5 4 4 4 0 0 0 0 0 false false.
Definition beside_path : sensed := Sensed 3 (Some 1%nat) 3 5 4 4 4 1 1 0 0 0 false false.
Definition at_end : sensed := Sensed 3 (Some 2%nat) 3 5 0 0 0 0 0 0 0 0 false false.
Definition turning (z : sensed) : sensed := Sensed (z_size z) (z_nearest z) (z_local_goal z) (z_path_length z)
  (z_remain_local z) (z_dist_remains z) (z_dist_remains_raw z) (z_dist_err z) (z_nearest_norm z)
  (z_angle z) (z_goal_angle z) (z_yaw_raw z) true (z_in_place z).
Definition ex_refs : refs := Refs (fl 1 0) (fl 1 0) (fun _ => true) (fun _ => s0) (fun _ _ => s0) (fun _ => fl 1 0).
(** A nav_msgs/Path carries no velocities; they are NaN. *)
Definition ex_path : list f32 := [B754_nan; B754_nan; B754_nan].

Ltac cmp := repeat match goal with |- context [Rlt_bool ?a ?b] =>
  first [rewrite (Rlt_bool_true a b) by (unfold Rabs; repeat destruct Rcase_abs; lra) |
         rewrite (Rlt_bool_false a b) by (unfold Rabs; repeat destruct Rcase_abs; lra)] end;
  repeat match goal with |- context [Req_bool ?a ?b] => rewrite (Req_bool_true a b) by lra end.
Ltac track := unfold tracking_result, absless, vel_ok; cbn -[Rlt_bool Req_bool Rabs Nat.max Nat.sub]; cmp;
  cbn -[Rlt_bool Req_bool Rabs Nat.max Nat.sub]; cmp; reflexivity.
Lemma track_on b k : tracking_result (ex_cfg b) true 3 k 0 0 (Some on_path) = Tresult FOLLOWING 4 0 4 (0 + 0) false (Nat.max k (1 - 1)).
Proof. track. Qed.
Lemma track_turning b k : tracking_result (ex_cfg b) true 3 k 0 0 (Some (turning beside_path)) = Tresult FOLLOWING 4 0 4 0 true (Nat.max k (1 - 1)).
Proof. track. Qed.
Lemma track_end b k : tracking_result (ex_cfg b) true 3 k 0 0 (Some at_end) = Tresult GOAL 0 0 0 0 true (Nat.max k (2 - 1)).
Proof. track. Qed.
Definition at_end_turned : sensed := Sensed 3 (Some 2%nat) 3 5 0 0 0 0 0 0 0 3 false false.
Lemma track_end_turned b k : tracking_result (ex_cfg b) true 3 k 0 0 (Some at_end_turned) = Tresult GOAL 0 0 0 0 true (Nat.max k (2 - 1)).
Proof. track. Qed.
Ltac deciding := unfold published, run; cbn [app fold_left step fst]; unfold control;
  cbn -[Rlt_bool Rabs lim_set lim_increment fl tracking_result ex_cfg on_path turning at_end beside_path at_end_turned ex_refs Nat.max Nat.sub];
  rewrite ?track_on, ?track_turning, ?track_end, ?track_end_turned; unfold absless;
  cbn -[Rlt_bool Rabs lim_set lim_increment fl Nat.max Nat.sub]; cmp;
  cbn -[Rlt_bool Rabs lim_set lim_increment fl Nat.max Nat.sub].

Example C38_usable_example es : usable (es ++ [EPath true ex_path]) ex_path.
Proof.
  split; [unfold last_path; rewrite fold_snoc; reflexivity|]. split; [discriminate|].
  repeat constructor; discriminate.
Qed.
Example C38_not_usable_example p : ~ usable [EPath true [fl 1 0; fl (-1) 0]] p.
Proof.
  intros (E & _ & F). injection E as <-. inversion F as [|? ? _ F2]; subst. inversion F2 as [|? ? H _]; subst.
  apply bad_vel_false in H. vm_compute in H. discriminate.
Qed.
Example C38_far_example : controls [EPath true ex_path] (ETimer (Some (fun _ => Some beside_path)) ex_refs (fl 1 0)) (fun _ => Some beside_path) ex_refs 0 0 (fl 1 0) /\
  ~ near_goal (ex_cfg false) beside_path /\ t_d_stop (ex_cfg false) < distance_from_path 3 beside_path 1.
Proof.
  split; [right; auto|]. split.
  - unfold near_goal. cbn. intros [H|[H|H]]; [lra| |discriminate]. revert H. unfold Rabs. destruct Rcase_abs; lra.
  - cbn. unfold Rabs. destruct Rcase_abs; lra.
Qed.
(** The robot is driven while on the path, ... *)
Example C38_moves_example : exists v w, published (ex_cfg false) [EPath true ex_path] (ETimer (Some (fun _ => Some on_path)) ex_refs (fl 1 (-3)))
  = [OCmd v w; OStatus FOLLOWING] /\ Beqb v (fl 1 (-3)) = true.
Proof. do 2 eexists. split; [deciding; reflexivity|]. vm_compute. reflexivity. Qed.
(** ... and the goal is reported at the end. *)
Example C56_example : exists v w, published (ex_cfg false) [EPath true ex_path] (ETimer (Some (fun _ => Some at_end)) ex_refs (fl 1 (-3)))
  = [OCmd v w; OStatus GOAL].
Proof. do 2 eexists. deciding. reflexivity. Qed.

(** The hypotheses of the turning and following theorems are met. *)
Example C57_turning_example : near_goal (ex_cfg false) at_end /\ z_large_angle (turning beside_path) = true /\
  z_nearest (turning beside_path) = Some 1%nat /\ nonneg32 (fl 1 0) /\ nonneg32 (smul (fl 1 (-3)) (t_acc_v (ex_cfg false))).
Proof.
  split; [right; left; cbn; rewrite Rabs_R0; lra|]. split; [reflexivity|]. split; [reflexivity|].
  split; vm_compute; reflexivity.
Qed.
Definition at_switch_back : sensed := Sensed 5 (Some 2%nat) 3 5 0 4 4 0 0 0 0 0 false false.
Example C56_local_goal_example : near_goal (ex_cfg false) at_switch_back /\ z_local_goal at_switch_back <> z_size at_switch_back.
Proof. split; [right; left; cbn; rewrite Rabs_R0; lra|discriminate]. Qed.
Example C57_following_example : ~ near_goal (ex_cfg false) on_path /\
  distance_from_path 3 on_path 1 <= t_d_stop (ex_cfg false).
Proof.
  split.
  - unfold near_goal. cbn. intros [H|[H|H]]; [lra| |discriminate]. revert H. unfold Rabs. destruct Rcase_abs; lra.
  - cbn. rewrite Rabs_R0. lra.
Qed.

(** * Findings *)

(** Timer mode: if the transform from odometry to robot is lost, NO_PATH is
    reported but no zero command is published; the last command stays. *)
Theorem C38_lost_transform_stops_the_robot_refuted : ~ (forall c es f dt,
  In (OStatus NO_PATH) (published c es (ETimer None f dt)) ->
  last_cmd c (es ++ [ETimer None f dt]) = (s0, s0)).
Proof.
  intros H. specialize (H (ex_cfg false) [EPath true ex_path; ETimer (Some (fun _ => Some on_path)) ex_refs (fl 1 (-3))] ex_refs (fl 1 (-3))
    (or_introl eq_refl)). rewrite last_cmd_state in H.
  assert (E : forall v w : f32, (v, w) = (s0, s0) -> Beqb v s0 = true) by (intros ? ? E; injection E as -> ->; reflexivity).
  apply E in H. clear E. revert H. deciding. vm_compute. discriminate.
Qed.

(** While it turns in place the robot may be any distance from the path:
    FAR_FROM_PATH is not reported and the command is not zero. *)
Theorem C38_far_while_turning_refuted : ~ (forall c es e m f lin ang dt p, controls es e m f lin ang dt -> usable es p ->
  (forall k, exists z i, m k = Some z /\ z_nearest z = Some i /\ ~ near_goal c z /\ t_d_stop c < distance_from_path (length p) z i) ->
  exists st, published c es e = stop_msg st).
Proof.
  intros H. specialize (H (ex_cfg false) [EPath true ex_path] (ETimer (Some (fun _ => Some (turning beside_path))) ex_refs (fl 1 (-3)))
    (fun _ => Some (turning beside_path)) ex_refs 0 0 (fl 1 (-3)) ex_path).
  specialize (H ltac:(right; auto) (C38_usable_example [])). destruct H as [st H].
  { intros _. exists (turning beside_path), 1%nat. destruct C38_far_example as (_ & H1 & H2). auto. }
  revert H. deciding. intros H.
  assert (E : forall (v w : f32) x l, OCmd v w :: l = OCmd s0 s0 :: x -> Beqb w s0 = true).
  { intros v w x l E. injection E as -> -> _. reflexivity. }
  unfold stop_msg in H. apply E in H. vm_compute in H. discriminate.
Qed.

Lemma control_on b n d v w t f dt :
  control (ex_cfg b) (Nst true ex_path n d v w t) (fun _ => Some on_path) f 0 0 dt =
  let v1 := lim_set v (f_v f) (f_lin_vel f) (fl 1 0) dt in
  let v2 := if (b && f_over f v1)%bool then lim_set v1 (f_v2 f v1) (f_lin_vel f) (fl 1 0) dt else v1 in
  let w2 := lim_increment w (f_w f v2 w) (fl 1 0) (fl 1 0) dt in
  (Nst true ex_path false (if n then Nat.max (Nat.max d (1 - 1)) (1 - 1) else Nat.max d (1 - 1)) v2 w2 t, [OCmd v2 w2; OStatus FOLLOWING]).
Proof.
  unfold control. cbn -[Rlt_bool Rabs lim_set lim_increment fl tracking_result ex_cfg on_path Nat.max Nat.sub].
  rewrite !track_on. unfold absless. cbn -[Rlt_bool Rabs lim_set lim_increment fl Nat.max Nat.sub]. cmp.
  cbn -[Rlt_bool Rabs lim_set lim_increment fl Nat.max Nat.sub]. destruct n; reflexivity.
Qed.

(** With the limitation by angular velocity on, the linear velocity may change by
    two acceleration steps in one cycle. *)
Definition slow_refs : refs := Refs (fl 1 0) s0 (fun _ => true) (fun _ => s0) (fun _ _ => s0) (fun _ => s0).
Definition fast_refs : refs := Refs (fl 1 0) (fl 1 0) (fun _ => false) (fun _ => s0) (fun _ _ => s0) (fun _ => s0).
Theorem C57_single_step_refuted : ~ (forall c es e m f lin ang dt v w,
  controls es e m f lin ang dt -> In (OCmd v w) (published c es e) ->
  is_finite (f_lin_vel f) = true -> nonneg32 (f_lin_vel f) -> is_finite (t_vel_w c) = true -> nonneg32 (t_vel_w c) ->
  nonneg32 (smul dt (t_acc_v c)) -> nonneg32 (smul dt (t_acc_w c)) ->
  is_nan (f_v f) = false -> (forall x, is_nan (f_v2 f x) = false) -> (forall x, is_nan (f_w_toc f x) = false) ->
  (forall x, is_nan (sadd (snd (last_cmd c es)) (f_w f x (snd (last_cmd c es)))) = false) ->
  (v = s0 /\ w = s0) \/ within (fst (last_cmd c es)) (smul dt (t_acc_v c)) v).
Proof.
  intros H.
  set (es := [EPath true ex_path; ETimer (Some (fun _ => Some on_path)) fast_refs (fl 1 0)]).
  set (e := ETimer (Some (fun _ => Some on_path)) slow_refs (fl 1 (-3))).
  assert (V : Beqb (fst (last_cmd (ex_cfg true) es)) (fl 1 0) = true /\ is_finite (snd (last_cmd (ex_cfg true) es)) = true /\
              sle (fl 1 0) (fst (last_cmd (ex_cfg true) es)) = true).
  { rewrite last_cmd_state. unfold es. unfold run. cbn [fold_left step fst existsb bad_vel ex_path is_finite andb orb ninit n_v n_w n_odom].
    change [B754_nan; B754_nan; B754_nan] with ex_path. rewrite control_on. cbn [fst snd n_v n_w fast_refs f_v f_over f_v2 f_w andb]. split; [|split]; vm_compute; reflexivity. }
  destruct V as (V & F & V2).
  assert (Q : exists v w st, published (ex_cfg true) es e = [OCmd v w; OStatus st] /\ Beqb v (fl 3 (-2)) = true /\
     sle (ssub (fst (last_cmd (ex_cfg true) es)) (smul (fl 1 (-3)) (fl 1 0))) v = false /\ Beqb v s0 = false).
  { rewrite last_cmd_state. unfold es, e, published. unfold run. cbn [fold_left step fst existsb bad_vel ex_path is_finite andb orb ninit n_v n_w n_odom].
    change [B754_nan; B754_nan; B754_nan] with ex_path. rewrite !control_on. cbv zeta. cbn [fst]. rewrite !control_on. cbv zeta. cbn [fst snd n_v n_w fast_refs slow_refs f_v f_over f_v2 f_w andb]. do 3 eexists. split; [reflexivity|].
    split; [|split]; vm_compute; reflexivity. }
  destruct Q as (v & w & st & Q & Qv & Ql & Qz).
  specialize (H (ex_cfg true) es e (fun _ => Some on_path) slow_refs 0 0 (fl 1 (-3)) v w).
  specialize (H ltac:(right; auto)). rewrite Q in H. specialize (H (or_introl eq_refl)).
  do 6 specialize (H ltac:(vm_compute; reflexivity)).
  specialize (H eq_refl (fun _ => eq_refl) (fun _ => eq_refl)).
  assert (N : forall x : f32, is_finite x = true -> is_nan (sadd x s0) = false).
  { intros x Hx. destruct (sadd_key x s0 Hx) as [N _]; [vm_compute; reflexivity|]. exact N. }
  specialize (H (fun x => N _ F)). destruct H as [[-> _]|[H _]]; [vm_compute in Qz; discriminate|].
  change (t_acc_v (ex_cfg true)) with (fl 1 0) in H. congruence.
Qed.

(** While turning, the heading measured without the prediction offset is not
    checked: the goal may be reported with any actual heading. *)
Theorem C56_actual_heading_is_checked_refuted : ~ (forall c es e, In (OStatus GOAL) (published c es e) ->
  exists m f lin ang dt k z, controls es e m f lin ang dt /\ m k = Some z /\ 
    Rabs (z_goal_angle z + z_yaw_raw z) < t_goal_ang c).
Proof.
  intros H. set (z := at_end_turned).
  specialize (H (ex_cfg false) [EPath true ex_path] (ETimer (Some (fun _ => Some z)) ex_refs (fl 1 (-3)))).
  destruct H as (m & f & lin & ang & dt & k & z' & C & Em & H).
  - unfold z. deciding. right. left. reflexivity.
  - destruct C as [(t & C & _)|(C & _)]; [discriminate|]. injection C as <- _ _. injection Em as <-.
    cbn in H. revert H. unfold Rabs. destruct Rcase_abs; lra.
Qed.

Print Assumptions C38_no_usable_path.
Print Assumptions C38_not_localised.
Print Assumptions C38_far_from_path.
Print Assumptions C38_odometry_timeout.
Print Assumptions C38_stop_status_comes_with_zero_command.
Print Assumptions C38_every_cycle_publishes_a_command.
Print Assumptions C38_commands_are_finite.
Print Assumptions C38_lost_transform_stops_the_robot_refuted.
Print Assumptions C38_far_while_turning_refuted.
Print Assumptions C56_goal_is_reported_only_at_the_goal.
Print Assumptions C56_actual_heading_is_checked_refuted.
Print Assumptions C57_acceleration_is_limited.
Print Assumptions C57_single_step_refuted.
Print Assumptions C57_turning_only_slows_down.
Print Assumptions C56_new_path_starts_at_its_beginning.
Print Assumptions C56_reached_local_goal_is_left_behind.
Print Assumptions C57_following_command.
