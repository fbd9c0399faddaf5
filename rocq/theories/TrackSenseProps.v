(** C89: what the tracker reports about the way that is left agrees with the path. *)
From Coq Require Import Reals Lra Lia Psatz.
From Flocq Require Import Core.Core IEEE754.BinarySingleNaN.
From Verif Require Import Common CostF32 BasicControl BasicControlProps Path2D Path2DProps PathGeom PathGeomProps Tracker TrackerProps.
From Verif Require Import TrackSense TrackSenseProofs.
Local Open Scope R_scope.

(** * Specification *)
Section Spec.
  Variable c : tcfg.
  Variable M : mcfg.
  Variable velocity : option R -> f32.

  (** The path in force after a history: the last message, imported; none if it asks for a negative velocity. *)
  Definition current_path (es : list hev) : list pose2 :=
    fold_left (fun a e => match e with
      | HPath _ msg => let p := fromMsg (m_eps M) msg in if existsb (fun x => bad_vel (velocity (p_vel x))) p then [] else p
      | _ => a end) es [].
  (** path_step is not changed. *)
  Definition fixed_step (e : hev) : Prop := match e with HStep _ => False | _ => True end.
  Definition new_path (e : hev) : Prop := match e with HPath _ _ => True | _ => False end.
  (** Where the robot is in a control cycle: at the odometry, extrapolated over its age, or at the last transform. *)
  Definition stands (e : hev) : option rpose :=
    match e with
    | HOdom _ (Some p) age _ lin ang _ =>
        Some (Rpose (r_x p + lin * age * cos (r_yaw p)) (r_y p + lin * age * sin (r_yaw p)) (r_yaw p + ang * age))
    | HTimer (Some (Some p)) _ _ => Some p
    | _ => None
    end.
  (** Where it will be after the look-forward time if it goes on with the last command. *)
  Definition will_be (d : drive) (r : rpose) : R * R :=
    let v := B2R (n_v (d_node d)) in
    let w := B2R (n_w (d_node d)) in
    (r_x r + v * m_look M * cos (r_yaw r + w * m_look M / 2), r_y r + v * m_look M * sin (r_yaw r + w * m_look M / 2)).
  (** In some control cycle since the path came, the robot was beside the path, the foot of the perpendicular on it being
      nearer than the stop tolerance to [x]. *)
  Definition been_at (stp : nat) (es : list hev) (x : R * R) : Prop :=
    exists es1 e es2 d r i q, es = es1 ++ e :: es2 /\ Forall (fun e' => ~ new_path e') es2 /\
      hrun c M velocity stp es1 = Ok d /\ stands e = Some r /\
      let K := kept stp (current_path es1) in
      (1 <= i < length K)%nat /\ foot (xy K (i - 1)) (xy K i) (will_be d r) q /\ dist2 q x < t_stop_dist c.
  (** A path with poses at most 1 m apart, without three successive poses at one place, and not so short that only the heading is controlled. *)
  Definition suitable (K : list pose2) : Prop :=
    dense K /\ (forall i, (i + 2 < length K)%nat -> ~ (turn_at K (1 / 1000000) (i + 1) /\ turn_at K (1 / 1000000) (i + 2))) /\
    t_min_track c <= path_length K /\ m_no_pos M <= path_length K /\ 0 < t_stop_dist c <= path_length K.
  (** The switch-backs and in-place turns of the path (C40). *)
  Definition stop_list (K : list pose2) (gs : list nat) : Prop :=
    enumerateLocalGoals K (m_backward M) true (1 / 1000000) 0 (length K) = Some (Ok gs).
End Spec.

(** * Proofs *)
Section Proofs.
  Variable c : tcfg.
  Variable M : mcfg.
  Variable velocity : option R -> f32.
  Notation hrun := (hrun c M velocity).
  Notation hstep := (hstep c M velocity).
  Notation current_path := (current_path M velocity).

  Lemma hrun_snoc stp es e : hrun stp (es ++ [e]) = (do d <- hrun stp es; do r <- hstep d e; Ok (fst (fst r))).
  Proof.
    unfold TrackSense.hrun. rewrite foldM_app. destruct (foldM _ es (start stp)) as [d|]; cbn [bind]; [|reflexivity]. cbn [foldM].
    destruct (hstep d e) as [r|]; reflexivity.
  Qed.
  Lemma path_snoc es e : current_path (es ++ [e]) = match e with
      | HPath _ msg => let p := fromMsg (m_eps M) msg in if existsb (fun x => bad_vel (velocity (p_vel x))) p then [] else p
      | _ => current_path es end.
  Proof. unfold TrackSenseProps.current_path. rewrite fold_left_app. reflexivity. Qed.

  (** The control cycle of an event: where the robot is, and the odometry velocities. *)
  Inductive cycle (d : drive) : hev -> option place -> R -> R -> Prop :=
  | cy_odom t p age f lin ang dt : n_odom (d_node d) <> 0%Z -> cycle d (HOdom t p age f lin ang dt) (option_map (fun p => extrapolated p lin ang age) p) lin ang
  | cy_timer p f dt : cycle d (HTimer (Some p) f dt) (option_map at_rest p) 0 0.
  Lemma cycle_stands d e o lin ang : cycle d e o lin ang -> stands e = option_map pl_robot o.
  Proof.
    intros [t [p|] age f l a dt _|[p|] f dt]; try reflexivity. unfold extrapolated. cbn [option_map pl_robot stands]. do 2 f_equal; ring.
  Qed.

  Definition track (d : drive) (o : option place) (lin ang : R) (k : nat) : tresult :=
    tracking_result c (n_frame (d_node d)) (length (n_path (d_node d))) k lin ang (sight M d o k).
  Definition first (d : drive) (o : option place) (lin ang : R) : nat :=
    if n_updated (d_node d) then r_step_done (track d o lin ang (n_done (d_node d))) else n_done (d_node d).
  Definition stopped (s : status) : bool := match s with NO_PATH | FAR_FROM_PATH => true | _ => false end.

  Lemma control_done s m f lin ang dt :
    let tr k := tracking_result c (n_frame s) (length (n_path s)) k lin ang (m k) in
    let k := if n_updated s then r_step_done (tr (n_done s)) else n_done s in
    let r := control c s m f lin ang dt in
    n_frame (fst r) = n_frame s /\ n_path (fst r) = n_path s /\ n_updated (fst r) = false /\
    n_done (fst r) = (if stopped (r_status (tr k)) then k else r_step_done (tr k)) /\
    forall st, In (OStatus st) (snd r) <-> st = r_status (tr k).
  Proof.
    cbv zeta. unfold control. cbv zeta. set (k := if n_updated s then _ else _).
    set (r := tracking_result _ _ _ _ _ _ _). destruct (r_status r) eqn:Er.
    2, 3: match goal with |- context [let '(v, w) := ?X in _] => destruct X as [v w] end;
      match goal with |- context [let '(v, w) := ?X in _] => destruct X as [v' w'] end.
    all: cbn [fst snd n_frame n_path n_updated n_done In stopped]; (repeat split; auto); intros Hs;
      try (destruct Hs as [Hs|[Hs|[]]]; [discriminate Hs|injection Hs; auto]); right; left; rewrite Hs; reflexivity.
  Qed.

  Lemma step_cycle d e o lin ang : cycle d e o lin ang -> forall d' os rs, hstep d e = Ok (d', os, rs) ->
    d_path d' = d_path d /\ d_step d' = d_step d /\
    n_frame (d_node d') = n_frame (d_node d) /\ n_path (d_node d') = n_path (d_node d) /\ n_updated (d_node d') = false /\
    n_done (d_node d') = (let k := first d o lin ang in if stopped (r_status (track d o lin ang k)) then k else r_step_done (track d o lin ang k)) /\
    rs = [report_of (track d o lin ang (first d o lin ang))] /\
    (forall st, In (OStatus st) os <-> st = r_status (track d o lin ang (first d o lin ang))).
  Proof.
    intros C d' os rs H. assert (R : forall r, result c M d o lin ang = Ok r -> r = track d o lin ang (first d o lin ang)).
    { intros r. unfold result. cbv zeta. fold (track d o lin ang (n_done (d_node d))). fold (first d o lin ang). intros E.
      match type of E with bind ?X _ = _ => destruct X; cbn [bind] in E; [|discriminate E] end.
      match type of E with bind ?X _ = _ => destruct X; cbn [bind] in E; [|discriminate E] end.
      injection E as <-. reflexivity. }
    destruct C as [t p age f lin ang dt O|p f dt]; cbn [TrackSense.hstep step] in H; cbv zeta in H.
    - pose proof (proj2 (Z.eqb_neq _ _) O) as O'. rewrite O' in H.
      set (o := option_map _ p) in *. pose proof (control_done (d_node d) (sight M d o) f lin ang dt) as CD. cbv zeta in CD.
      destruct (control c (d_node d) (sight M d o) f lin ang dt) as [s1 o1]. destruct CD as (A1 & A2 & A3 & A4 & A5).
      destruct (result c M d o lin ang) as [r|] eqn:Er; cbn [bind] in H; [|discriminate H]. pose proof (R r eq_refl) as X; clear R Er; subst r.
      injection H as <- <- <-. cbn [d_path d_step d_node n_frame n_path n_updated n_done fst snd] in *. repeat split; auto; apply A5.
    - set (o := option_map _ p) in *. pose proof (control_done (d_node d) (sight M d o) f 0 0 dt) as CD. cbv zeta in CD.
      destruct (control c (d_node d) (sight M d o) f 0 0 dt) as [s1 o1]. destruct CD as (A1 & A2 & A3 & A4 & A5).
      destruct (result c M d o 0 0) as [r|] eqn:Er; cbn [bind] in H; [|discriminate H]. pose proof (R r eq_refl) as X; clear R Er; subst r.
      injection H as <- <- <-. cbn [d_path d_step d_node n_frame n_path n_updated n_done fst snd] in *. repeat split; auto; apply A5.
  Qed.
  (** Other events. *)
  Lemma step_other d e : (forall o lin ang, ~ cycle d e o lin ang) -> fixed_step e -> ~ new_path e ->
    exists s os rs, hstep d e = Ok (Drive s (d_path d) (d_step d), os, rs) /\ n_frame s = n_frame (d_node d) /\ n_path s = n_path (d_node d) /\
      n_updated s = n_updated (d_node d) /\ n_done s = n_done (d_node d) /\ ~ In (OStatus GOAL) os /\ (forall r, In r rs -> r = (NO_PATH, 0, 0)).
  Proof.
    intros NC F NP. destruct e as [fr msg|t p age f lin ang dt|[p|] f dt| |k]; cbn [fixed_step new_path] in *; try contradiction; try tauto.
    - cbn [TrackSense.hstep step]. cbv zeta. destruct (Z.eqb_spec (n_odom (d_node d)) 0) as [E|E].
      + do 3 eexists. split; [reflexivity|]. cbn. tauto.
      + exfalso. eapply NC. constructor. exact E.
    - exfalso. eapply NC. constructor.
    - cbn [TrackSense.hstep step]. do 3 eexists. split; [reflexivity|]. cbn. repeat split; auto; [intros [H|[]]; discriminate H|intros r [H|[]]; auto].
    - cbn [TrackSense.hstep step]. do 3 eexists. split; [reflexivity|]. cbn. repeat split; auto; [intros [H|[H|[]]]; discriminate H|intros r [H|[]]; auto].
  Qed.
  Lemma cycle_dec d e : (exists o lin ang, cycle d e o lin ang) \/ (forall o lin ang, ~ cycle d e o lin ang).
  Proof.
    destruct e as [fr msg|t p age f lin ang dt|[p|] f dt| |k]; try (right; intros o l a C; inversion C; fail); try (left; do 3 eexists; constructor; fail).
    destruct (Z.eq_dec (n_odom (d_node d)) 0) as [E|E]; [right; intros o l a C; inversion C; contradiction|left; do 3 eexists; constructor; exact E].
  Qed.

  (** ** No reading outside the path *)
  Definition fine (stp : nat) (es : list hev) (d : drive) : Prop :=
    d_step d = stp /\ d_path d = current_path es /\ length (n_path (d_node d)) = length (d_path d) /\
    (d_path d <> [] -> (n_done (d_node d) < length (kept stp (d_path d)))%nat).

  Lemma sight_says stp es d pl k : fine stp es d -> d_path d <> [] -> (k < length (kept stp (d_path d)))%nat ->
    exists z i, look M d pl k = Ok z /\ sight M d (Some pl) k = Some z /\
      says M (d_path d) stp pl (B2R (n_v (d_node d))) (B2R (n_w (d_node d))) k z i.
  Proof.
    intros (F1 & F2 & F3 & F4) N H. unfold sight, look. rewrite F1.
    destruct (measure_says M (d_path d) stp pl (B2R (n_v (d_node d))) (B2R (n_w (d_node d))) k H) as (z & i & E & Sa). rewrite E. eauto.
  Qed.

  (** The number of finished steps after a measurement. *)
  Lemma track_done size k lin ang z i n : z_nearest z = Some i -> (k <= i < z_local_goal z)%nat -> (z_local_goal z <= n)%nat -> z_size z = n ->
    let r := tracking_result c true (S size) k lin ang (Some z) in
    (r_status r = FAR_FROM_PATH /\ r_step_done r = 0%nat) \/
    ((r_status r = FOLLOWING \/ r_status r = GOAL) /\
     ((near_goal c z /\ z_local_goal z <> n /\ r_step_done r = z_local_goal z) \/
      (~ (near_goal c z /\ z_local_goal z <> n) /\ r_step_done r = Nat.max k (i - 1)))).
  Proof.
    intros H1 H2 H3 H4. cbv zeta. unfold tracking_result. cbn [negb orb Nat.eqb]. rewrite H1.
    pose proof (near_goal_bool c z) as N. set (ng := (_ || _ || z_in_place z)%bool) in *.
    match goal with |- context [if ?b then Tresult FAR_FROM_PATH _ _ _ _ _ _ else _] => destruct b eqn:EF end; [left; split; reflexivity|right].
    cbn [r_status r_step_done]. split; [match goal with |- context [if ?b then GOAL else _] => destruct b end; auto|].
    rewrite H4. destruct (Nat.eqb_spec (z_local_goal z) n) as [E|E]; cbn [negb].
    - rewrite andb_false_r. right. split; [intros [_ X]; exact (X E)|reflexivity].
    - rewrite andb_true_r. destruct ng.
      + rewrite orb_true_r. left. split; [apply N; reflexivity|]. split; [exact E|reflexivity].
      + rewrite orb_false_r, andb_false_r. right. split; [intros [X _]; apply N in X; discriminate X|reflexivity].
  Qed.

  Lemma done_bound stp es d o lin ang k : fine stp es d -> d_path d <> [] -> (k < length (kept stp (d_path d)))%nat ->
    (r_step_done (track d o lin ang k) < length (kept stp (d_path d)))%nat.
  Proof.
    intros F N H. pose proof F as (_ & _ & F3 & _). unfold track. destruct o as [pl|].
    - destruct (sight_says stp es d pl k F N H) as (z & i & _ & E & Sa). rewrite E.
      destruct (n_frame (d_node d)); [|cbn; lia]. destruct (length (n_path (d_node d))) as [|size] eqn:El; [destruct (d_path d); [congruence|discriminate F3]|].
      destruct (until_spec M (kept stp (d_path d)) k H) as [U _].
      assert (G := y_goal _ _ _ _ _ _ _ _ _ Sa). assert (R := y_range _ _ _ _ _ _ _ _ _ Sa).
      destruct (track_done size k lin ang z i (length (kept stp (d_path d))) (y_near _ _ _ _ _ _ _ _ _ Sa) ltac:(lia) ltac:(lia) (y_size _ _ _ _ _ _ _ _ _ Sa)) as [[_ ->]|[_ [(_ & L & ->)|(_ & ->)]]]; lia.
    - cbn [sight]. unfold tracking_result. destruct (negb _ || _)%bool; cbn [r_step_done no_path_result]; lia.
  Qed.

  Lemma kept_nil stp : kept stp [] = [].
  Proof. reflexivity. Qed.

  Lemma result_ok stp es d o lin ang : fine stp es d -> exists r, result c M d o lin ang = Ok r.
  Proof.
    intros F. pose proof F as (_ & _ & F3 & F4). unfold result. cbv zeta. fold (track d o lin ang (n_done (d_node d))). fold (first d o lin ang).
    destruct o as [pl|]; [|cbn [bind]; eauto].
    destruct (negb (n_frame (d_node d)) || (length (n_path (d_node d)) =? 0)%nat)%bool eqn:B; [cbn [bind]; eauto|].
    apply orb_false_iff in B. destruct B as [_ B]. apply Nat.eqb_neq in B.
    assert (N : d_path d <> []) by (destruct (d_path d); [cbn in F3; lia|discriminate]). specialize (F4 N).
    destruct (sight_says stp es d pl _ F N F4) as (z & i & -> & _). cbn [bind].
    assert (L : (first d (Some pl) lin ang < length (kept stp (d_path d)))%nat).
    { unfold first. destruct (n_updated (d_node d)); [eapply done_bound; eauto|exact F4]. }
    destruct (sight_says stp es d pl _ F N L) as (z' & i' & -> & _). cbn [bind]. eauto.
  Qed.

  Lemma fine_step stp es d e : (1 <= stp)%nat -> fine stp es d -> fixed_step e ->
    exists d' os rs, hstep d e = Ok (d', os, rs) /\ fine stp (es ++ [e]) d'.
  Proof.
    intros Hs F Fe. pose proof F as (F1 & F2 & F3 & F4). destruct (cycle_dec d e) as [(o & lin & ang & C)|NC].
    - destruct (result_ok stp es d o lin ang F) as (r & Er).
      assert (OK : exists x, hstep d e = Ok x).
      { destruct C as [t p age f lin ang dt O|p f dt]; cbn [TrackSense.hstep step]; cbv zeta.
        - rewrite (proj2 (Z.eqb_neq _ _) O), Er. destruct (control _ _ _ _ _ _ _). cbn [bind]. eauto.
        - rewrite Er. destruct (control _ _ _ _ _ _ _). cbn [bind]. eauto. }
      destruct OK as ([[d' os] rs] & E). exists d', os, rs. split; [exact E|].
      destruct (step_cycle d e o lin ang C d' os rs E) as (A1 & A2 & A3 & A4 & A5 & A6 & _). unfold fine. rewrite A1, A2, A4, A6, path_snoc.
      assert (P : match e with HPath _ msg => let p := fromMsg (m_eps M) msg in if existsb (fun x => bad_vel (velocity (p_vel x))) p then [] else p | _ => current_path es end = current_path es) by (destruct C; reflexivity).
      rewrite P. split; [exact F1|]. split; [exact F2|]. split; [exact F3|]. intros N. specialize (F4 N). cbv zeta.
      assert (L : (first d o lin ang < length (kept stp (d_path d)))%nat).
      { unfold first. destruct (n_updated (d_node d)); [eapply done_bound; eauto|exact F4]. }
      destruct (stopped _); [exact L|eapply done_bound; eauto].
    - destruct e as [fr msg| | | |k]; try contradiction Fe;
        try (edestruct (step_other d _ NC Fe ltac:(cbn; auto)) as (s & os & rs & E & B1 & B2 & B3 & B4 & _); exists (Drive s (d_path d) (d_step d)), os, rs;
             split; [exact E|]; unfold fine; rewrite path_snoc; cbn [d_step d_path d_node]; rewrite B2, B4; repeat split; assumption).
      cbn [TrackSense.hstep step]. do 3 eexists. split; [reflexivity|]. unfold fine. rewrite path_snoc. cbn [d_step d_path d_node n_path n_done]. cbv zeta.
      assert (Ex : existsb bad_vel (map (fun p => velocity (p_vel p)) (fromMsg (m_eps M) msg)) = existsb (fun x => bad_vel (velocity (p_vel x))) (fromMsg (m_eps M) msg)).
      { induction (fromMsg (m_eps M) msg) as [|x l IH]; [reflexivity|]. cbn [map existsb]. rewrite IH. reflexivity. }
      rewrite Ex. clear Ex. destruct (existsb (fun x => bad_vel (velocity (p_vel x))) (fromMsg (m_eps M) msg)).
      + split; [exact F1|]. split; [reflexivity|]. split; [reflexivity|congruence].
      + split; [exact F1|]. split; [reflexivity|]. split; [apply map_length|]. intros N. apply kept_some. exact N.
  Qed.
  Lemma fine_run stp es : (1 <= stp)%nat -> Forall fixed_step es -> exists d, hrun stp es = Ok d /\ fine stp es d.
  Proof.
    intros Hs. induction es as [|e es IH] using rev_ind; intros F.
    - exists (start stp). split; [reflexivity|]. unfold fine. cbn. repeat split; congruence.
    - apply Forall_app in F. destruct F as [F1 F2]. destruct (IH F1) as (d & E & G). inversion_clear F2.
      destruct (fine_step stp es d e Hs G H) as (d' & os & rs & E' & G'). exists d'. rewrite hrun_snoc, E. cbn [bind]. rewrite E'. auto.
  Qed.

  (** Whatever the paths and poses are, the tracker reads only poses of its path, as long as path_step is not changed. *)
  Theorem C89_reads_only_the_path stp es : (1 <= stp)%nat -> Forall fixed_step es -> exists d, hrun stp es = Ok d.
  Proof. intros H F. destruct (fine_run stp es H F) as (d & E & _). eauto. Qed.

  (** ** The stops are visited in order *)
  Fixpoint ahead_of (K : list pose2) (g : nat) (rest : list nat) : Prop :=
    match rest with [] => next_stop M K g = None | g' :: rest' => next_stop M K g = Some g' /\ ahead_of K g' rest' end.
  Lemma elg_ahead K f : forall g gs, elg_loop K (m_backward M) true (1 / 1000000) f g (length K) = Some (Ok gs) -> ahead_of K g gs.
  Proof.
    induction f as [|f IH]; intros g gs E; cbn [elg_loop] in E; [discriminate E|]. unfold ahead_of, next_stop.
    destruct (findLocalGoal K _ _ _ g _) as [[g'|]|] eqn:Ef.
    - destruct (elg_loop K _ _ _ f g' _) as [[r|]|] eqn:Er; try discriminate E. injection E as <-. fold ahead_of. rewrite Ef. split; [reflexivity|]. apply IH. exact Er.
    - injection E as <-. rewrite Ef. reflexivity.
    - discriminate E.
  Qed.
  (** [k] finished steps: the stops [vis] are behind, [rest] ahead. *)
  Definition between (K : list pose2) (vis rest : list nat) (k : nat) : Prop :=
    let g := last vis 0%nat in
    ahead_of K g rest /\ (g < length K)%nat /\ (k = g \/ ((g <= k)%nat /\ (k + 2 <= until M K g)%nat)).

  Lemma between_until K vis rest k : between K vis rest k -> (k < length K)%nat /\ next_stop M K k = hd_error rest.
  Proof.
    intros (A & B & D). destruct (until_spec M K (last vis 0%nat) B) as [U _].
    assert (E : next_stop M K (last vis 0%nat) = hd_error rest) by (destruct rest; [exact A|apply A]).
    destruct D as [->|[D1 D2]]; [split; [exact B|exact E]|]. split; [lia|]. rewrite <- E. apply next_stop_stays; assumption.
  Qed.

  Lemma between_move K vis rest k i : between K vis rest k -> (k <= i < until M K k)%nat -> (k < i)%nat \/ i = k ->
    between K vis rest (Nat.max k (i - 1)).
  Proof.
    intros Bt R _. destruct (between_until K vis rest k Bt) as [L E]. destruct Bt as (A & B & D). split; [exact A|]. split; [exact B|].
    assert (E' : next_stop M K (last vis 0%nat) = hd_error rest) by (destruct rest; [exact A|apply A]).
    assert (U : until M K k = until M K (last vis 0%nat)) by (unfold until; rewrite E, E'; reflexivity). rewrite U in R.
    destruct D as [->|[D1 D2]].
    - destruct (le_lt_dec (i - 1) (last vis 0%nat)) as [X|X]; [left; lia|right; lia].
    - right. lia.
  Qed.
  Lemma between_pass K vis g rest k : between K vis (g :: rest) k -> between K (vis ++ [g]) rest g.
  Proof.
    intros ((A1 & A2) & B & D). unfold between. rewrite Path2DProps.last_snoc. split; [exact A2|]. split; [|left; reflexivity].
    destruct (next_stop_spec M K _ B) as [_ S]. rewrite A1 in S. lia.
  Qed.

  Section Good.
    Variables (stp : nat) (es : list hev) (d : drive) (e : hev) (pl : place).
    Notation K := (kept stp (d_path d)).
    Hypothesis Fi : fine stp es d.
    Hypothesis Ne : d_path d <> [].
    Hypothesis Su : suitable c M K.
    Hypothesis Ee : 0 <= m_eps M.
    Hypothesis St : stands e = Some (pl_robot pl).
    Hypothesis Ru : hrun stp es = Ok d.
    Notation V := (B2R (n_v (d_node d))).
    Notation W := (B2R (n_w (d_node d))).

    (** Arriving at a stop means being there. *)
    Lemma arrives vis g rest k z i : between K vis (g :: rest) k -> says M (d_path d) stp pl V W k z i -> near_goal c z -> (2 <= g)%nat ->
      been_at c M velocity stp (es ++ [e]) (xy K (g - 1)).
    Proof.
      intros Bt Sa N G2. destruct Su as (De & N3 & H1 & H2 & H3). destruct (between_until K vis (g :: rest) k Bt) as [L E]. cbn [hd_error] in E.
      assert (U : until M K k = g) by (unfold until; rewrite E; reflexivity). destruct (next_stop_spec M K k L) as [_ X]. rewrite E in X. destruct X as (X1 & X2 & X3).
      destruct (z_in_place z) eqn:Ip.
      - exfalso. apply (y_place _ _ _ _ _ _ _ _ _ Sa) in Ip.
        assert (T : (1 <= i)%nat -> turn_at K (1 / 1000000) i).
        { intros _. unfold turn_at. unfold xy in Ip. unfold sq, pt. change (mkP2 0 0 0 None) with p0. injection Ip as E1 E2. rewrite E1, E2. lra. }
        destruct (y_ahead _ _ _ _ _ _ _ _ _ Sa De Ee) as [A|[A1 A2]].
        + pose proof (y_range _ _ _ _ _ _ _ _ _ Sa) as Rg. rewrite U in Rg. apply (X3 i); [lia|]. left. split; [reflexivity|]. apply T. lia.
        + rewrite U in A2. clear U E. subst i. subst g. destruct X2 as [(_ & X2)|(_ & X2 & _)]; [|lia].
          apply (N3 (k - 1)%nat); [lia|]. replace (k - 1 + 1)%nat with k by lia. replace (k - 1 + 2)%nat with (S k) by lia. split; [apply T; lia|exact X2].
      - destruct (y_dist _ _ _ _ _ _ _ _ _ Sa Ip H2) as (I1 & q & Fq & Q1 & _).
        assert (Lt : Rabs (z_remain_local z) < t_stop_dist c).
        { destruct N as [N|[N|N]]; [rewrite (y_len _ _ _ _ _ _ _ _ _ Sa) in N; lra|exact N|congruence]. }
        rewrite U in Q1. pose proof (y_range _ _ _ _ _ _ _ _ _ Sa) as Rg. rewrite U in Rg.
        exists es, e, [], d, (pl_robot pl), i, q. split; [reflexivity|]. split; [constructor|]. split; [exact Ru|]. split; [exact St|].
        destruct Fi as (_ & <- & _). cbv zeta. split; [lia|]. split; [exact Fq|]. lra.
    Qed.

    Lemma advance vis rest k lin ang size : length (n_path (d_node d)) = S size -> n_frame (d_node d) = true ->
      between K vis rest k -> let r := track d (Some pl) lin ang k in
      exists vis' rest', vis ++ rest = vis' ++ rest' /\ (r_status r <> FAR_FROM_PATH -> between K vis' rest' (r_step_done r)) /\
        (r_status r = FAR_FROM_PATH -> r_step_done r = 0%nat) /\
        (vis' = vis \/ exists g, vis' = vis ++ [g] /\ ((2 <= g)%nat -> been_at c M velocity stp (es ++ [e]) (xy K (g - 1)))).
    Proof.
      intros Sz Fr Bt. cbv zeta. destruct (between_until K vis rest k Bt) as [L E].
      destruct (sight_says stp es d pl k Fi Ne L) as (z & i & _ & Ez & Sa). unfold track. rewrite Ez, Sz, Fr.
      destruct (until_spec M K k L) as [U _]. pose proof (y_range _ _ _ _ _ _ _ _ _ Sa) as Rg. pose proof (y_goal _ _ _ _ _ _ _ _ _ Sa) as G.
      destruct (track_done size k lin ang z i (length K) (y_near _ _ _ _ _ _ _ _ _ Sa) ltac:(lia) ltac:(lia) (y_size _ _ _ _ _ _ _ _ _ Sa)) as [[T1 T2]|[T1 [(T2 & T3 & T4)|(T2 & T3)]]].
      - exists vis, rest. rewrite T1, T2. split; [reflexivity|]. split; [congruence|]. split; [reflexivity|]. left. reflexivity.
      - destruct rest as [|g rest]; cbn [hd_error] in E; [exfalso; apply T3; rewrite G; unfold until; rewrite E; reflexivity|].
        assert (Ug : until M K k = g) by (unfold until; rewrite E; reflexivity). rewrite T4, G, Ug.
        exists (vis ++ [g]), rest. split; [rewrite <- app_assoc; reflexivity|]. split; [intros _; eapply between_pass; exact Bt|].
        split; [intros X; rewrite X in T1; destruct T1; discriminate|]. right. exists g. split; [reflexivity|]. intros G2. eapply arrives; eauto.
      - rewrite T3. exists vis, rest. split; [reflexivity|]. split; [intros _; apply between_move; [exact Bt|exact Rg|lia]|].
        split; [intros X; rewrite X in T1; destruct T1; discriminate|]. left. reflexivity.
    Qed.
  End Good.

  (** What has been visited is remembered. *)
  Lemma been_later stp es e x : ~ new_path e -> been_at c M velocity stp es x -> been_at c M velocity stp (es ++ [e]) x.
  Proof.
    intros N (es1 & e1 & es2 & d & r & i & q & -> & F & R). exists es1, e1, (es2 ++ [e]), d, r, i, q. rewrite <- app_assoc. cbn [app].
    split; [reflexivity|]. split; [apply Forall_app; auto|exact R].
  Qed.

  Definition been_all (stp : nat) (es : list hev) (K : list pose2) (vis : list nat) : Prop :=
    Forall (fun g => (2 <= g)%nat -> been_at c M velocity stp es (xy K (g - 1))) vis.
  Definition ledger (stp : nat) (es : list hev) (d : drive) (gs : list nat) : Prop :=
    let K := kept stp (d_path d) in
    exists vis rest, gs = vis ++ rest /\ between K vis rest (n_done (d_node d)) /\ been_all stp es K vis /\
      (n_updated (d_node d) = true -> n_done (d_node d) = 0%nat /\ vis = []).

  (** The state in which a control cycle takes its (second) measurement. *)
  Lemma ledger_first stp es d e pl lin ang gs : fine stp es d -> d_path d <> [] -> suitable c M (kept stp (d_path d)) -> 0 <= m_eps M -> stands e = Some (pl_robot pl) ->
    hrun stp es = Ok d -> n_frame (d_node d) = true -> ~ new_path e -> ledger stp es d gs ->
    let K := kept stp (d_path d) in
    exists vis rest, gs = vis ++ rest /\ between K vis rest (first d (Some pl) lin ang) /\ been_all stp (es ++ [e]) K vis.
  Proof.
    intros Fi Ne Su Ee St Ru Fr NP (vis & rest & E & Bt & BA & Up). cbv zeta.
    assert (BA' : been_all stp (es ++ [e]) (kept stp (d_path d)) vis) by (eapply Forall_impl; [|exact BA]; cbn; intros g H G; apply been_later; auto).
    unfold first. destruct (n_updated (d_node d)); [|exists vis, rest; auto].
    destruct (length (n_path (d_node d))) as [|size] eqn:El; [destruct Fi as (_ & _ & F3 & _); destruct (d_path d); [congruence|rewrite El in F3; discriminate F3]|].
    destruct (advance stp es d e pl Fi Ne Su Ee St Ru vis rest (n_done (d_node d)) lin ang size El Fr Bt) as (vis' & rest' & E1 & E2 & E3 & E4).
    set (r := track d (Some pl) lin ang (n_done (d_node d))) in *.
    assert (Far : r_status r = FAR_FROM_PATH \/ r_status r <> FAR_FROM_PATH) by (destruct (r_status r); auto; right; discriminate).
    destruct Far as [Fa|Fa].
    - rewrite (E3 Fa). destruct (Up eq_refl) as [U1 U2]. exists vis, rest. rewrite U1 in Bt. auto.
    - exists vis', rest'. split; [congruence|]. split; [apply E2; exact Fa|]. destruct E4 as [->|(g & -> & B)]; [exact BA'|]. apply Forall_app. split; [exact BA'|]. constructor; [exact B|constructor].
  Qed.

  Lemma ledger_step stp es d e gs d' os rs : (1 <= stp)%nat -> fine stp es d -> d_path d <> [] -> suitable c M (kept stp (d_path d)) -> 0 <= m_eps M ->
    hrun stp es = Ok d -> fixed_step e -> ~ new_path e -> hstep d e = Ok (d', os, rs) -> ledger stp es d gs -> ledger stp (es ++ [e]) d' gs.
  Proof.
    intros Hs Fi Ne Su Ee Ru Fe NP Hst Le. destruct (cycle_dec d e) as [(o & lin & ang & C)|NC].
    - destruct (step_cycle d e o lin ang C d' os rs Hst) as (A1 & A2 & A3 & A4 & A5 & A6 & _). unfold ledger. rewrite A1, A5, A6. cbv zeta.
      assert (Keep : forall k, (exists vis rest, gs = vis ++ rest /\ between (kept stp (d_path d)) vis rest k /\ been_all stp (es ++ [e]) (kept stp (d_path d)) vis) ->
        exists vis rest, gs = vis ++ rest /\ between (kept stp (d_path d)) vis rest k /\ been_all stp (es ++ [e]) (kept stp (d_path d)) vis /\ (false = true -> k = 0%nat /\ vis = [])).
      { intros k (vis & rest & X1 & X2 & X3). exists vis, rest. repeat split; auto; try apply X2; discriminate. }
      apply Keep. pose proof (cycle_stands d e o lin ang C) as St.
      assert (Old : exists vis rest, gs = vis ++ rest /\ between (kept stp (d_path d)) vis rest (n_done (d_node d)) /\ been_all stp (es ++ [e]) (kept stp (d_path d)) vis).
      { destruct Le as (vis & rest & E & Bt & BA & _). exists vis, rest. split; [exact E|]. split; [exact Bt|]. eapply Forall_impl; [|exact BA]; cbn; intros g H G; apply been_later; auto. }
      assert (Zero : n_updated (d_node d) = true -> exists vis rest, gs = vis ++ rest /\ between (kept stp (d_path d)) vis rest 0 /\ been_all stp (es ++ [e]) (kept stp (d_path d)) vis).
      { intros U. destruct Le as (vis & rest & E & Bt & BA & Up). destruct (Up U) as [U1 U2]. rewrite U1 in Bt. subst vis. exists [], rest. repeat split; auto; try apply Bt. constructor. }
      destruct o as [pl|].
      + destruct (n_frame (d_node d)) eqn:Fr.
        * destruct (ledger_first stp es d e pl lin ang gs Fi Ne Su Ee St Ru Fr NP Le) as (vis & rest & E & Bt & BA).
          destruct (stopped (r_status (track d (Some pl) lin ang (first d (Some pl) lin ang)))) eqn:Sp; [exists vis, rest; auto|].
          destruct (length (n_path (d_node d))) as [|size] eqn:El; [destruct Fi as (_ & _ & F3 & _); destruct (d_path d); [congruence|rewrite El in F3; discriminate F3]|].
          destruct (advance stp es d e pl Fi Ne Su Ee St Ru vis rest _ lin ang size El Fr Bt) as (vis' & rest' & E1 & E2 & _ & E4).
          exists vis', rest'. split; [congruence|]. split; [apply E2; intros X; rewrite X in Sp; discriminate Sp|].
          destruct E4 as [->|(g & -> & B)]; [exact BA|]. apply Forall_app. split; [exact BA|]. constructor; [exact B|constructor].
        * assert (T : forall k, track d (Some pl) lin ang k = no_path_result) by (intros k; unfold track, tracking_result; rewrite Fr; reflexivity).
          unfold first. rewrite !T. cbn [stopped r_status r_step_done no_path_result]. destruct (n_updated (d_node d)) eqn:U; [apply Zero; reflexivity|exact Old].
      + assert (T : forall k, track d None lin ang k = no_path_result) by (intros k; unfold track, tracking_result; cbn [sight]; destruct (_ || _)%bool; reflexivity).
        unfold first. rewrite !T. cbn [stopped r_status r_step_done no_path_result]. destruct (n_updated (d_node d)) eqn:U; [apply Zero; reflexivity|exact Old].
    - destruct (step_other d e NC Fe NP) as (s & os' & rs' & E & B1 & B2 & B3 & B4 & _). rewrite Hst in E. injection E as -> -> ->.
      destruct Le as (vis & rest & E & Bt & BA & Up). unfold ledger. cbn [d_path d_node]. rewrite B3, B4. exists vis, rest.
      split; [exact E|]. split; [exact Bt|]. split; [|exact Up]. eapply Forall_impl; [|exact BA]; cbn; intros g H G; apply been_later; auto.
  Qed.

  Lemma ledger_run stp es : (1 <= stp)%nat -> Forall fixed_step es -> 0 <= m_eps M -> forall d gs, hrun stp es = Ok d -> d_path d <> [] ->
    suitable c M (kept stp (d_path d)) -> stop_list M (kept stp (d_path d)) gs -> ledger stp es d gs.
  Proof.
    intros Hs. induction es as [|e es IH] using rev_ind; intros F Ee d' gs R Ne Su Sl.
    - injection R as <-. exfalso. apply Ne. reflexivity.
    - apply Forall_app in F. destruct F as [F1 F2]. inversion_clear F2. destruct (fine_run stp es Hs F1) as (d & Ed & Fi).
      rewrite hrun_snoc, Ed in R. cbn [bind] in R. destruct (hstep d e) as [[[d1 os] rs]|] eqn:Est; cbn [bind] in R; [|discriminate R].
      cbn [fst] in R. injection R as <-.
      assert (NPd : new_path e \/ ~ new_path e) by (destruct e; cbn; auto).
      destruct NPd as [NP|NP].
      + destruct e as [fr msg| | | |]; try contradiction NP. cbn [TrackSense.hstep step] in Est. injection Est as <- <- <-. unfold ledger.
        cbn [d_path d_node n_done n_updated] in *. cbv zeta. exists [], gs. split; [reflexivity|]. split; [|split; [constructor|auto]].
        split; [cbn [last]; eapply elg_ahead; exact Sl|]. cbn [last]. split; [apply kept_some; exact Ne|left; reflexivity].
      + assert (P : d_path d1 = d_path d).
        { destruct (cycle_dec d e) as [(o & lin & ang & C)|NC]; [apply (step_cycle d e o lin ang C d1 os rs Est)|].
          destruct (step_other d e NC H NP) as (s & os' & rs' & E & _). rewrite Est in E. injection E as -> _ _. reflexivity. }
        rewrite P in *. eapply ledger_step; eauto.
  Qed.

  (** ** The theorems *)
  Theorem C89_goal_is_the_end_of_the_path stp es d e d' os rs : (1 <= stp)%nat -> Forall fixed_step es -> 0 <= m_eps M ->
    hrun stp es = Ok d -> hstep d e = Ok (d', os, rs) -> In (OStatus GOAL) os ->
    let K := kept stp (current_path es) in
    let n := length K in
    suitable c M K ->
    exists r, stands e = Some r /\
      (* every switch-back and turn of the path has been visited *)
      (forall gs g, stop_list M K gs -> In g gs -> (2 <= g)%nat -> been_at c M velocity stp (es ++ [e]) (xy K (g - 1))) /\
      (* the foot of the perpendicular on the path is at its end, or the robot has been there and has only to turn *)
      ((exists i q, (1 <= i < n)%nat /\ foot (xy K (i - 1)) (xy K i) (will_be M d r) q /\ dist2 q (xy K (n - 1)) < t_goal_dist c) \/
       (xy K (n - 2) = xy K (n - 1) /\ been_at c M velocity stp (es ++ [e]) (xy K (n - 1)))) /\
      (* the robot has the final heading, or that of the last stretch *)
      ((exists t : Z, Rabs (r_yaw (r) - p_yaw (nth (n - 1) K p0) - 2 * PI * IZR t) < t_goal_ang c) \/
       (exists i th s len, (1 <= i < n)%nat /\ Rabs th < t_goal_ang c /\ (s = 1 \/ (s = -1 /\ m_backward M = true)) /\ 0 < len /\
          fst (xy K i) - fst (xy K (i - 1)) = s * len * cos (r_yaw (r) - th) /\
          snd (xy K i) - snd (xy K (i - 1)) = s * len * sin (r_yaw (r) - th))).
  Proof.
    intros Hs Fx Ee Ru Hst Hg. cbv zeta. destruct (fine_run stp es Hs Fx) as (d0 & E0 & Fi). rewrite Ru in E0. injection E0 as <-.
    pose proof Fi as (F1 & F2 & F3 & F4). rewrite <- F2. intros Su.
    destruct (cycle_dec d e) as [(o & lin & ang & C)|NC].
    2: { exfalso. destruct e as [fr msg| | | |k0]; try (edestruct (step_other d _ NC I ltac:(cbn; auto)) as (s & os' & rs' & E & _ & _ & _ & _ & NG & _); rewrite Hst in E; injection E as _ -> _; contradiction).
         - cbn [TrackSense.hstep step] in Hst. injection Hst as _ <- _. destruct Hg.
         - cbn [TrackSense.hstep] in Hst. injection Hst as _ <- _. destruct Hg. }
    destruct (step_cycle d e o lin ang C d' os rs Hst) as (_ & _ & _ & _ & _ & _ & _ & A). apply A in Hg.
    pose proof (cycle_stands d e o lin ang C) as St.
    assert (NP : ~ new_path e) by (destruct C; cbn; auto).
    destruct o as [pl|].
    2: { exfalso. unfold track, tracking_result in Hg. cbn [sight] in Hg. destruct (_ || _)%bool in Hg; discriminate Hg. }
    exists (pl_robot pl). split; [exact St|].
    destruct (n_frame (d_node d)) eqn:Fr; [|unfold track, tracking_result in Hg; rewrite Fr in Hg; discriminate Hg].
    destruct (length (n_path (d_node d))) as [|size] eqn:El; [unfold track, tracking_result in Hg; rewrite El, Fr in Hg; discriminate Hg|].
    assert (Ne : d_path d <> []) by (destruct (d_path d); [discriminate F3|discriminate]).
    set (K := kept stp (d_path d)) in *. assert (Kn : (0 < length K)%nat) by (apply kept_some; exact Ne).
    destruct (C40_local_goals_exact K (m_backward M) true (1 / 1000000) 0 (length K) Kn ltac:(lia)) as (gs & Sl & _ & Gs).
    pose proof (ledger_run stp es Hs Fx Ee d gs Ru Ne Su Sl) as Le.
    destruct (ledger_first stp es d e pl lin ang gs Fi Ne Su Ee St Ru Fr NP Le) as (vis & rest & E & Bt & BA). fold K in Bt, BA.
    set (k := first d (Some pl) lin ang) in *. destruct (between_until K vis rest k Bt) as [L Nx].
    destruct (sight_says stp es d pl k Fi Ne L) as (z & i & _ & Ez & Sa). unfold track in Hg. rewrite Ez, El, Fr in Hg.
    destruct Su as (De & N3 & H1 & H2 & H3).
    pose proof (y_range _ _ _ _ _ _ _ _ _ Sa) as Rg. pose proof (y_goal _ _ _ _ _ _ _ _ _ Sa) as G. pose proof (y_size _ _ _ _ _ _ _ _ _ Sa) as Sz. fold K in Rg, G, Sz.
    destruct (until_spec M K k L) as [U _].
    (* what GOAL says about the measurement *)
    assert (X : z_local_goal z = length K /\ (z_in_place z = false -> Rabs (z_dist_remains z) < t_goal_dist c) /\
                (near_goal c z -> Rabs (z_goal_angle z) < t_goal_ang c) /\ (~ near_goal c z -> Rabs (z_angle z) < t_goal_ang c)).
    { symmetry in Hg. unfold tracking_result in Hg. cbn [negb orb Nat.eqb] in Hg. rewrite (y_near _ _ _ _ _ _ _ _ _ Sa) in Hg. cbv zeta in Hg.
      pose proof (near_goal_bool c z) as N. set (ng := (_ || _ || z_in_place z)%bool) in *.
      destruct (negb _ && _)%bool in Hg; [discriminate Hg|]. cbn [r_status] in Hg.
      match type of Hg with (if ?b then _ else _) = _ => destruct b eqn:B; [|discriminate Hg] end.
      repeat (apply andb_prop in B; destruct B as [B ?]).
      match goal with X : (z_local_goal z =? z_size z)%nat = true |- _ => apply Nat.eqb_eq in X; rewrite Sz in X; split; [exact X|] end.
      split.
      - intros Ip. apply absless_iff in B. rewrite Ip, orb_false_r in B.
        assert (R0 : Rlt_bool (z_path_length z) (t_stop_dist c) = false) by (rewrite (y_len _ _ _ _ _ _ _ _ _ Sa); fold K; apply Rlt_bool_false; lra).
        rewrite R0, andb_false_r in B. exact B.
      - match goal with X : absless (if (_ && ng)%bool then _ else _) _ = true |- _ => apply absless_iff in X; rename X into Y end.
        split; intros Ng.
        + apply N in Ng. rewrite Ng, orb_true_r in Y. exact Y.
        + destruct ng; [exfalso; apply Ng, N; reflexivity|]. rewrite andb_false_r in Y. exact Y. }
    destruct X as (X1 & X2 & X3 & X4). rewrite X1 in G.
    assert (Rest : rest = []).
    { destruct rest as [|g rest]; [reflexivity|]. exfalso. cbn [hd_error] in Nx. destruct (next_stop_spec M K k L) as [_ Y]. rewrite Nx in Y. unfold until in G. rewrite Nx in G. lia. }
    subst rest. rewrite app_nil_r in E. subst vis.
    assert (Vis : forall gs' g, stop_list M K gs' -> In g gs' -> (2 <= g)%nat -> been_at c M velocity stp (es ++ [e]) (xy K (g - 1))).
    { intros gs' g Sl' In' G2. unfold stop_list in Sl', Sl. rewrite Sl in Sl'. injection Sl' as <-. unfold been_all in BA. rewrite Forall_forall in BA. apply BA; assumption. }
    split; [exact Vis|]. split.
    - destruct (z_in_place z) eqn:Ip.
      + right. pose proof (proj1 (y_place _ _ _ _ _ _ _ _ _ Sa) Ip) as Pl. destruct (y_ahead _ _ _ _ _ _ _ _ _ Sa De Ee) as [Ah|[A1 A2]].
        * exfalso. destruct (until_spec M K k L) as [_ NS]. apply (NS i); [lia|]. left. split; [reflexivity|]. fold K in Pl. unfold xy in Pl. unfold turn_at, sq, pt. change (mkP2 0 0 0 None) with p0.
          injection Pl as E1 E2. rewrite E1, E2. lra.
        * subst i. fold K in Pl, A2. assert (Kk : k = (length K - 1)%nat) by lia.
          assert (Big : (3 <= length K)%nat).
          { destruct (le_lt_dec 3 (length K)) as [?|Sm]; [assumption|]. exfalso. assert (path_length K = 0); [|lra].
            assert (Cz : length K = 1%nat \/ length K = 2%nat) by lia. destruct K as [|p [|q [|? ?]]]; cbn [length] in Cz; try lia; [reflexivity|].
            cbn [path_length len_loop]. cbn [length] in Kk. rewrite Kk in Pl. unfold xy in Pl. cbn [nth Nat.sub] in Pl. injection Pl as E1 E2. unfold norm2, sq. rewrite E1, E2.
            match goal with |- context [sqrt ?x] => replace x with 0 by ring end. rewrite sqrt_0. lra. }
          rewrite Kk in Pl. replace (length K - 1 - 1)%nat with (length K - 2)%nat in Pl by lia. split; [exact Pl|]. rewrite <- Pl.
          replace (length K - 2)%nat with ((length K - 1) - 1)%nat by lia. apply (Vis gs); [exact Sl| |lia].
          apply Gs. split; [lia|]. left. split; [reflexivity|]. unfold xy in Pl. unfold turn_at, sq, pt. change (mkP2 0 0 0 None) with p0.
          replace (length K - 1 - 1)%nat with (length K - 2)%nat by lia. injection Pl as E1 E2. rewrite E1, E2. lra.
      + left. destruct (y_dist _ _ _ _ _ _ _ _ _ Sa Ip H2) as (I1 & q & Fq & _ & Q2 & _). exists i, q. specialize (X2 eq_refl). fold K in Fq, Q2.
        split; [fold K in Rg; lia|]. split; [exact Fq|]. lra.
    - destruct (Rlt_dec (Rabs (z_remain_local z)) (t_stop_dist c)) as [Nr|Nr]; [|destruct (z_in_place z) eqn:Ip].
      + left. assert (Ng : near_goal c z) by (right; left; exact Nr). specialize (X3 Ng). destruct (y_goal_yaw _ _ _ _ _ _ _ _ _ Sa) as [t Et]. fold K in Et. rewrite <- G in Et. exists t. rewrite <- Et. exact X3.
      + left. assert (Ng : near_goal c z) by (right; right; exact Ip). specialize (X3 Ng). destruct (y_goal_yaw _ _ _ _ _ _ _ _ _ Sa) as [t Et]. fold K in Et. rewrite <- G in Et. exists t. rewrite <- Et. exact X3.
      + right. assert (Ng : ~ near_goal c z). { intros [Y|[Y|Y]]; [rewrite (y_len _ _ _ _ _ _ _ _ _ Sa) in Y; fold K in Y; lra|contradiction|congruence]. }
        specialize (X4 Ng). destruct (y_dist _ _ _ _ _ _ _ _ _ Sa Ip H2) as (I1 & _). destruct (y_angle _ _ _ _ _ _ _ _ _ Sa Ip) as (s & len & Hsg & Hl & Ax & Ay).
        exists i, (z_angle z), s, len. fold K in Rg, Ax, Ay. repeat split; try assumption; lia.
  Qed.

  (** The reported distance is the length of the way along the path from the foot of the perpendicular to the end. *)
  Theorem C89_reported_distance_is_the_way_ahead stp es d e d' os rs st dist ang : (1 <= stp)%nat -> Forall fixed_step es -> 0 <= m_eps M ->
    hrun stp es = Ok d -> hstep d e = Ok (d', os, rs) -> In (st, dist, ang) rs -> st <> NO_PATH ->
    let K := kept stp (current_path es) in
    let n := length K in
    suitable c M K ->
    exists r i, stands e = Some r /\ (i < n)%nat /\
      ((xy K (i - 1) = xy K i /\ dist = 0) \/
       exists q, (1 <= i)%nat /\ foot (xy K (i - 1)) (xy K i) (will_be M d r) q /\ dist2 q (xy K (n - 1)) <= Rabs dist /\
         (on_strip K i q -> dist = dist2 q (xy K i) + travelled K i (n - 1 - i))).
  Proof.
    intros Hs Fx Ee Ru Hst Hr Hst'. cbv zeta. destruct (fine_run stp es Hs Fx) as (d0 & E0 & Fi). rewrite Ru in E0. injection E0 as <-.
    pose proof Fi as (F1 & F2 & F3 & F4). rewrite <- F2. intros Su.
    destruct (cycle_dec d e) as [(o & lin & an & C)|NC].
    2: { exfalso. destruct e as [fr msg| | | |k0]; try (edestruct (step_other d _ NC I ltac:(cbn; auto)) as (s & os' & rs' & E & _ & _ & _ & _ & _ & NG); rewrite Hst in E; injection E as _ _ ->; apply NG in Hr; congruence).
         - cbn [TrackSense.hstep step] in Hst. injection Hst as _ _ <-. destruct Hr.
         - cbn [TrackSense.hstep] in Hst. injection Hst as _ _ <-. destruct Hr. }
    destruct (step_cycle d e o lin an C d' os rs Hst) as (_ & _ & _ & _ & _ & _ & -> & _). destruct Hr as [Hr|[]]. unfold report_of in Hr.
    pose proof (cycle_stands d e o lin an C) as St. destruct o as [pl|].
    2: { exfalso. unfold track, tracking_result in Hr. cbn [sight] in Hr. destruct (_ || _)%bool in Hr; cbn in Hr; congruence. }
    destruct (n_frame (d_node d)) eqn:Fr; [|exfalso; unfold track, tracking_result in Hr; rewrite Fr in Hr; cbn in Hr; congruence].
    destruct (length (n_path (d_node d))) as [|size] eqn:El; [exfalso; unfold track, tracking_result in Hr; rewrite El, Fr in Hr; cbn in Hr; congruence|].
    assert (Ne : d_path d <> []) by (destruct (d_path d); [discriminate F3|discriminate]).
    assert (L : (first d (Some pl) lin an < length (kept stp (d_path d)))%nat).
    { unfold first. destruct (n_updated (d_node d)); [eapply done_bound; eauto|auto]. }
    set (k := first d (Some pl) lin an) in *.
    destruct (sight_says stp es d pl k Fi Ne L) as (z & i & _ & Ez & Sa). unfold track in Hr. rewrite Ez, El, Fr in Hr. destruct Su as (De & N3 & H1 & H2 & H3).
    destruct (until_spec M (kept stp (d_path d)) k L) as [U _]. pose proof (y_range _ _ _ _ _ _ _ _ _ Sa) as Rg.
    exists (pl_robot pl), i. split; [exact St|]. split; [lia|].
    assert (R0 : Rlt_bool (z_path_length z) (t_stop_dist c) = false) by (rewrite (y_len _ _ _ _ _ _ _ _ _ Sa); apply Rlt_bool_false; lra).
    unfold tracking_result in Hr. cbn [negb orb Nat.eqb] in Hr. rewrite (y_near _ _ _ _ _ _ _ _ _ Sa), R0 in Hr. cbv zeta in Hr. cbn [orb] in Hr.
    destruct (z_in_place z) eqn:Ip.
    - left. split; [apply (y_place _ _ _ _ _ _ _ _ _ Sa); exact Ip|]. rewrite !orb_true_r in Hr. cbn [negb andb r_status r_dist r_angle] in Hr. congruence.
    - right. destruct (y_dist _ _ _ _ _ _ _ _ _ Sa Ip H2) as (I1 & q & Fq & _ & Q2 & Q3). exists q. split; [exact I1|]. split; [exact Fq|].
      rewrite !andb_false_r in Hr. assert (D : z_dist_remains z = dist).
      { match type of Hr with context [if ?b then Tresult FAR_FROM_PATH _ _ _ _ _ _ else _] => destruct b end; cbn [r_status r_dist r_angle] in Hr; congruence. }
      rewrite <- D. split; [exact Q2|exact Q3].
  Qed.

  (** The poses kept are those whose index is a multiple of path_step. *)
  Lemma thin_nth stp l : (1 <= stp)%nat -> forall n i j, (length l <= i + n)%nat -> nth_error (thin stp n i l) j = nth_error l (i + j * stp).
  Proof.
    intros Hs. induction n as [|n IH]; intros i j Hn; cbn [thin].
    - rewrite (proj2 (nth_error_None l (i + j * stp))) by lia. destruct j; reflexivity.
    - destruct (nth_error l i) as [p|] eqn:E.
      + destruct j as [|j]; cbn [nth_error Nat.mul]; [rewrite Nat.add_0_r; auto|]. rewrite IH by lia. f_equal. lia.
      + apply nth_error_None in E. rewrite (proj2 (nth_error_None l (i + j * stp))) by lia. destruct j; reflexivity.
  Qed.
  Theorem C89_kept_poses stp l i : (1 <= stp)%nat -> nth_error (kept stp l) i = nth_error l (i * stp).
  Proof. intros H. unfold kept. rewrite thin_nth by lia. reflexivity. Qed.

  (** A path message with poses at most 1 m apart is suitable if path_step is 1 and epsilon at least 1 mm. *)
  Theorem C89_imported_paths_are_suitable msg : 1 / 1000 <= m_eps M -> let K := kept 1 (fromMsg (m_eps M) msg) in
    dense K -> t_min_track c <= path_length K -> m_no_pos M <= path_length K -> 0 < t_stop_dist c <= path_length K -> suitable c M K.
  Proof.
    intros He. cbv zeta. rewrite kept_all. set (K := fromMsg (m_eps M) msg). intros De H1 H2 H3. split; [exact De|]. split; [|auto].
    intros i Hi [T1 T2]. unfold turn_at, pt in T1, T2. change (mkP2 0 0 0 None) with p0 in *.
    replace (i + 1 - 1)%nat with i in T1 by lia. replace (i + 2 - 1)%nat with (i + 1)%nat in T2 by lia.
    assert (Sp : exists l1 l2, K = l1 ++ nth i K p0 :: nth (i + 1) K p0 :: nth (i + 2) K p0 :: l2).
    { exists (firstn i K), (skipn (i + 3) K). rewrite <- (firstn_skipn i K) at 1. f_equal.
      assert (Sk : forall j, (j < length K)%nat -> skipn j K = nth j K p0 :: skipn (S j) K).
      { clear. induction K as [|x l IH]; intros j Hj; [cbn in Hj; lia|]. destruct j; [reflexivity|]. cbn [skipn nth]. apply IH. cbn in Hj. lia. }
      rewrite (Sk i), (Sk (S i)), (Sk (S (S i))) by lia. replace (i + 1)%nat with (S i) by lia. replace (i + 2)%nat with (S (S i)) by lia. replace (i + 3)%nat with (S (S (S i))) by lia. reflexivity. }
    destruct Sp as (l1 & l2 & Sp). apply (C39_no_three_poses_at_one_place (m_eps M) msg l1 _ _ _ l2 Sp).
    assert (Sy : forall a b, sq a b = sq b a) by (intros; unfold sq; ring). unfold near. rewrite (Sy (nth i K p0) (nth (i + 1) K p0)), (Sy (nth (i + 1) K p0) (nth (i + 2) K p0)). split; nra.
  Qed.
End Proofs.

(** * Examples *)
(** Tolerances of 0.1 m for stops and 0.2 m for the goal; the path is lost at 0.5 m. *)
Definition ex_c : tcfg := Tcfg (1 / 10) (1 / 10) (1 / 4) (1 / 2) (1 / 5) (1 / 5) 0 0 false true true (fl 1 0) (fl 1 0) (fl 1 0).
Definition ex_M : mcfg := Mcfg 0 (1 / 1000) false 0 4.
Definition ex_vel : option R -> f32 := fun _ => B754_nan.
Definition ex_r : refs := Refs (fl 1 0) (fl 1 0) (fun _ => false) (fun v => v) (fun _ w => w) (fun w => w).
Definition P (x : R) : pose2 := mkP2 x 0 0 None.
Definition straight : list pose2 := [P (-1); P (- (1 / 2)); P 0].
Definition timer (r : rpose) : hev := HTimer (Some (Some r)) ex_r (fl 1 0).
Definition origin : rpose := Rpose 0 0 0.
(** The state after a path. *)
Definition given (stp : nat) (path : list pose2) : drive := Drive (Nst true (map (fun _ => B754_nan) path) true 0 s0 s0 0%Z) path stp.

Lemma no_bad (l : list pose2) : existsb bad_vel (map (fun p => ex_vel (p_vel p)) l) = false.
Proof. induction l; [reflexivity|exact IHl]. Qed.
Lemma after_path c M stp msg : hrun c M ex_vel stp [HPath true msg] = Ok (given stp (fromMsg (m_eps M) msg)).
Proof. unfold hrun. cbn [foldM hstep step]. rewrite !no_bad. reflexivity. Qed.
Lemma path_after M msg : current_path M ex_vel [HPath true msg] = fromMsg (m_eps M) msg.
Proof.
  unfold current_path. cbn [fold_left]. cbv zeta. assert (E : existsb (fun x => bad_vel (ex_vel (p_vel x))) (fromMsg (m_eps M) msg) = false) by (induction (fromMsg (m_eps M) msg); [reflexivity|assumption]).
  rewrite E. reflexivity.
Qed.

Lemma one_cycle c M d e pl lin ang z1 z2 stp es : (1 <= stp)%nat -> fixed_step e -> fine M ex_vel stp es d -> cycle d e (Some pl) lin ang -> n_frame (d_node d) = true ->
  look M d pl (n_done (d_node d)) = Ok z1 ->
  let tr k z := tracking_result c true (length (n_path (d_node d))) k lin ang (Some z) in
  let k := if n_updated (d_node d) then r_step_done (tr (n_done (d_node d)) z1) else n_done (d_node d) in
  look M d pl k = Ok z2 ->
  exists d' os, hstep c M ex_vel d e = Ok (d', os, [report_of (tr k z2)]) /\ In (OStatus (r_status (tr k z2))) os /\
    n_done (d_node d') = (if stopped (r_status (tr k z2)) then k else r_step_done (tr k z2)) /\ d_path d' = d_path d /\
    n_frame (d_node d') = true /\ n_path (d_node d') = n_path (d_node d) /\ n_updated (d_node d') = false.
Proof.
  intros Hs Fe Fi C Fr E1. cbv beta zeta. intros E2. destruct (fine_step c M ex_vel stp es d e Hs Fi Fe) as (d' & os & rs & E & _). exists d', os.
  destruct (step_cycle c M ex_vel d e (Some pl) lin ang C d' os rs E) as (A1 & A2 & A3 & A4 & A5 & A6 & A7 & A8).
  assert (T1 : track c M d (Some pl) lin ang (n_done (d_node d)) = tracking_result c true (length (n_path (d_node d))) (n_done (d_node d)) lin ang (Some z1)).
  { unfold track, sight. rewrite E1, Fr. reflexivity. }
  assert (F : first c M d (Some pl) lin ang = if n_updated (d_node d) then r_step_done (tracking_result c true (length (n_path (d_node d))) (n_done (d_node d)) lin ang (Some z1)) else n_done (d_node d)).
  { unfold first. rewrite T1. reflexivity. }
  rewrite <- F in E2 |- *. clear F. set (k := first c M d (Some pl) lin ang) in *.
  assert (T2 : track c M d (Some pl) lin ang k = tracking_result c true (length (n_path (d_node d))) k lin ang (Some z2)).
  { unfold track, sight. rewrite E2, Fr. reflexivity. }
  cbv zeta in A6. rewrite T2 in *. split; [rewrite E, A7; reflexivity|]. split; [apply A8; reflexivity|]. split; [exact A6|]. split; [exact A1|]. split; [congruence|]. auto.
Qed.

(** Computing measurements. *)
Lemma nrm_to v w : 0 <= w -> fst v * fst v + snd v * snd v = w * w -> nrm v = w.
Proof. intros H E. unfold nrm, dot. rewrite E. apply sqrt_square. exact H. Qed.
Lemma normalized_small a : - PI <= a < PI -> normalized a = a.
Proof.
  intros H. unfold normalized. pose proof PI_RGT_0 as P0. assert (E : Int_part ((a + PI) / (2 * PI)) = 0%Z).
  { set (x := (a + PI) / (2 * PI)). assert (X : 0 <= x < 1).
    { unfold x, Rdiv. split; [apply Rmult_le_pos; [lra|]; left; apply Rinv_0_lt_compat; lra|].
      apply Rmult_lt_reg_r with (2 * PI); [lra|]. rewrite Rmult_assoc, Rinv_l by lra. lra. }
    destruct (base_Int_part x) as [B1 B2]. assert (L1 : (Int_part x < 1)%Z) by (apply lt_IZR; lra). assert (L2 : (-1 < Int_part x)%Z) by (apply lt_IZR; lra). lia. }
  rewrite E. ring.
Qed.
Lemma atan2_right x y : 0 < x -> y = 0 -> atan2 y x = 0.
Proof. intros H ->. unfold atan2. destruct (Rlt_dec 0 x); [|lra]. unfold Rdiv. rewrite Rmult_0_l. apply atan_0. Qed.
Lemma atan2_none x y : x = 0 -> y = 0 -> atan2 y x = 0.
Proof. intros -> ->. unfold atan2. destruct (Rlt_dec 0 0); [lra|reflexivity]. Qed.
Lemma atan2_up x y : x = 0 -> 0 < y -> atan2 y x = PI / 2.
Proof. intros -> H. unfold atan2. destruct (Rlt_dec 0 0); [lra|]. destruct (Rlt_dec 0 y); [reflexivity|lra]. Qed.
Lemma ahead_none M v w : m_look M = 0 -> ahead M v w = (0, 0).
Proof. intros E. unfold ahead. rewrite E. rewrite !Rmult_0_r. reflexivity. Qed.
Lemma kept_1 l : kept 1 l = l.
Proof. apply kept_all. Qed.
Lemma seen_zero x y p : seen (Rpose x y 0) p = mkP2 (p_x p - x) (p_y p - y) (p_yaw p) (p_vel p).
Proof. unfold seen. cbn [r_x r_y r_yaw]. rewrite cos_0, sin_0. destruct p as [px py pw pv]. cbn [p_x p_y p_yaw p_vel]. f_equal; ring. Qed.

Ltac plain := cbv [sq P p_x p_y p_yaw fst snd pos vsub dot] in *.
Ltac num := exfalso; plain; first [lra | unfold Rabs in *; repeat destruct Rcase_abs; lra].
Ltac nrms := repeat match goal with |- context [nrm ?v] =>
  first [ rewrite (nrm_to v 0) by (plain; lra) | rewrite (nrm_to v (fst v)) by (plain; lra) | rewrite (nrm_to v (- fst v)) by (plain; lra)
        | rewrite (nrm_to v (snd v)) by (plain; lra) | rewrite (nrm_to v (- snd v)) by (plain; lra)
        | rewrite (nrm_to v (5 / 4)) by (plain; lra) ] end.
Ltac decide1 := match goal with
  | |- context [Rlt_dec ?a ?b] => destruct (Rlt_dec a b); [try num|try num]
  | |- context [Rle_dec ?a ?b] => destruct (Rle_dec a b); [try num|try num]
  end.

Lemma straight_msg : fromMsg (m_eps ex_M) straight = straight.
Proof.
  unfold straight, fromMsg. cbn [fold_left fm_step rev app m_eps ex_M P sq p_x p_y]. repeat (decide1; cbn [fold_left fm_step rev app m_eps ex_M]). reflexivity.
Qed.
Lemma measure_is M path step pl v w done lp o g lg i di a b la rl dr drr :
  map (seen (pl_robot pl)) (kept step path) = lp -> ahead M v w = o ->
  findLocalGoal lp (m_backward M) true (1 / 1000000) done (length lp) = Ok g -> match g with Some k => k | None => length lp end = lg ->
  findNearestWithDistance lp done lg o (if Nat.ltb 0 done then 1 else 0) (m_eps M) = Ok (i, di) -> i <> length lp ->
  at_ lp (i - 1) = Ok a -> at_ lp i = Ok b -> at_ lp (lg - 1) = Ok la ->
  remainedDistance lp 0 i lg (projection2d (pos a) (pos b) o) = Ok rl ->
  remainedDistance lp 0 i (length lp) (projection2d (pos a) (pos b) o) = Ok dr ->
  remainedDistance lp 0 i (length lp) (projection2d (pos a) (pos b) (pl_off pl)) = Ok drr ->
  m_no_pos M <= path_length lp -> PI <= Rabs (m_rotate M) ->
  forall ang gang turn, (turn = true <-> pos a = pos b) ->
  (let dir := atan2 (p_y b - p_y a) (p_x b - p_x a) in
   normalized (if Rlt_dec (cos dir * cos (if m_backward M then p_yaw b else dir) + sin dir * sin (if m_backward M then p_yaw b else dir)) 0 then - dir + PI else - dir) = ang) ->
  normalized (- p_yaw la) = gang ->
  measure M path step pl v w done = Ok (Sensed (length lp) (Some i) lg (path_length lp) (if turn then 0 else rl) (if turn then 0 else dr) (if turn then 0 else drr)
    (if turn then 0 else lineDistance (pos a) (pos b) o) (nrm (vsub (pos b) o)) ang gang (pl_off_yaw pl) false turn).
Proof.
  intros E1 E2 E3 E4 E5 N E6 E7 E8 E9 E10 E11 Hp Hr ang gang turn Ht Ha Hg. unfold measure. rewrite E1, E2. cbv zeta. rewrite E3. cbn [bind]. rewrite E4, E5. cbn [bind fst].
  rewrite (proj2 (Nat.eqb_neq _ _) N), E6. cbn [bind]. rewrite E7. cbn [bind]. rewrite E8. cbn [bind]. rewrite E9. cbn [bind]. rewrite E10. cbn [bind]. rewrite E11. cbn [bind].
  assert (T : (if Req_EM_T (snd (vsub (pos b) (pos a))) 0 then if Req_EM_T (fst (vsub (pos b) (pos a))) 0 then true else false else false) = turn).
  { unfold vsub, pos. cbn [fst snd]. unfold pos in Ht. destruct (Req_EM_T (p_y b - p_y a) 0) as [Y|Y]; [destruct (Req_EM_T (p_x b - p_x a) 0) as [X|X]|].
    - symmetry. apply Ht. f_equal; lra.
    - destruct turn; [|reflexivity]. exfalso. apply X. pose proof (proj1 Ht eq_refl) as Z. injection Z. lra.
    - destruct turn; [|reflexivity]. exfalso. apply Y. pose proof (proj1 Ht eq_refl) as Z. injection Z. lra. }
  rewrite T. destruct (Rlt_dec (path_length lp) (m_no_pos M)); [lra|]. rewrite !orb_false_r.
  destruct (Rlt_dec (Rabs (m_rotate M)) PI); [lra|]. unfold vsub at 2 3 4 5. cbn [fst snd]. unfold pos at 5 6. cbn [fst snd].
  cbv zeta in Ha. cbn [vsub fst snd pos] in *. rewrite Ha, Hg. reflexivity.
Qed.
Lemma ex_rotate : PI <= Rabs (m_rotate ex_M).
Proof. cbn [m_rotate ex_M]. rewrite Rabs_pos_eq by lra. apply PI_4. Qed.
(** The angle to a strip straight ahead, or of no length. *)
Lemma angle_ahead x y : 0 <= x -> y = 0 ->
  let dir := atan2 y x in
  forall yaw, normalized (if Rlt_dec (cos dir * cos (if m_backward ex_M then yaw else dir) + sin dir * sin (if m_backward ex_M then yaw else dir)) 0 then - dir + PI else - dir) = 0.
Proof.
  intros Hx Hy. cbv zeta. intros yaw. cbn [m_backward ex_M]. assert (E : atan2 y x = 0).
  { destruct (Req_dec x 0) as [->|N]; [apply atan2_none; auto|apply atan2_right; lra]. }
  rewrite E, cos_0, sin_0. destruct (Rlt_dec (1 * 1 + 0 * 0) 0); [lra|]. rewrite Ropp_0. apply normalized_small. pose proof PI_RGT_0. lra.
Qed.
Lemma normalized_zero : normalized (- 0) = 0.
Proof. rewrite Ropp_0. apply normalized_small. pose proof PI_RGT_0. lra. Qed.

Lemma strip_past a b c : 0 < dot (vsub b a) (vsub c a) -> dot (vsub a b) (vsub c b) <= 0 -> lineStripDistanceSigned a b c = nrm (vsub c b).
Proof. intros H1 H2. unfold lineStripDistanceSigned. destruct (Rle_dec (dot (vsub b a) (vsub c a)) 0); [lra|]. destruct (Rle_dec (dot (vsub a b) (vsub c b)) 0); [reflexivity|lra]. Qed.
Lemma strip_before a b c : dot (vsub b a) (vsub c a) <= 0 -> lineStripDistanceSigned a b c = - nrm (vsub c a).
Proof. intros H1. unfold lineStripDistanceSigned. destruct (Rle_dec (dot (vsub b a) (vsub c a)) 0); [reflexivity|lra]. Qed.
Lemma strip_on a b c : 0 < dot (vsub b a) (vsub c a) -> 0 < dot (vsub a b) (vsub c b) -> cross2 (vsub b a) (vsub c a) = 0 -> lineStripDistanceSigned a b c = 0.
Proof.
  intros H1 H2 H3. unfold lineStripDistanceSigned. destruct (Rle_dec (dot (vsub b a) (vsub c a)) 0); [lra|]. destruct (Rle_dec (dot (vsub a b) (vsub c b)) 0); [lra|].
  unfold lineDistance. rewrite H3. unfold Rdiv. rewrite Rmult_0_l. apply Rabs_R0.
Qed.
Lemma projection_level x1 x2 y px py : x1 <> x2 -> projection2d (x1, y) (x2, y) (px, py) = (px, y).
Proof. intros H. unfold projection2d, dot, vsub. cbn [fst snd]. f_equal; field; intros E; apply H; nra. Qed.
Lemma projection_upright x y1 y2 px py : y1 <> y2 -> projection2d (x, y1) (x, y2) (px, py) = (x, py).
Proof. intros H. unfold projection2d, dot, vsub. cbn [fst snd]. f_equal; field; intros E; apply H; nra. Qed.
Lemma projection_none x y p : projection2d (x, y) (x, y) p = (x, y).
Proof. unfold projection2d. cbn [fst snd]. f_equal; ring. Qed.
Ltac strips := repeat match goal with |- context [lineStripDistanceSigned ?a ?b ?c] =>
  first [rewrite (strip_before a b c) by (plain; lra) | rewrite (strip_past a b c) by (plain; lra) | rewrite (strip_on a b c) by (cbv [cross2]; plain; lra)] end.
Ltac feet := cbv [P pos p_x p_y]; rewrite ?projection_none, ?projection_level, ?projection_upright by lra.
Ltac rows := cbn [length Nat.leb Nat.eqb Nat.sub Nat.ltb Nat.add flg_loop fn_loop rd_loop at_ nth_error bind fst snd].
Ltac walk := unfold findLocalGoal, findNearestWithDistance, remainedDistance; cbn [m_eps m_backward ex_M]; rows;
  repeat (first [progress strips | progress nrms | decide1]; rows).
Ltac seeing := rewrite ?kept_1; cbn [map]; rewrite ?seen_zero; cbv [P p_x p_y p_yaw p_vel]; repeat (apply f_equal2; [f_equal; lra|]); reflexivity.
Ltac turns := split; intros T_; [discriminate T_ || (cbv [pos P p_x p_y]; f_equal; lra)|try reflexivity; exfalso; cbv [pos P p_x p_y] in T_; injection T_; intros; lra].
Ltac measured LP I G LG RL DR DRR T :=
  eapply measure_is with (lp := LP) (i := I) (g := G) (lg := LG) (rl := RL) (dr := DR) (drr := DRR) (turn := T) (ang := 0) (gang := 0); cbn [pl_robot at_rest pl_off];
  [seeing|apply ahead_none; reflexivity|walk; reflexivity|reflexivity|walk; reflexivity|cbn; lia|reflexivity|reflexivity|reflexivity
  |feet; walk; plain; f_equal; lra|feet; walk; plain; f_equal; lra|feet; walk; plain; f_equal; lra
  |unfold path_length, len_loop, norm2; cbn [m_no_pos ex_M]; apply Rplus_le_le_0_compat; [apply sqrt_pos|]; repeat apply Rplus_le_le_0_compat; try apply sqrt_pos; lra
  |exact ex_rotate|turns|apply angle_ahead; plain; lra|cbv [P p_yaw]; apply normalized_zero].

Lemma norm2_nrm a b : norm2 a b = nrm (vsub (pos a) (pos b)).
Proof. reflexivity. Qed.
Ltac plen := unfold path_length, len_loop; rewrite !norm2_nrm; nrms; plain; lra.
Ltac values := cbn [length]; match goal with |- Ok (Sensed _ _ _ ?l _ _ _ _ _ _ _ _ _ _) = Ok (Sensed _ _ _ ?m _ _ _ _ _ _ _ _ _ _) => replace l with m by (symmetry; plen) end; reflexivity.
(** Standing at the end of the path. *)
Lemma m_straight_0 : exists a b, measure ex_M straight 1 (at_rest origin) 0 0 0 = Ok (Sensed 3 (Some 2%nat) 3 1 0 0 0 a b 0 0 0 false false).
Proof.
  unfold straight, origin. do 2 eexists. etransitivity; [measured [P (-1); P (- (1 / 2)); P 0] 2%nat (@None nat) 3%nat 0 0 0 false|values].
Qed.
Lemma m_straight_1 : exists a b, measure ex_M straight 1 (at_rest origin) 0 0 1 = Ok (Sensed 3 (Some 2%nat) 3 1 0 0 0 a b 0 0 0 false false).
Proof.
  unfold straight, origin. do 2 eexists. etransitivity; [measured [P (-1); P (- (1 / 2)); P 0] 2%nat (@None nat) 3%nat 0 0 0 false|values].
Qed.
(** Poses 2 m apart: the search stops before the last strip. *)
Definition sparse : list pose2 := [P (-4); P (-2); P 0].
Lemma m_sparse_0 : exists a b, measure ex_M sparse 1 (at_rest origin) 0 0 0 = Ok (Sensed 3 (Some 2%nat) 3 4 0 0 0 a b 0 0 0 false false).
Proof.
  unfold sparse, origin. do 2 eexists. etransitivity; [measured [P (-4); P (-2); P 0] 2%nat (@None nat) 3%nat 0 0 0 false|values].
Qed.
Lemma m_sparse_1 : exists a b, measure ex_M sparse 1 (at_rest origin) 0 0 1 = Ok (Sensed 3 (Some 1%nat) 3 4 4 4 4 a b 0 0 0 false false) /\ a = 0.
Proof.
  unfold sparse, origin. do 2 eexists. split; [etransitivity; [measured [P (-4); P (-2); P 0] 1%nat (@None nat) 3%nat 4 4 4 false|values]|].
  cbv [lineDistance cross2]. plain. unfold Rdiv. match goal with |- ?x * _ = 0 => replace x with 0 by ring end. apply Rmult_0_l.
Qed.
(** A pose given twice in the middle of a path with poses 2 m apart. *)
Definition doubled : list pose2 := [P (-2); P 0; P 0; P 2].
Lemma m_doubled_0 : exists a b, measure ex_M doubled 1 (at_rest origin) 0 0 0 = Ok (Sensed 4 (Some 1%nat) 2 4 0 2 2 a b 0 0 0 false false).
Proof.
  unfold doubled, origin. do 2 eexists. etransitivity; [measured [P (-2); P 0; P 0; P 2] 1%nat (Some 2%nat) 2%nat 0 2 2 false|values].
Qed.
Lemma m_doubled_2 : exists a b, measure ex_M doubled 1 (at_rest origin) 0 0 2 = Ok (Sensed 4 (Some 2%nat) 4 4 0 0 0 a b 0 0 0 false true).
Proof.
  unfold doubled, origin. do 2 eexists. etransitivity; [measured [P (-2); P 0; P 0; P 2] 2%nat (@None nat) 4%nat 2 2 2 true|values].
Qed.
(** Beside the end of a path of 0.75 m. *)
Definition short : list pose2 := [P (- (3 / 4)); P 0].
Lemma m_short : exists a b, measure ex_M short 1 (at_rest (Rpose 0 1 0)) 0 0 0 = Ok (Sensed 2 (Some 1%nat) 2 (3 / 4) 0 0 0 a b 0 0 0 false false).
Proof.
  unfold short. do 2 eexists. etransitivity; [measured [mkP2 (- (3 / 4)) (-1) 0 None; mkP2 0 (-1) 0 None] 1%nat (@None nat) 2%nat 0 0 0 false|values].
Qed.
(** A path of two poses of which every second is taken. *)
Definition pair : list pose2 := [P 0; P 1].
Lemma m_pair : exists a b, measure ex_M pair 2 (at_rest origin) 0 0 0 = Ok (Sensed 1 (Some 0%nat) 1 0 0 0 0 a b 0 0 0 false true).
Proof.
  unfold pair, origin. do 2 eexists. etransitivity.
  - eapply measure_is with (lp := [P 0]) (i := 0%nat) (g := None) (lg := 1%nat) (rl := 0) (dr := 0) (drr := 0) (turn := true) (ang := 0) (gang := 0); cbn [pl_robot at_rest pl_off].
    + cbn [kept thin length nth_error Nat.add]. seeing.
    + apply ahead_none; reflexivity.
    + walk; reflexivity.
    + reflexivity.
    + walk; reflexivity.
    + cbn. lia.
    + reflexivity.
    + reflexivity.
    + reflexivity.
    + feet; walk; plain; f_equal; lra.
    + feet; walk; plain; f_equal; lra.
    + feet; walk; plain; f_equal; lra.
    + cbn. lra.
    + exact ex_rotate.
    + turns.
    + apply angle_ahead; plain; lra.
    + cbv [P p_yaw]; apply normalized_zero.
  - reflexivity.
Qed.
(** Odometry 0.35 m before the end, 0.1 s old, at 2.5 m/s. *)
Definition late : place := Place (Rpose (- (1 / 10)) 0 0) (1 / 4, 0) 0.
Lemma late_is : extrapolated (Rpose (- (7 / 20)) 0 0) (5 / 2) 0 (1 / 10) = late.
Proof. unfold extrapolated, late. cbn [r_x r_y r_yaw]. rewrite cos_0, sin_0. f_equal; [f_equal|f_equal|]; lra. Qed.
Lemma m_late k : (k <= 1)%nat -> exists a, measure ex_M straight 1 late 0 0 k = Ok (Sensed 3 (Some 2%nat) 3 1 (1 / 10) (1 / 10) (- (3 / 20)) a (1 / 10) 0 0 0 false false).
Proof.
  intros H. assert (K : k = 0%nat \/ k = 1%nat) by lia. unfold straight, late. destruct K as [-> | ->]; eexists.
  - etransitivity; [measured [P (- (9 / 10)); P (- (4 / 10)); P (1 / 10)] 2%nat (@None nat) 3%nat (1 / 10) (1 / 10) (- (3 / 20)) false|].
    nrms. cbn [length pl_off_yaw]. replace (path_length _) with 1 by (symmetry; plen). replace (fst (vsub (pos (P (1 / 10))) (0, 0))) with (1 / 10) by (plain; lra). reflexivity.
  - etransitivity; [measured [P (- (9 / 10)); P (- (4 / 10)); P (1 / 10)] 2%nat (@None nat) 3%nat (1 / 10) (1 / 10) (- (3 / 20)) false|].
    nrms. cbn [length pl_off_yaw]. replace (path_length _) with 1 by (symmetry; plen). replace (fst (vsub (pos (P (1 / 10))) (0, 0))) with (1 / 10) by (plain; lra). reflexivity.
Qed.

(** The decisions taken from them. *)
Ltac deciding' := unfold tracking_result, absless, vel_ok; cbn -[Rlt_bool Req_bool Rabs Nat.max Nat.sub]; cmp;
  cbn -[Rlt_bool Req_bool Rabs Nat.max Nat.sub]; cmp.
Lemma t_end a b k : tracking_result ex_c true 3 k 0 0 (Some (Sensed 3 (Some 2%nat) 3 1 0 0 0 a b 0 0 0 false false)) = Tresult GOAL 0 0 0 0 true (Nat.max k 1).
Proof. deciding'. reflexivity. Qed.
Lemma t_sparse_0 a b : tracking_result ex_c true 3 0 0 0 (Some (Sensed 3 (Some 2%nat) 3 4 0 0 0 a b 0 0 0 false false)) = Tresult GOAL 0 0 0 0 true 1.
Proof. deciding'. reflexivity. Qed.
Lemma t_sparse_1 b : tracking_result ex_c true 3 1 0 0 (Some (Sensed 3 (Some 1%nat) 3 4 4 4 4 0 b 0 0 0 false false)) = Tresult FOLLOWING 4 0 4 (0 + 0) false 1.
Proof. deciding'. reflexivity. Qed.
Lemma t_doubled_0 a b : tracking_result ex_c true 4 0 0 0 (Some (Sensed 4 (Some 1%nat) 2 4 0 2 2 a b 0 0 0 false false)) = Tresult FOLLOWING 2 0 2 0 true 2.
Proof. deciding'. reflexivity. Qed.
Lemma t_doubled_2 a b : tracking_result ex_c true 4 2 0 0 (Some (Sensed 4 (Some 2%nat) 4 4 0 0 0 a b 0 0 0 false true)) = Tresult GOAL 0 0 0 0 true 2.
Proof. deciding'. reflexivity. Qed.
Lemma t_short a b : tracking_result ex_c true 2 0 0 0 (Some (Sensed 2 (Some 1%nat) 2 (3 / 4) 0 0 0 a b 0 0 0 false false)) = Tresult GOAL 0 0 0 0 true 0.
Proof. deciding'. reflexivity. Qed.
Lemma t_pair a b : tracking_result ex_c true 2 0 0 0 (Some (Sensed 1 (Some 0%nat) 1 0 0 0 0 a b 0 0 0 false true)) = Tresult GOAL 0 0 0 0 true 0.
Proof. deciding'. reflexivity. Qed.
Lemma t_late a k : tracking_result ex_c true 3 k (5 / 2) 0 (Some (Sensed 3 (Some 2%nat) 3 1 (1 / 10) (1 / 10) (- (3 / 20)) a (1 / 10) 0 0 0 false false)) =
  Tresult GOAL (1 / 10) 0 (- (3 / 20)) (0 + 0) false (Nat.max k 1).
Proof. deciding'. reflexivity. Qed.

(** One timer cycle after a path. *)
Lemma first_cycle c M stp msg r z1 z2 : (1 <= stp)%nat -> let path := fromMsg (m_eps M) msg in
  measure M path stp (at_rest r) 0 0 0 = Ok z1 ->
  let tr k z := tracking_result c true (length path) k 0 0 (Some z) in
  let k := r_step_done (tr 0%nat z1) in
  measure M path stp (at_rest r) 0 0 k = Ok z2 ->
  exists d' os, hstep c M ex_vel (given stp path) (timer r) = Ok (d', os, [report_of (tr k z2)]) /\ In (OStatus (r_status (tr k z2))) os /\
    n_done (d_node d') = (if stopped (r_status (tr k z2)) then k else r_step_done (tr k z2)) /\ d_path d' = path /\
    n_frame (d_node d') = true /\ length (n_path (d_node d')) = length path /\ n_updated (d_node d') = false.
Proof.
  intros Hs. cbv beta zeta. intros E1 E2. set (path := fromMsg (m_eps M) msg) in *.
  assert (Fx : Forall fixed_step [HPath true msg]) by (repeat constructor).
  destruct (fine_run c M ex_vel stp _ Hs Fx) as (d & Ed & Fi). rewrite after_path in Ed. fold path in Ed. injection Ed as <-.
  assert (Cy : cycle (given stp path) (timer r) (Some (at_rest r)) 0 0) by exact (cy_timer (given stp path) (Some r) ex_r (fl 1 0)).
  pose proof (one_cycle c M (given stp path) (timer r) (at_rest r) 0 0 z1 z2 stp _ Hs I Fi Cy eq_refl E1) as O. cbv beta zeta in O.
  cbn [given d_node n_path n_done n_updated] in O. rewrite map_length in O. specialize (O E2). destruct O as (d' & os & A1 & A2 & A3 & A4 & A5 & A6 & A7).
  exists d', os. split; [exact A1|]. split; [exact A2|]. split; [exact A3|]. split; [exact A4|]. split; [exact A5|]. split; [|exact A7].
  rewrite A6. apply map_length.
Qed.
Lemma will_be_here d r : will_be ex_M d r = (r_x r, r_y r).
Proof. unfold will_be. cbn [m_look ex_M]. cbv zeta. rewrite !Rmult_0_r, !Rmult_0_l, !Rplus_0_r. reflexivity. Qed.
Ltac same_path := unfold straight, sparse, doubled, short, pair, fromMsg; cbn [fold_left fm_step rev app m_eps ex_M]; repeat (decide1; cbn [fold_left fm_step rev app m_eps ex_M]); reflexivity.
Lemma sparse_msg : fromMsg (m_eps ex_M) sparse = sparse.
Proof. same_path. Qed.
Lemma doubled_msg : fromMsg (m_eps ex_M) doubled = doubled.
Proof. same_path. Qed.
Lemma short_msg : fromMsg (m_eps ex_M) short = short.
Proof. same_path. Qed.
Lemma pair_msg : fromMsg (m_eps ex_M) pair = pair.
Proof. same_path. Qed.

Lemma goal_straight : exists d' os, hstep ex_c ex_M ex_vel (given 1 straight) (timer origin) = Ok (d', os, [(GOAL, 0, 0)]) /\ In (OStatus GOAL) os /\
  n_done (d_node d') = 1%nat /\ d_path d' = straight /\ n_frame (d_node d') = true /\ length (n_path (d_node d')) = 3%nat.
Proof.
  destruct m_straight_0 as (a & b & E1), m_straight_1 as (a' & b' & E2). pose proof (first_cycle ex_c ex_M 1 straight origin) as F. rewrite straight_msg in F. cbv beta zeta in F.
  specialize (F _ (Sensed 3 (Some 2%nat) 3 1 0 0 0 a' b' 0 0 0 false false) (le_n 1) E1). cbn [length straight] in F. rewrite t_end in F. cbn [r_step_done Nat.max] in F. fold straight in F.
  specialize (F E2). rewrite t_end in F. destruct F as (d' & os & A1 & A2 & A3 & A4 & A5 & A6 & _). exists d', os. repeat split; assumption.
Qed.
Lemma dist2_level x1 x2 : dist2 (x1, 0) (x2, 0) = Rabs (x1 - x2).
Proof. unfold dist2. cbn [fst snd]. replace (Rsqr (x1 - x2) + Rsqr (0 - 0)) with (Rsqr (x1 - x2)) by (unfold Rsqr; ring). apply sqrt_Rsqr_abs. Qed.
Ltac absolute := unfold Rabs; repeat destruct Rcase_abs; lra.

(** The hypotheses of the theorems are met: a path of 1 m, with the robot at its end. *)
Example straight_suitable : suitable ex_c ex_M (kept 1 straight).
Proof.
  rewrite kept_1. split; [|split].
  - intros i Hi. cbn [length straight] in Hi. assert (K : i = 0%nat \/ i = 1%nat) by lia. destruct K as [-> | ->]; unfold straight, xy, P; cbn [nth p_x p_y]; rewrite dist2_level; absolute.
  - intros i Hi [T _]. cbn [length straight] in Hi. assert (i = 0%nat) by lia. subst i. unfold turn_at, pt, straight in T. cbn [nth Nat.add Nat.sub] in T. plain. lra.
  - assert (L : path_length straight = 1) by (unfold straight; plen). rewrite L. cbn [ex_c ex_M t_min_track m_no_pos t_stop_dist]. lra.
Qed.
Example C89_goal_example : exists d d' os, (1 <= 1)%nat /\ Forall fixed_step [HPath true straight] /\ 0 <= m_eps ex_M /\
  hrun ex_c ex_M ex_vel 1 [HPath true straight] = Ok d /\ hstep ex_c ex_M ex_vel d (timer origin) = Ok (d', os, [(GOAL, 0, 0)]) /\ In (OStatus GOAL) os /\
  suitable ex_c ex_M (kept 1 (current_path ex_M ex_vel [HPath true straight])).
Proof.
  destruct goal_straight as (d' & os & A1 & A2 & _). exists (given 1 straight), d', os. split; [lia|]. split; [repeat constructor|]. split; [cbn; lra|].
  split; [rewrite after_path, straight_msg; reflexivity|]. split; [exact A1|]. split; [exact A2|]. rewrite path_after, straight_msg. exact straight_suitable.
Qed.

(** A path of 1 m with a turn in the middle: one stop, which has to be visited. *)
Example C89_stop_example : let K := [P (-1); P (- (1 / 2)); mkP2 (- (1 / 2)) 0 1 None; mkP2 0 0 1 None] in
  stop_list ex_M K [2%nat] /\ suitable ex_c ex_M K.
Proof.
  cbv zeta. split.
  - unfold stop_list, enumerateLocalGoals. cbn [length Nat.sub elg_loop m_backward ex_M]. walk. reflexivity.
  - split; [|split].
    + intros i Hi. cbn [length] in Hi. assert (K : i = 0%nat \/ i = 1%nat \/ i = 2%nat) by lia. destruct K as [-> |[-> | ->]]; unfold xy, P; cbn [nth p_x p_y]; rewrite dist2_level; absolute.
    + intros i Hi [T1 T2]. cbn [length] in Hi. assert (K : i = 0%nat \/ i = 1%nat) by lia. unfold turn_at, pt in *. destruct K as [-> | ->]; cbn [nth Nat.add Nat.sub] in *; plain; lra.
    + assert (L : path_length [P (-1); P (- (1 / 2)); mkP2 (- (1 / 2)) 0 1 None; mkP2 0 0 1 None] = 1) by plen. rewrite L. cbn [ex_c ex_M t_min_track m_no_pos t_stop_dist]. lra.
Qed.

(** * What does not hold *)
(** After a change of path_step the number of finished steps may lie beyond the path. *)
Theorem C89_reads_only_the_path_after_reconfiguration_refuted :
  ~ (forall c M velocity stp es, (1 <= stp)%nat -> Forall (fun e => match e with HStep k => (1 <= k)%nat | _ => True end) es -> exists d, hrun c M velocity stp es = Ok d).
Proof.
  intros H. destruct (H ex_c ex_M ex_vel 1%nat [HPath true straight; timer origin; HStep 100; timer origin] (le_n 1)) as (d & E); [repeat constructor; lia|].
  change [HPath true straight; timer origin; HStep 100; timer origin] with ((([HPath true straight] ++ [timer origin]) ++ [HStep 100]) ++ [timer origin]) in E.
  rewrite !hrun_snoc, after_path, straight_msg in E. cbn [bind] in E. destruct goal_straight as (d' & os & A1 & _ & A3 & A4 & A5 & A6). rewrite A1 in E. cbn [bind fst hstep] in E.
  match type of E with bind (hstep _ _ _ ?x _) _ = _ => set (d2 := x) in E end.
  unfold hstep, timer in E. cbv zeta in E. destruct (step _ _ _) in E.
  assert (U : result ex_c ex_M d2 (option_map at_rest (Some origin)) 0 0 = UB).
  { unfold result. cbv zeta. cbn [option_map d2 d_node]. rewrite A5, A6, A3. cbn [negb orb Nat.eqb]. unfold look, measure, d2. cbn [d_path d_step d_node]. rewrite A4. cbn [kept thin length straight nth_error Nat.add map]. cbv zeta.
    cbn [length findLocalGoal Nat.leb bind]. reflexivity. }
  rewrite U in E. discriminate E.
Qed.

(** With poses more than 1 m apart the goal can be missed: at the last pose, with its heading, the robot is told that 4 m are left. *)
Theorem C89_standing_at_the_end_is_the_goal_refuted :
  ~ (forall c M velocity msg r d f dt d' os rs, hrun c M velocity 1 [HPath true msg] = Ok d -> hstep c M velocity d (HTimer (Some (Some r)) f dt) = Ok (d', os, rs) ->
     let K := current_path M velocity [HPath true msg] in
     K <> [] -> xy K (length K - 1) = (r_x r, r_y r) -> p_yaw (nth (length K - 1) K p0) = r_yaw r ->
     0 < t_stop_dist c -> 0 < t_stop_ang c -> 0 < t_goal_dist c -> 0 < t_goal_ang c -> In (OStatus GOAL) os).
Proof.
  intros H. destruct m_sparse_0 as (a & b & E1), m_sparse_1 as (a' & b' & E2 & ->). pose proof (first_cycle ex_c ex_M 1 sparse origin) as F. rewrite sparse_msg in F. cbv beta zeta in F.
  specialize (F _ (Sensed 3 (Some 1%nat) 3 4 4 4 4 0 b' 0 0 0 false false) (le_n 1) E1). cbn [length sparse] in F. rewrite t_sparse_0 in F. cbn [r_step_done] in F. fold sparse in F.
  specialize (F E2). rewrite t_sparse_1 in F. destruct F as (d' & os & A1 & _). cbn [report_of r_status r_dist r_angle] in A1.
  assert (R := after_path ex_c ex_M 1 sparse). rewrite sparse_msg in R.
  specialize (H _ _ _ _ _ _ _ _ _ _ _ R A1). rewrite path_after, sparse_msg in H. cbv zeta in H. specialize (H ltac:(discriminate) eq_refl eq_refl).
  cbn [ex_c t_stop_dist t_stop_ang t_goal_dist t_goal_ang] in H. specialize (H ltac:(lra) ltac:(lra) ltac:(lra) ltac:(lra)).
  assert (Cy : cycle (given 1 sparse) (timer origin) (Some (at_rest origin)) 0 0) by exact (cy_timer (given 1 sparse) (Some origin) ex_r (fl 1 0)).
  destruct (step_cycle ex_c ex_M ex_vel _ _ _ _ _ Cy _ _ _ A1) as (_ & _ & _ & _ & _ & _ & A7 & A8). apply A8 in H. injection A7 as A7 _ _. congruence.
Qed.

(** With poses more than 1 m apart GOAL may be reported 2 m before the end: the stretch behind a turn is skipped. *)
Theorem C89_goal_at_the_end_of_any_path_refuted :
  ~ (forall c M velocity es d e d' os rs r, Forall fixed_step es -> 0 <= m_eps M -> hrun c M velocity 1 es = Ok d -> hstep c M velocity d e = Ok (d', os, rs) -> In (OStatus GOAL) os ->
     stands e = Some r -> let K := current_path M velocity es in let n := length K in
     t_min_track c <= path_length K -> m_no_pos M <= path_length K -> 0 < t_stop_dist c <= path_length K ->
     (exists i q, (1 <= i < n)%nat /\ foot (xy K (i - 1)) (xy K i) (will_be M d r) q /\ dist2 q (xy K (n - 1)) < t_goal_dist c) \/ xy K (n - 2) = xy K (n - 1)).
Proof.
  intros H. destruct m_doubled_0 as (a & b & E1), m_doubled_2 as (a' & b' & E2). pose proof (first_cycle ex_c ex_M 1 doubled origin) as F. rewrite doubled_msg in F. cbv beta zeta in F.
  specialize (F _ (Sensed 4 (Some 2%nat) 4 4 0 0 0 a' b' 0 0 0 false true) (le_n 1) E1). cbn [length doubled] in F. rewrite t_doubled_0 in F. cbn [r_step_done] in F. fold doubled in F.
  specialize (F E2). rewrite t_doubled_2 in F. destruct F as (d' & os & A1 & A2 & _). cbn [r_status] in A2.
  assert (R := after_path ex_c ex_M 1 doubled). rewrite doubled_msg in R.
  specialize (H ex_c ex_M ex_vel [HPath true doubled] _ (timer origin) _ _ _ origin ltac:(repeat constructor) ltac:(cbn; lra) R A1 A2 eq_refl). rewrite path_after, doubled_msg in H. cbv zeta in H.
  assert (L : path_length doubled = 4) by (unfold doubled; plen). rewrite L in H. cbn [ex_c ex_M t_min_track m_no_pos t_stop_dist t_goal_dist] in H. specialize (H ltac:(lra) ltac:(lra) ltac:(lra)).
  destruct H as [(i & q & Hi & [(t & Q1 & Q2) Q3] & Q4)|H].
  - assert (W : will_be ex_M (given 1 doubled) origin = (0, 0)).
    { apply will_be_here. }
    rewrite W in Q3. destruct q as [qx qy]. cbn [fst snd] in *. unfold doubled, xy in *. cbn [length Nat.sub] in *.
    assert (K : i = 1%nat \/ i = 2%nat \/ i = 3%nat) by lia. destruct K as [-> |[-> | ->]]; cbn [nth Nat.sub P p_x p_y fst snd] in *.
    + assert (X : qx = 0) by lra. assert (Y : qy = 0) by lra. rewrite X, Y in Q4. plain. rewrite dist2_level in Q4. revert Q4. absolute.
    + assert (X : qx = 0) by lra. assert (Y : qy = 0) by lra. rewrite X, Y in Q4. plain. rewrite dist2_level in Q4. revert Q4. absolute.
    + assert (X : qx = 0) by lra. assert (Y : qy = 0) by lra. rewrite X, Y in Q4. plain. rewrite dist2_level in Q4. revert Q4. absolute.
  - unfold doubled, xy in H. cbn [length Nat.sub nth P p_x p_y] in H. injection H. lra.
Qed.

(** The distance beside the path does not matter at its end. *)
Theorem C89_goal_is_near_the_last_pose_refuted :
  ~ (forall c M velocity es d e d' os rs r, Forall fixed_step es -> 0 <= m_eps M -> hrun c M velocity 1 es = Ok d -> hstep c M velocity d e = Ok (d', os, rs) -> In (OStatus GOAL) os ->
     stands e = Some r -> let K := kept 1 (current_path M velocity es) in
     suitable c M K -> dist2 (will_be M d r) (xy K (length K - 1)) < t_goal_dist c + t_d_stop c).
Proof.
  intros H. destruct m_short as (a & b & E1). pose proof (first_cycle ex_c ex_M 1 short (Rpose 0 1 0)) as F. rewrite short_msg in F. cbv beta zeta in F.
  specialize (F _ (Sensed 2 (Some 1%nat) 2 (3 / 4) 0 0 0 a b 0 0 0 false false) (le_n 1) E1). cbn [length short] in F. rewrite t_short in F. cbn [r_step_done] in F. fold short in F.
  specialize (F E1). rewrite t_short in F. destruct F as (d' & os & A1 & A2 & _). cbn [r_status] in A2.
  assert (R := after_path ex_c ex_M 1 short). rewrite short_msg in R.
  specialize (H ex_c ex_M ex_vel [HPath true short] _ (timer (Rpose 0 1 0)) _ _ _ (Rpose 0 1 0) ltac:(repeat constructor) ltac:(cbn; lra) R A1 A2 eq_refl).
  rewrite path_after, short_msg, kept_1 in H. cbv zeta in H.
  assert (L : path_length short = 3 / 4) by (unfold short; plen).
  assert (S : suitable ex_c ex_M short).
  { split; [|split].
    - intros i Hi. cbn [length short] in Hi. assert (i = 0%nat) by lia. subst i. unfold short, xy, P; cbn [nth p_x p_y]; rewrite dist2_level; absolute.
    - intros i Hi. cbn [length short] in Hi. lia.
    - rewrite L. cbn [ex_c ex_M t_min_track m_no_pos t_stop_dist]. lra. }
  specialize (H S). assert (W : will_be ex_M (given 1 short) (Rpose 0 1 0) = (0, 1)).
  { apply will_be_here. }
  rewrite W in H. unfold short, xy, dist2 in H. cbn [length Nat.sub nth P p_x p_y fst snd ex_c t_goal_dist t_d_stop] in H.
  replace (Rsqr (0 - 0) + Rsqr (1 - 0)) with (1 * 1) in H by (unfold Rsqr; ring). rewrite sqrt_square in H by lra. lra.
Qed.

(** With path_step 2 the last pose of a path of two is dropped: GOAL at its beginning. *)
Theorem C89_goal_at_the_last_pose_with_path_step_refuted :
  ~ (forall c M velocity stp es d e d' os rs r, (1 <= stp)%nat -> Forall fixed_step es -> 0 <= m_eps M -> hrun c M velocity stp es = Ok d -> hstep c M velocity d e = Ok (d', os, rs) ->
     In (OStatus GOAL) os -> stands e = Some r -> let K := current_path M velocity es in let n := length K in
     suitable c M K -> (exists i q, (1 <= i < n)%nat /\ foot (xy K (i - 1)) (xy K i) (will_be M d r) q /\ dist2 q (xy K (n - 1)) < t_goal_dist c) \/ xy K (n - 2) = xy K (n - 1)).
Proof.
  intros H. destruct m_pair as (a & b & E1). pose proof (first_cycle ex_c ex_M 2 pair origin) as F. rewrite pair_msg in F. cbv beta zeta in F.
  specialize (F _ (Sensed 1 (Some 0%nat) 1 0 0 0 0 a b 0 0 0 false true) ltac:(lia) E1). cbn [length pair] in F. rewrite t_pair in F. cbn [r_step_done] in F. fold pair in F.
  specialize (F E1). rewrite t_pair in F. destruct F as (d' & os & A1 & A2 & _). cbn [r_status] in A2.
  assert (R := after_path ex_c ex_M 2 pair). rewrite pair_msg in R.
  specialize (H ex_c ex_M ex_vel 2%nat [HPath true pair] _ (timer origin) _ _ _ origin ltac:(lia) ltac:(repeat constructor) ltac:(cbn; lra) R A1 A2 eq_refl).
  rewrite path_after, pair_msg in H. cbv zeta in H. assert (L : path_length pair = 1) by (unfold pair; plen).
  assert (S : suitable ex_c ex_M pair).
  { split; [|split].
    - intros i Hi. cbn [length pair] in Hi. assert (i = 0%nat) by lia. subst i. unfold pair, xy, P; cbn [nth p_x p_y]; rewrite dist2_level; absolute.
    - intros i Hi. cbn [length pair] in Hi. lia.
    - rewrite L. cbn [ex_c ex_M t_min_track m_no_pos t_stop_dist]. lra. }
  destruct (H S) as [(i & q & Hi & [(t & Q1 & Q2) Q3] & Q4)|H'].
  - assert (W : will_be ex_M (given 2 pair) origin = (0, 0)).
    { apply will_be_here. }
    rewrite W in Q3. destruct q as [qx qy]. cbn [length pair] in Hi. assert (i = 1%nat) by lia. subst i. unfold pair, xy in *. cbn [length Nat.sub nth P p_x p_y fst snd ex_c t_goal_dist] in *.
    assert (X : qx = 0) by lra. assert (Y : qy = 0) by lra. rewrite X, Y in Q4. plain. rewrite dist2_level in Q4. revert Q4. absolute.
  - unfold pair, xy in H'. cbn [length Nat.sub nth P p_x p_y] in H'. injection H'. lra.
Qed.

(** GOAL although the last odometry is 0.35 m before the end and the tolerance is 0.2 m: the check without prediction
    extrapolates once more instead. *)
Theorem C89_goal_at_the_measured_pose_refuted :
  ~ (forall c M velocity es d t p age f lin ang dt d' os rs, Forall fixed_step es -> 0 <= m_eps M -> m_look M = 0 -> hrun c M velocity 1 es = Ok d ->
     hstep c M velocity d (HOdom t (Some p) age f lin ang dt) = Ok (d', os, rs) -> In (OStatus GOAL) os ->
     let K := kept 1 (current_path M velocity es) in let n := length K in suitable c M K ->
     exists i q, (1 <= i < n)%nat /\ foot (xy K (i - 1)) (xy K i) (r_x p, r_y p) q /\ dist2 q (xy K (n - 1)) < t_goal_dist c).
Proof.
  intros H. set (e0 := HOdom 1 None 0 ex_r 0 0 (fl 1 0)). set (e := HOdom 2 (Some (Rpose (- (7 / 20)) 0 0)) (1 / 10) ex_r (5 / 2) 0 (fl 1 0)).
  assert (Fx : Forall fixed_step [HPath true straight; e0]) by (repeat constructor).
  destruct (fine_run ex_c ex_M ex_vel 1 _ (le_n 1) Fx) as (d & Ed & Fi).
  assert (Hd : d = Drive (Nst true [B754_nan; B754_nan; B754_nan] true 0 s0 s0 1%Z) straight 1).
  { change [HPath true straight; e0] with ([HPath true straight] ++ [e0]) in Ed. rewrite hrun_snoc, after_path, straight_msg in Ed. cbn [bind] in Ed. injection Ed as <-. reflexivity. }
  subst d. match type of Ed with _ = Ok ?x => set (d := x) in * end.
  assert (Cy : cycle d e (Some late) (5 / 2) 0).
  { pose proof (cy_odom d 2 (Some (Rpose (- (7 / 20)) 0 0)) (1 / 10) ex_r (5 / 2) 0 (fl 1 0) ltac:(discriminate)) as X. cbn [option_map] in X. rewrite late_is in X. exact X. }
  destruct (m_late 0 ltac:(lia)) as (a & E1), (m_late 1 ltac:(lia)) as (a' & E2).
  pose proof (one_cycle ex_c ex_M d e late (5 / 2) 0 _ (Sensed 3 (Some 2%nat) 3 1 (1 / 10) (1 / 10) (- (3 / 20)) a' (1 / 10) 0 0 0 false false) 1 _ (le_n 1) I Fi Cy eq_refl E1) as O. cbv beta zeta in O.
  cbn [d d_node n_path n_done n_updated length] in O. rewrite t_late in O. cbn [r_step_done Nat.max] in O. specialize (O E2). rewrite t_late in O.
  destruct O as (d' & os & A1 & A2 & _). cbn [r_status] in A2.
  specialize (H ex_c ex_M ex_vel _ d _ _ _ _ _ _ _ _ _ _ Fx ltac:(cbn; lra) eq_refl Ed A1 A2).
  assert (Pc : current_path ex_M ex_vel [HPath true straight; e0] = straight).
  { change [HPath true straight; e0] with ([HPath true straight] ++ [e0]). rewrite path_snoc. cbn [e0]. rewrite path_after. apply straight_msg. }
  rewrite Pc in H. cbv zeta in H. specialize (H straight_suitable). rewrite kept_1 in H.
  destruct H as (i & q & Hi & [(t & Q1 & Q2) Q3] & Q4). destruct q as [qx qy]. unfold straight, xy in *. cbn [length Nat.sub r_x r_y fst snd ex_c t_goal_dist] in *.
  assert (K : i = 1%nat \/ i = 2%nat) by lia. destruct K as [-> | ->]; cbn [nth Nat.sub P p_x p_y fst snd] in *.
  - assert (X : qx = - (7 / 20)) by lra. assert (Y : qy = 0) by lra. rewrite X, Y in Q4. plain. rewrite dist2_level in Q4. revert Q4. absolute.
  - assert (X : qx = - (7 / 20)) by lra. assert (Y : qy = 0) by lra. rewrite X, Y in Q4. plain. rewrite dist2_level in Q4. revert Q4. absolute.
Qed.

Print Assumptions C89_reads_only_the_path.
Print Assumptions C89_goal_is_the_end_of_the_path.
Print Assumptions C89_reported_distance_is_the_way_ahead.
Print Assumptions C89_kept_poses.
Print Assumptions C89_imported_paths_are_suitable.
Print Assumptions C89_reads_only_the_path_after_reconfiguration_refuted.
Print Assumptions C89_standing_at_the_end_is_the_goal_refuted.
Print Assumptions C89_goal_at_the_end_of_any_path_refuted.
Print Assumptions C89_goal_is_near_the_last_pose_refuted.
Print Assumptions C89_goal_at_the_last_pose_with_path_step_refuted.
Print Assumptions C89_goal_at_the_measured_pose_refuted.
