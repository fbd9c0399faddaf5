(** C88: the status of the safety limiter tells what happens to the next command, and since when the robot is in collision. *)
From Coq Require Import ZArith List Bool Reals Lra Lia.
From Flocq Require Import Core.Core IEEE754.BinarySingleNaN.
From Verif Require Import FloatLib GridMetric GridMetricProps SafetyLimiter SafetyLimiterProps SafetyStatus.

Import ListNotations.
Local Open Scope Z_scope.

(** *** Specification *)
Definition plain (es : list sev) : list ev := map fst es.
(** The binary32 number next to a millionth. *)
Definition millionth : f64 := f64_of 8796093 (-43).
Lemma millionth_value : (Rabs (B2R millionth - / 1000000) < / 10000000000000)%R.
Proof.
  rewrite <- (SF2R_B2SF 53 1024 millionth). replace (B2SF millionth) with (SpecFloat.S754_finite false 4722366470946816 (-72)) by (vm_compute; reflexivity).
  cbn [SF2R SpecFloat.cond_Zopp]. unfold F2R. cbn [Fnum Fexp cond_Zopp bpow radix_val radix2]. simpl Z.pow_pos. apply Rabs_lt. lra.
Qed.
(** After a history, a prediction at [now] is carried out: there is a cloud that has not timed out. *)
Definition carried_out (c : config) (es : list sev) (now : Z) : bool :=
  match valid_cloud c (plain es) with Some stamp => now - stamp <=? c_timeout (cfg_after c (plain es)) | None => false end.
(** The tests of the poses in a history, oldest first: whether the robot collided where it was, and when. *)
Fixpoint tests_from (c : config) (past es : list sev) : list (bool * Z) :=
  match es with
  | [] => []
  | e :: es' =>
      match e with
      | (EPredict now _, Some x) => if carried_out c past now then [x] else []
      | _ => []
      end ++ tests_from c (past ++ [e]) es'
  end.
Definition tests (c : config) (es : list sev) : list (bool * Z) := tests_from c [] es.
(** [since l t]: the latest tests up to the end of [l] all found a collision, and the first of these was at [t]; 0 if the last test found none. *)
Definition since (l : list (bool * Z)) (t : Z) : Prop :=
  (exists l1 l2, l = l1 ++ (true, t) :: l2 /\ Forall (fun x => fst x = true) l2 /\ (l1 = [] \/ exists l0 t0, l1 = l0 ++ [(false, t0)])) \/
  ((l = [] \/ exists l0 t0, l = l0 ++ [(false, t0)]) /\ t = 0).

Definition half : f64 := f64_of 1 (-1).
Lemma half_val : B2R half = (/ 2)%R.
Proof.
  rewrite <- (SF2R_B2SF 53 1024 half). replace (B2SF half) with (SpecFloat.S754_finite false 4503599627370496 (-53)) by (vm_compute; reflexivity).
  cbn [SF2R SpecFloat.cond_Zopp]. unfold F2R. cbn [Fnum Fexp cond_Zopp bpow radix_val radix2]. simpl Z.pow_pos. lra.
Qed.
Lemma eps_val : (0 < B2R eps < / 2)%R /\ is_finite eps = true.
Proof.
  split; [|reflexivity]. assert (H0 : Bltb f0 eps = true) by (vm_compute; reflexivity). assert (H : Bltb eps half = true) by (vm_compute; reflexivity).
  apply ltb_true in H as (_ & _ & H). apply ltb_true in H0 as (_ & _ & H0). rewrite !finite_key in H, H0 by reflexivity. rewrite half_val in H. change (B2R f0) with 0%R in H0. split; assumption.
Qed.
Lemma lim_thr_val2 : (/ 2 < B2R lim_thr)%R.
Proof.
  assert (H : Bltb half lim_thr = true) by (vm_compute; reflexivity). apply ltb_true in H as (_ & _ & H). rewrite !finite_key in H by reflexivity. rewrite half_val in H. exact H.
Qed.

Lemma eps_millionth : B2R eps = B2R millionth.
Proof. reflexivity. Qed.

Section Theorems.
  Variable hyp : f64 -> f64 -> f64.
  Notation published := (published hyp).
  Notation statuses := (statuses hyp).

  Lemma srun_node c es : t_node (srun hyp (sinit c) es) = run hyp (init c) (plain es).
  Proof.
    induction es as [|e es IH] using rev_ind; [reflexivity|]. replace (plain (es ++ [e])) with (plain es ++ [fst e]) by (unfold plain; rewrite map_app; reflexivity). rewrite run_snoc, <- IH.
    unfold srun. rewrite fold_left_app. cbn [fold_left]. fold (srun hyp (sinit c) es). set (s := srun hyp (sinit c) es). unfold sstep.
    destruct e as [[now m|now r|stamp ok| | |now on|c'] x]; try reflexivity. cbn [fst snd]. unfold step. destruct (negb (s_has_cloud (t_node s))) eqn:H; [reflexivity|].
    destruct (_ <? _); [reflexivity|]. destruct x as [[[] t]|]; reflexivity.
  Qed.
  Lemma sstep_snoc c es e : srun hyp (sinit c) (es ++ [e]) = fst (sstep hyp (srun hyp (sinit c) es) e).
  Proof. unfold srun. rewrite fold_left_app. reflexivity. Qed.
  Lemma status_shows c es e z : In z (statuses c es e) -> z = diagnose (srun hyp (sinit c) (es ++ [e])).
  Proof.
    rewrite sstep_snoc. unfold SafetyStatus.statuses, sstep. destruct e as [[now m|now r|stamp ok| | |now on|c'] x]; cbn [fst snd In]; try (intros []; fail).
    - destruct (negb _); cbn [fst snd In]; [intros []|]. destruct (_ <? _); cbn [fst snd In]; intros [<-|[]]; reflexivity.
    - intros [<-|[]]. reflexivity.
  Qed.

  (** A status tells what is done to the next command: nothing gets through without a cloud or after a time-out of the watchdog; otherwise the planar components are multiplied
      by the ratio of the status (if below 1 - 1e-6) before the maxima are applied; unless the limiter is disabled. *)
  Theorem C88_status_tells_what_happens_to_the_next_command c es e z now m : In z (statuses c es e) -> let h := plain (es ++ [e]) in let k := cfg_after c h in
    published c h (ETwist now m) =
      [ if now - last_disable h <? c_disable_timeout k then limit_max hyp (c_max_lin k) (c_max_ang k) m
        else if negb (z_cloud z) || z_watchdog z then zero_twist
        else limit_max hyp (c_max_lin k) (c_max_ang k) (limit (z_ratio z) m) ].
  Proof.
    intros Hz. cbv zeta. apply status_shows in Hz. subst z. unfold SafetyLimiter.published. rewrite <- srun_node. set (s := srun hyp (sinit c) (es ++ [e])).
    rewrite <- (run_cfg hyp), <- (run_disable hyp c). rewrite <- srun_node. fold s. unfold step, diagnose. cbn [z_cloud z_watchdog z_ratio]. destruct (_ <? _); [reflexivity|].
    destruct (negb _ || _); reflexivity.
  Qed.
  (** The fields are what they say. *)
  Theorem C88_status_fields c es e z : In z (statuses c es e) -> let h := plain (es ++ [e]) in
    z_cloud z = (match valid_cloud c h with Some _ => true | None => false end) /\ z_watchdog z = watchdog_expired h.
  Proof.
    intros Hz. cbv zeta. apply status_shows in Hz. subst z. cbn [diagnose z_cloud z_watchdog]. rewrite srun_node. rewrite (run_cloud hyp). split; [destruct (s_has_cloud _); reflexivity|apply run_watchdog].
  Qed.
  (** What the summaries mean: an error stops; "OK" is no limit; a warning leaves at most a millionth of the command; otherwise it is reduced or passes. *)
  Theorem C88_summaries c es e z now m o : good_config c -> Forall good_ev (plain (es ++ [e])) -> finite_twist m -> In z (statuses c es e) -> let h := plain (es ++ [e]) in
    ~ disabled_at c h now -> In o (published c h (ETwist now m)) ->
    match z_level z, z_text z with
    | LError, _ => o = zero_twist
    | LOk, XOk => o = limit_max hyp (c_max_lin (cfg_after c h)) (c_max_ang (cfg_after c h)) m
    | LWarn, _ => no_larger (lin_x o) (fmul (lin_x m) millionth) /\ no_larger (lin_y o) (fmul (lin_y m) millionth) /\ no_larger (ang_z o) (fmul (ang_z m) millionth)
    | LOk, _ => twist_no_larger o m
    end.
  Proof.
    intros Hc Hg Fm Hz. cbv zeta. intros Hd Ho. pose proof (C33_no_component_is_amplified hyp c _ now m o Hc Hg Fm Ho) as [Hn _].
    rewrite (C88_status_tells_what_happens_to_the_next_command c es e z now m Hz) in Ho. apply status_shows in Hz. pose proof (init_inv hyp c _ Hc Hg) as Hi. rewrite <- srun_node in Hi.
    set (s := srun hyp (sinit c) (es ++ [e])) in *. set (h := plain (es ++ [e])) in *. unfold disabled_at in Hd.
    destruct (Z.ltb_spec (now - last_disable h) (c_disable_timeout (cfg_after c h))) as [C|_]; [contradiction|]. destruct Ho as [Ho|[]]. subst z. unfold diagnose in *. cbn [z_level z_text z_cloud z_watchdog z_ratio] in *.
    destruct (negb _ || _); [cbn [fst snd]; congruence|]. destruct Hi as [[Hl Ha] Hr]. destruct (Beqb (s_r (t_node s)) f1) eqn:E1.
    - cbn [fst snd]. rewrite <- Ho. f_equal. unfold limit. replace (flt (s_r (t_node s)) lim_thr) with false; [reflexivity|]. symmetry.
      assert (E : B2R (s_r (t_node s)) = 1%R). { destruct f1_val as [V1 V2]. rewrite Beqb_correct in E1 by (try apply Hr; exact V2). apply Raux.Req_bool_true in E1 || (revert E1; case Raux.Req_bool_spec; [intros X _; rewrite X; exact V1|discriminate]). }
      destruct lim_thr_val as [V1 V2]. unfold flt. rewrite Bltb_correct by (try apply Hr; exact V2). apply Raux.Rlt_bool_false. lra.
    - destruct (flt (s_r (t_node s)) eps) eqn:E2; cbn [fst snd]; [|destruct (t_col s); exact Hn].
      destruct eps_val as (Ee & Fe). destruct lim_thr_val as [_ Ft]. pose proof lim_thr_val2 as Et. destruct Hr as [Fr Rr].
      unfold flt in E2. rewrite Bltb_correct in E2 by assumption. revert E2. case Raux.Rlt_bool_spec; [intros E2 _|discriminate].
      assert (L : limit (s_r (t_node s)) m = Twist (fmul (lin_x m) (s_r (t_node s))) (fmul (lin_y m) (s_r (t_node s))) (lin_z m) (ang_x m) (ang_y m) (fmul (ang_z m) (s_r (t_node s)))).
      { unfold limit, flt. rewrite Bltb_correct by assumption. rewrite Raux.Rlt_bool_true by lra. reflexivity. }
      pose proof (limit_no_larger hyp _ m (conj Fr Rr) Fm) as Hf. apply twist_no_larger_finite in Hf. rewrite <- (run_cfg hyp) in Ho.
      destruct (limit_max_no_larger hyp (c_max_lin (cfg_after c h)) (c_max_ang (cfg_after c h)) _ ltac:(subst h; rewrite <- (run_cfg hyp), <- srun_node; exact Hl)
        ltac:(subst h; rewrite <- (run_cfg hyp), <- srun_node; exact Ha) Hf) as [(H1 & H2 & _ & _ & _ & H6) _].
      rewrite (run_cfg hyp) in Ho. rewrite Ho, L in H1, H2, H6. cbn [lin_x lin_y ang_z] in H1, H2, H6. destruct Fm as (F1 & F2 & _ & _ & _ & F6).
      assert (M : forall x, is_finite x = true -> no_larger (fmul x (s_r (t_node s))) (fmul x millionth)) by (intros x Fx; rewrite eps_millionth in Ee, E2; apply fmul_mono; try assumption; try reflexivity; lra).
      split; [|split]; eapply no_larger_trans; eauto.
  Qed.

  (** *** Since when the robot is in collision *)
  Lemma tests_app c past es e : tests_from c past (es ++ [e]) = tests_from c past es ++ (match e with (EPredict now _, Some x) => if carried_out c (past ++ es) now then [x] else [] | _ => [] end).
  Proof.
    revert past. induction es as [|a es IH]; intros past; cbn [app tests_from].
    - rewrite app_nil_r, app_nil_r. reflexivity.
    - rewrite IH, <- app_assoc. cbn [app]. rewrite app_assoc. reflexivity.
  Qed.
  Lemma since_unique l t t' : Forall (fun x => snd x <> 0) l -> since l t -> since l t' -> t = t'.
  Proof.
    assert (N : forall l1 t (l2 : list (bool * Z)) l0 t0, l1 ++ (true, t) :: l2 = l0 ++ [(false, t0)] -> Forall (fun x => fst x = true) l2 -> False).
    { intros l1 t1 l2 l0 t0 E Hf. assert (In (false, t0) ((true, t1) :: l2)).
      { destruct l2 as [|b l2] using rev_ind; [apply app_inj_tail in E as [_ E]; discriminate E|]. rewrite app_comm_cons, app_assoc in E. apply app_inj_tail in E as [_ E]. subst b.
        right. apply in_or_app. right. left. reflexivity. }
      destruct H as [H|H]; [discriminate H|]. rewrite Forall_forall in Hf. specialize (Hf _ H). discriminate Hf. }
    intros _ [(l1 & l2 & -> & F2 & H1)|[H1 ->]] [(k1 & k2 & E & G2 & H2)|[H2 ->]].
    - assert (P : forall a b (l1 l2 k1 k2 : list (bool * Z)), l1 ++ (true, a) :: l2 = k1 ++ (true, b) :: k2 -> Forall (fun x => fst x = true) l2 -> Forall (fun x => fst x = true) k2 ->
        (l1 = [] \/ exists l0 t0, l1 = l0 ++ [(false, t0)]) -> (k1 = [] \/ exists l0 t0, k1 = l0 ++ [(false, t0)]) -> (length l1 <= length k1)%nat -> a = b).
      { clear. intros a b l1 l2 k1 k2 E F2 G2 H1 H2 Hl. assert (Ek : exists m, k1 = l1 ++ m /\ (true, a) :: l2 = m ++ (true, b) :: k2).
        { revert k1 E Hl H2. clear. induction l1 as [|x l1 IH]; intros k1 E Hl H2; [exists k1; split; [reflexivity|exact E]|]. destruct k1 as [|y k1]; [cbn in Hl; lia|].
          cbn in E. injection E as <- E. destruct (IH k1 E) as (m & -> & Em); [cbn in Hl; lia| |exists m; split; [reflexivity|exact Em]].
          destruct H2 as [H2|(l0 & t0 & H2)]; [discriminate H2|]. destruct k1 as [|z k1]; [left; reflexivity|]. right. destruct l0 as [|w l0]; [discriminate H2|]. cbn in H2. injection H2 as _ H2. exists l0, t0. exact H2. }
        destruct Ek as (m & -> & Em). destruct m as [|x m] using rev_ind; [injection Em as <- _; reflexivity|]. clear IHm. exfalso.
        destruct H2 as [H2|(l0 & t0 & H2)]; [destruct l1, m; discriminate H2|]. rewrite app_assoc in H2. apply app_inj_tail in H2 as [_ ->].
        destruct m as [|y m]; cbn in Em; [discriminate Em|]. injection Em as <- Em. rewrite Em in F2. rewrite Forall_forall in F2. specialize (F2 (false, t0)). cbn in F2.
        assert (false = true); [|discriminate]. apply F2. apply in_or_app. left. apply in_or_app. right. left. reflexivity. }
      destruct (Nat.le_ge_cases (length l1) (length k1)) as [L|L]; [apply (P _ _ _ _ _ _ E); assumption|symmetry; symmetry in E; apply (P _ _ _ _ _ _ E); assumption].
    - exfalso. destruct H2 as [H2|(l0 & t0 & H2)]; [destruct l1; discriminate H2|apply (N _ _ _ _ _ H2 F2)].
    - exfalso. subst l. destruct H1 as [H1|(l0 & t0 & H1)]; [destruct k1; discriminate H1|apply (N _ _ _ _ _ H1 G2)].
    - reflexivity.
  Qed.
  Lemma stuck_inv c es : Forall (fun x => snd x <> 0) (tests c es) -> since (tests c es) (t_stuck (srun hyp (sinit c) es)) /\ (t_stuck (srun hyp (sinit c) es) <> 0 <-> exists l t, tests c es = l ++ [(true, t)]) /\
    t_col (srun hyp (sinit c) es) = negb (t_stuck (srun hyp (sinit c) es) =? 0).
  Proof.
    induction es as [|e es IH] using rev_ind.
    - intros _. split; [right; split; [left; reflexivity|reflexivity]|]. split; [|reflexivity]. split; [intros H; contradiction H; reflexivity|]. intros (l & t & E). destruct l; discriminate E.
    - unfold tests in *. rewrite tests_app. cbn [app]. set (l := tests_from c [] es) in *. intros Hnz. apply Forall_app in Hnz as [Hnz Hx]. specialize (IH Hnz). rewrite sstep_snoc. set (s := srun hyp (sinit c) es) in *.
      pose proof (srun_node c es) as Hs. fold s in Hs.
      assert (D : match e with (EPredict now _, Some x) => if carried_out c es now then [x] else [] | _ => [] end = [] -> t_stuck (fst (sstep hyp s e)) = t_stuck s /\ t_col (fst (sstep hyp s e)) = t_col s ->
        since (l ++ match e with (EPredict now _, Some x) => if carried_out c es now then [x] else [] | _ => [] end) (t_stuck (fst (sstep hyp s e))) /\
        (t_stuck (fst (sstep hyp s e)) <> 0 <-> exists l' t, l ++ match e with (EPredict now _, Some x) => if carried_out c es now then [x] else [] | _ => [] end = l' ++ [(true, t)]) /\
        t_col (fst (sstep hyp s e)) = negb (t_stuck (fst (sstep hyp s e)) =? 0)).
      { intros -> [-> ->]. rewrite app_nil_r. exact IH. }
      destruct e as [[now m|now r|stamp ok| | |now on|c'] x]; try (apply D; [reflexivity|split; reflexivity]).
      assert (Q : carried_out c es now = s_has_cloud (t_node s) && negb (c_timeout (s_cfg (t_node s)) <? now - s_stamp (t_node s))).
      { unfold carried_out. rewrite (run_cloud hyp), <- (run_cfg hyp), <- Hs. destruct (s_has_cloud (t_node s)); [|reflexivity]. cbn [andb].
        destruct (Z.leb_spec (now - s_stamp (t_node s)) (c_timeout (s_cfg (t_node s)))), (Z.ltb_spec (c_timeout (s_cfg (t_node s))) (now - s_stamp (t_node s))); try reflexivity; lia. }
      destruct x as [x|].
      2:{ apply D; [reflexivity|]. unfold sstep. cbn [fst snd]. destruct (negb (s_has_cloud (t_node s))); [split; reflexivity|]. destruct (c_timeout (s_cfg (t_node s)) <? now - s_stamp (t_node s)); split; reflexivity. }
      destruct (carried_out c es now) eqn:Ec.
      2:{ apply D; [reflexivity|]. unfold sstep. cbn [fst snd]. destruct (s_has_cloud (t_node s)); cbn [negb andb] in *; [|split; reflexivity]. destruct (_ <? _); [split; reflexivity|discriminate Q]. }
      clear D. symmetry in Q. apply andb_true_iff in Q as [Q1 Q2]. apply negb_true_iff in Q2. unfold sstep. cbn [fst snd]. rewrite Q1, Q2. cbn [negb]. apply Forall_inv in Hx.
      destruct IH as (I1 & I2 & I3). destruct x as [[] t]; cbn [fst snd t_stuck t_col] in *.
      + destruct (Z.eqb_spec (t_stuck s) 0) as [E|E].
        * split; [|split; [split; [intros _; exists l, t; reflexivity|intros _; exact Hx]|symmetry; apply negb_true_iff, Z.eqb_neq, Hx]]. left. exists l, []. split; [reflexivity|]. split; [constructor|].
          destruct I1 as [(l1 & l2 & El & F2 & H1)|[H _]]; [|exact H]. exfalso. apply (proj2 I2); [|exact E]. rewrite El. destruct l2 as [|[b t2] l2] using rev_ind; [exists l1, (t_stuck s); reflexivity|].
          apply Forall_app in F2 as [_ F2]. apply Forall_inv in F2. cbn in F2. subst b. exists (l1 ++ (true, t_stuck s) :: l2), t2. rewrite <- app_assoc. reflexivity.
        * split; [|split; [split; [intros _; exists l, t; reflexivity|intros _; exact E]|symmetry; apply negb_true_iff, Z.eqb_neq, E]].
          destruct I1 as [(l1 & l2 & El & F2 & H1)|[_ H]]; [|contradiction]. left. exists l1, (l2 ++ [(true, t)]). split; [rewrite El, <- app_assoc; reflexivity|]. split; [|exact H1].
          apply Forall_app. split; [exact F2|repeat constructor].
      + split; [right; split; [right; exists l, t; reflexivity|reflexivity]|]. split; [|reflexivity]. split; [intros H; contradiction H; reflexivity|]. intros (l' & t' & E). apply app_inj_tail in E as [_ E]. discriminate E.
  Qed.
  (** The time in a status is that of the first of the latest tests that all found the robot in collision, zero if the last test did not; the summary agrees. (The clock is not at zero.) *)
  Theorem C88_stuck_since c es e z : Forall (fun x => snd x <> 0) (tests c (es ++ [e])) -> In z (statuses c es e) ->
    since (tests c (es ++ [e])) (z_stuck z) /\ (z_stuck z <> 0 <-> exists l t, tests c (es ++ [e]) = l ++ [(true, t)]) /\
    (forall x, z_text z = x -> match x with XCannotEscape | XEscaping => z_stuck z <> 0 | XCannotMove | XReducing => z_stuck z = 0 | _ => True end).
  Proof.
    intros Hnz Hz. apply status_shows in Hz. destruct (stuck_inv c (es ++ [e]) Hnz) as (H1 & H2 & H3). set (s := srun hyp (sinit c) (es ++ [e])) in *. subst z. unfold diagnose. cbn [z_stuck z_text].
    split; [exact H1|]. split; [exact H2|]. intros x <-. destruct (negb _ || _); [exact I|]. destruct (Beqb _ _); [exact I|].
    destruct (flt _ _); cbn [snd]; rewrite H3; destruct (Z.eqb_spec (t_stuck s) 0) as [E|E]; cbn [negb]; assumption.
  Qed.
End Theorems.

(** *** Cases that meet the hypotheses *)
Module StatusExample.
  (** A cloud; a prediction that sees the robot in collision at 5, another at 7; a command in between; then a free one; then the watchdog. *)
  Definition day : list sev := [(ECloud 1 true, None); (EPredict 4 f0, Some (true, 5)); (ETwist 6 ex_m, None); (ECloud 6 true, None); (EPredict 6 f0, Some (true, 7))].
  Definition free : sev := (EPredict 8 f1, Some (false, 9)).
  Definition bite : sev := (EWatchdogTimer, None).
  Definition cfg : config := Config 100 0 3 f1 f1.
  Lemma cfg_good : good_config cfg.
  Proof. split; (split; [reflexivity|]); cbn [cfg c_max_lin c_max_ang]; rewrite finite_key by apply f1_val; rewrite (proj1 f1_val); lra. Qed.
  Example day_tests : tests cfg (day ++ [free]) = [(true, 5); (true, 7); (false, 9)] /\ Forall (fun x => snd x <> 0) (tests cfg (day ++ [free])).
  Proof. split; [reflexivity|]. change (Forall (fun x => snd x <> 0) [(true, 5); (true, 7); (false, 9)]). repeat constructor; cbn; lia. Qed.
  Definition brief (z : status) := (z_cloud z, z_watchdog z, z_stuck z, z_level z, z_text z).
  Example day_statuses : forall hyp, map brief (statuses hyp cfg (firstn 4 day) (EPredict 6 f0, Some (true, 7))) = [(true, false, 5, LWarn, XCannotEscape)] /\
    map brief (statuses hyp cfg day free) = [(true, false, 0, LWarn, XCannotMove)] /\ map brief (statuses hyp cfg day bite) = [(true, true, 5, LError, XTimeout)].
  Proof. intros hyp. repeat split; vm_compute; reflexivity. Qed.
  (** The day goes on with an empty cloud: predict returns early. *)
  Definition empty : list sev := day ++ [(ECloud 20 true, None); (EPredict 21 f1, None); (ETwist 30 ex_m, None)].
End StatusExample.
Import StatusExample.

(** Refuted: that the status says "stuck" only if the last prediction saw the robot in collision.  When the cloud becomes empty, or has no point in the height range, or times out,
    the time since when the robot was in collision stays. *)
Theorem C88_stuck_is_cleared_with_the_obstacles_refuted : forall hyp, map z_stuck (statuses hyp cfg empty (EPredict 31 f1, None)) = [5] /\
  map (fun z => (z_level z, z_text z)) (statuses hyp cfg empty (EPredict 31 f1, None)) = [(LOk, XOk)].
Proof. intros hyp. split; vm_compute; reflexivity. Qed.
Theorem C88_stuck_survives_a_timeout_refuted : forall hyp, map (fun z => (z_cloud z, z_stuck z)) (statuses hyp cfg day (EPredict 1000 f1, None)) = [(false, 5)].
Proof. intros hyp. vm_compute. reflexivity. Qed.

Print Assumptions C88_status_tells_what_happens_to_the_next_command.
Print Assumptions C88_status_fields.
Print Assumptions C88_summaries.
Print Assumptions C88_stuck_since.
Print Assumptions C88_stuck_is_cleared_with_the_obstacles_refuted.
