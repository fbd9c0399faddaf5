(** Property C41: the recorder stores spaced poses only. *)
From Coq Require Import Reals Lra.
From Verif Require Import Common Recorder.
Local Open Scope R_scope.

(** *** Specification. *)
Section Spec.
  Context {Q : Type}.
  Notation pose := (rpose Q).
  (** Planar distance. *)
  Definition planar (a b : pose) : R := sqrt (Rsqr (rp_x a - rp_x b) + Rsqr (rp_y a - rp_y b)).
  (** Consecutive poses are farther apart than [d]. *)
  Definition spaced (d : R) (l : list pose) : Prop :=
    forall l1 a b l2, l = l1 ++ a :: b :: l2 -> d < planar a b.
  (** The poses seen by the loop since the last served clear request. *)
  Definition seen_since_clear (es : list (rev_ Q)) : list pose :=
    fst (fold_left (fun acc e => match e with
       | RClearRequest => (fst acc, true)
       | RLoop None => acc
       | RLoop (Some p) => if snd acc then ([], false) else (fst acc ++ [p], false)
       end) es ([], false)).
  (** [l] keeps the order of [l']. *)
  Inductive sub : list pose -> list pose -> Prop :=
  | sub_nil : sub [] []
  | sub_skip x l l' : sub l l' -> sub l (l' ++ [x])
  | sub_keep x l l' : sub l l' -> sub (l ++ [x]) (l' ++ [x]).
End Spec.

Section Proofs.
  Context {Q : Type}.
  Variable d : R.
  Notation pose := (rpose Q).
  Notation ev := (rev_ Q).
  Notation run := (rrun (Q := Q) d).

  Lemma dist2d_planar (a b : pose) : dist2d a b = planar a b.
  Proof. unfold dist2d, planar, Rsqr. f_equal. ring. Qed.

  Lemma rrun_app (es1 es2 : list ev) : forall s, run s (es1 ++ es2) =
    let '(s1, o1) := run s es1 in let '(s2, o2) := run s1 es2 in (s2, o1 ++ o2).
  Proof.
    induction es1 as [|e es1 IH]; intros s; [cbn; destruct (run s es2); reflexivity|].
    cbn [app rrun]. destruct (rstep d s e) as [s1 o]. rewrite IH.
    destruct (run s1 es1) as [s2 o2]. destruct (run s2 es2) as [s3 o3]. reflexivity.
  Qed.

  Lemma spaced_snoc (l : list pose) p : spaced d l -> (forall l' a, l = l' ++ [a] -> d < planar a p) -> spaced d (l ++ [p]).
  Proof.
    intros H Hl l1 a b l2 E. destruct l2 as [|c l2] using rev_ind.
    - replace (l1 ++ [a; b]) with ((l1 ++ [a]) ++ [b]) in E by (rewrite <- app_assoc; reflexivity).
      apply app_inj_tail in E as [-> ->]. eapply Hl. reflexivity.
    - clear IHl2. replace (l1 ++ a :: b :: l2 ++ [c]) with ((l1 ++ a :: b :: l2) ++ [c]) in E
        by (rewrite <- app_assoc; reflexivity).
      apply app_inj_tail in E as [-> _]. eapply H. reflexivity.
  Qed.

  Lemma last_cons (a : pose) l l' b : a :: l = l' ++ [b] -> last l a = b.
  Proof.
    revert a l'. induction l as [|c l IH]; intros a l' E.
    - destruct l' as [|x l']; [injection E as ->; reflexivity|]. destruct l'; discriminate.
    - destruct l' as [|x l']; [discriminate|]. injection E as -> E. cbn [last].
      destruct l as [|e l]; [apply (IH c l'); exact E|]. rewrite <- (IH c l' E). clear.
      revert e; induction l as [|y l IH]; intros e; [reflexivity|]. cbn [last]. apply (IH y).
  Qed.
  Lemma decompose_last (a : pose) l : exists l', a :: l = l' ++ [last l a].
  Proof.
    destruct (exists_last (l := a :: l)) as (l' & b & E); [discriminate|].
    exists l'. rewrite (last_cons _ _ _ _ E). exact E.
  Qed.

  (** Everything that holds after a history, as one invariant. *)
  Definition rinv (s : @rst Q) (seen : list pose) (pend : bool) : Prop :=
    spaced d (r_path s) /\ sub (r_path s) seen /\ r_clear s = pend /\
    (forall a l, seen = a :: l -> exists l', r_path s = a :: l') /\
    (forall l p, seen = l ++ [p] -> exists l' q, r_path s = l' ++ [q] /\ (planar q p <= d \/ q = p)).

  Lemma step_inv s seen pend e s' o : rinv s seen pend -> rstep d s e = (s', o) ->
    (let acc := match e with
       | RClearRequest => (seen, true)
       | RLoop None => (seen, pend)
       | RLoop (Some p) => if pend then ([], false) else (seen ++ [p], false)
       end in rinv s' (fst acc) (snd acc)) /\
    match o with Some l => spaced d l /\ exists p, e = RLoop (Some p) /\ l = r_path s ++ [p] | None => True end.
  Proof.
    intros (H1 & H2 & H3 & H4 & H5) E. destruct e as [|[p|]]; cbn [rstep] in E.
    - injection E as <- <-. split; [|exact I]. repeat split; assumption.
    - set (far := match r_path s with [] => true | a :: l => if Rlt_dec d (dist2d (last l a) p) then true else false end) in E.
      assert (Hseen : r_path s = [] <-> seen = []).
      { split; intros E0.
        - destruct seen as [|a l]; [reflexivity|]. destruct (H4 a l eq_refl) as [l' ?]. congruence.
        - subst seen. clear - H2. inversion H2 as [| ? ? l' ? E |? ? l' ? E ]; [reflexivity|destruct l'; discriminate..]. }
      assert (Hfar : far = true -> spaced d (r_path s ++ [p])).
      { intros Hf. apply spaced_snoc; [assumption|]. intros l' a E0. unfold far in Hf.
        destruct (r_path s) as [|b l]; [destruct l'; discriminate|].
        rewrite (last_cons _ _ _ _ E0) in Hf. destruct (Rlt_dec d (dist2d a p)) as [Hd|]; [|discriminate].
        rewrite dist2d_planar in Hd. exact Hd. }
      assert (Ho : match o with Some l => spaced d l /\ exists q, @RLoop Q (Some p) = RLoop (Some q) /\ l = r_path s ++ [q] | None => True end).
      { destruct far; [|destruct (r_clear s); injection E as _ <-; exact I].
        destruct (r_clear s); injection E as _ <-; (split; [auto|exists p; auto]). }
      split; [|exact Ho]. rewrite <- H3. destruct (r_clear s).
      + injection E as <- _. cbn [fst snd]. repeat split; cbn [r_path]; try constructor.
        * intros l1 a b l2 E0. destruct l1; discriminate.
        * intros a l E0. discriminate.
        * intros l q E0. destruct l; discriminate.
      + injection E as <- _. cbn [fst snd]. unfold rinv. cbn [r_path r_clear].
        destruct far eqn:Ef.
        * repeat split; [auto|constructor; assumption| |].
          -- intros a l E0. destruct seen as [|b seen'].
             ++ rewrite (proj2 Hseen eq_refl). simpl in E0. injection E0 as <- <-. exists []. reflexivity.
             ++ injection E0 as -> _. destruct (H4 a seen' eq_refl) as [l' ->]. eexists. reflexivity.
          -- intros l q E0. apply app_inj_tail in E0 as [_ <-]. exists (r_path s), p. auto.
        * unfold far in Ef. destruct (r_path s) as [|a l] eqn:Er; [discriminate|].
          destruct (decompose_last a l) as [l' El].
          repeat split; [assumption|constructor; assumption| |].
          -- intros b k E0. destruct seen as [|c seen'].
             ++ exfalso. assert (a :: l = []) by (apply Hseen; reflexivity). discriminate.
             ++ injection E0 as -> _. destruct (H4 b seen' eq_refl) as [l'' E']. injection E' as -> ->. eexists. reflexivity.
          -- intros k q E0. apply app_inj_tail in E0 as [_ <-]. exists l', (last l a). split; [exact El|].
             left. destruct (Rlt_dec d (dist2d (last l a) p)) as [|Hn]; [discriminate|].
             rewrite dist2d_planar in Hn. lra.
    - injection E as <- <-. split; [|exact I]. repeat split; assumption.
  Qed.

  Lemma run_inv (es : list ev) : exists s o, run rst0 es = (s, o) /\
    (exists pend, rinv s (seen_since_clear es) pend) /\
    forall l, In (Some l) o -> spaced d l.
  Proof.
    assert (G : exists s o, run rst0 es = (s, o) /\
      let acc := fold_left (fun acc e => match e with
       | RClearRequest => (fst acc, true)
       | RLoop None => acc
       | RLoop (Some p) => if snd acc then ([], false) else (fst acc ++ [p], false)
       end) es ([], false) in rinv s (fst acc) (snd acc) /\ forall l, In (Some l) o -> spaced d l).
    2:{ destruct G as (s & o & H1 & H2 & H3). exists s, o. split; [assumption|]. split; [eexists; exact H2|assumption]. }
    induction es as [|e es IH] using rev_ind.
    - exists rst0, []. split; [reflexivity|]. split; [|intros l []]. repeat split; cbn; try constructor.
      + intros l1 a b l2 E0. destruct l1; discriminate.
      + intros a l E0. discriminate.
      + intros l q E0. destruct l; discriminate.
    - destruct IH as (s & o & Hr & Hi & Ho). rewrite rrun_app, Hr. cbn [rrun].
      destruct (rstep d s e) as [s' o'] eqn:Es. do 2 eexists. split; [reflexivity|].
      rewrite fold_left_app. cbn [fold_left].
      destruct (step_inv _ _ _ _ _ _ Hi Es) as [Hi' Ho']. split.
      + set (acc := fold_left _ es ([], false)) in *. destruct e as [|[p|]]; try exact Hi'.
      + intros l Hl. apply in_app_or in Hl as [Hl|[->|[]]]; [auto|]. apply Ho'.
  Qed.

  (** C41: after every history of transforms, transform failures and clear requests,
      - the recorded path and every path ever published are spaced by more than the
        interval;
      - the recorded poses are poses the robot was seen at since the last clear, in
        order;
      - the first pose seen since the last clear is the first recorded one (clearing
        restarts recording);
      - the newest pose seen is recorded or within the interval of the newest recorded. *)
  Theorem C41_recorded_path_is_spaced (es : list ev) : exists s o, run rst0 es = (s, o) /\
    spaced d (r_path s) /\
    (forall l, In (Some l) o -> spaced d l) /\
    sub (r_path s) (seen_since_clear es) /\
    (forall a l, seen_since_clear es = a :: l -> exists l', r_path s = a :: l') /\
    (forall l p, seen_since_clear es = l ++ [p] ->
       exists l' q, r_path s = l' ++ [q] /\ (planar q p <= d \/ q = p)).
  Proof.
    destruct (run_inv es) as (s & o & Hr & (pend & H1 & H2 & _ & H3 & H4) & Ho).
    exists s, o. repeat split; assumption.
  Qed.

  (** Every published path is the recorded path at that moment. *)
  Theorem C41_every_addition_is_published (es : list ev) p s o : run rst0 es = (s, o) ->
    exists s', run rst0 (es ++ [RLoop (Some p)]) =
      (s', o ++ [if match r_path s with [] => true
                 | _ => if Rlt_dec d (planar (last (r_path s) p) p) then true else false end
               then Some (r_path s ++ [p]) else None]).
  Proof.
    intros Hr. rewrite rrun_app, Hr. cbn [rrun rstep]. eexists. f_equal. f_equal. f_equal.
    destruct (r_path s) as [|a l]; [reflexivity|].
    destruct (decompose_last a l) as [l' El].
    assert (last (a :: l) p = last l a) as -> by (rewrite El at 1; apply last_last).
    rewrite dist2d_planar. destruct (Rlt_dec d (planar (last l a) p)); reflexivity.
  Qed.

  (** Finding: while the transform is unavailable a clear request is never served: the
      loop [continue]s before [spinOnce] (trajectory_recorder.cpp:131-135,162). *)
  Theorem C41_clear_is_served_refuted (p : pose) (n : nat) :
    exists s o, run rst0 ([RLoop (Some p); RClearRequest] ++ repeat (RLoop None) n) = (s, o) /\ r_path s = [p].
  Proof.
    rewrite rrun_app. cbn [rrun rstep rst0 r_path r_clear app].
    assert (G : forall n, exists o, run (mkR [p] true) (repeat (RLoop None) n) = (mkR [p] true, o)).
    { induction n0 as [|k [o IH]]; [eexists; reflexivity|]. cbn [repeat rrun rstep]. rewrite IH. eexists; reflexivity. }
    destruct (G n) as [o ->]. do 2 eexists. split; reflexivity.
  Qed.

  (** The saver keeps the first path it could write. *)
  Theorem C41_saver_keeps_first_path (msgs : list (bool * list pose)) :
    fold_left save_step msgs None = option_map snd (find fst msgs).
  Proof.
    assert (K : forall (l : list (bool * list pose)) p, fold_left save_step l (Some p) = Some p).
    { induction l as [|m l IH]; intros p; [reflexivity|]. cbn [fold_left save_step]. apply IH. }
    induction msgs as [|[b l] msgs IH]; [reflexivity|]. cbn [fold_left save_step find fst snd].
    destruct b; [apply K|assumption].
  Qed.
End Proofs.

(** Non-vacuity: three poses, the middle one too near to be recorded. *)
Example C41_example :
  fst (rrun 1 rst0 [RLoop (Some (mkRP 0 0 tt)); RLoop None; RLoop (Some (mkRP (1/2) 0 tt)); RLoop (Some (mkRP 2 0 tt))])
  = mkR [mkRP 0 0 tt; mkRP 2 0 tt] false.
Proof.
  cbn [rrun rstep rst0 r_path r_clear fst last app].
  assert (E1 : dist2d (mkRP 0 0 tt) (mkRP (1/2) 0 tt) = 1/2).
  { unfold dist2d; cbn [rp_x rp_y]. replace ((0 - 1/2) ^ 2 + (0 - 0) ^ 2) with ((1/2) ^ 2) by field.
    rewrite sqrt_pow2; lra. }
  assert (E2 : dist2d (mkRP 0 0 tt) (mkRP 2 0 tt) = 2).
  { unfold dist2d; cbn [rp_x rp_y]. replace ((0 - 2) ^ 2 + (0 - 0) ^ 2) with (2 ^ 2) by ring.
    rewrite sqrt_pow2; lra. }
  rewrite E1. destruct (Rlt_dec 1 (1/2)); [lra|]. cbn [r_path r_clear last app]. rewrite E2.
  destruct (Rlt_dec 1 2); [reflexivity|lra].
Qed.

Print Assumptions C41_recorded_path_is_spaced.
Print Assumptions C41_every_addition_is_published.
Print Assumptions C41_clear_is_served_refuted.
Print Assumptions C41_saver_keeps_first_path.
