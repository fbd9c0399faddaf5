(** Property C29: the accumulator of sensor clouds. *)
From Verif Require Import Common Accum.
Local Open Scope Z_scope.

(** ** Specification *)
Section Spec.
  Context {T : Type}.
  (** Older than the hold time when [now] is the newest stamp. *)
  Definition too_old (hold now : Z) (p : points T) : Prop := stamp p + hold < now.
  (** [l] keeps the order of [l0]: it is [l0] with some elements left out. *)
  Inductive keeps_order : list (points T) -> list (points T) -> Prop :=
  | ko_nil : keeps_order [] []
  | ko_keep p l l0 : keeps_order l l0 -> keeps_order (p :: l) (p :: l0)
  | ko_drop p l l0 : keeps_order l l0 -> keeps_order l (p :: l0).
  (** Every second element, starting with the second. *)
  Fixpoint odd_places (l : list (points T)) : list (points T) :=
    match l with _ :: p :: l' => p :: odd_places l' | _ => [] end.

  Lemma keeps_refl l : keeps_order l l.
  Proof. induction l; constructor; assumption. Qed.
  Lemma keeps_trans l1 l2 l3 : keeps_order l1 l2 -> keeps_order l2 l3 -> keeps_order l1 l3.
  Proof. intros H1 H2. revert l1 H1. induction H2; intros l1 H1; [assumption| |constructor; auto]. inversion H1; subst; constructor; auto. Qed.
  Lemma keeps_app l1 l2 p : keeps_order l1 l2 -> keeps_order (l1 ++ [p]) (l2 ++ [p]).
  Proof. induction 1; cbn; [apply keeps_refl|constructor; assumption..]. Qed.

  Variable hold : Z.

  Lemma expired_iff now p : expired hold now p = true <-> too_old hold now p.
  Proof. unfold expired, too_old. apply Z.ltb_lt. Qed.

  Lemma expire_facts now l : forall l', expire hold now l = Ok l' ->
    keeps_order l' l /\ forall p, In p l -> ~ too_old hold now p -> In p l'.
  Proof.
    remember (length l) as n eqn:E. revert l E. induction n as [n IH] using lt_wf_ind. intros [|p l] E l' H.
    - injection H as <-. split; [constructor|auto].
    - cbn in H. destruct (expired hold now p) eqn:X.
      + destruct l as [|p' l]; [discriminate|]. destruct (expire hold now l) as [r|] eqn:Er; [|discriminate]. cbn in H. injection H as <-.
        destruct (IH (length l) ltac:(cbn in E; lia) l eq_refl r Er) as [A B]. split; [repeat constructor; assumption|].
        apply expired_iff in X. intros q [<-|[<-|Hq]] N; [contradiction|left; reflexivity|right; auto].
      + injection H as <-. split; [apply keeps_refl|auto].
  Qed.

  (** What really happens to a list that begins with expired clouds. *)
  Lemma expire_prefix now old rest : (forall p, In p old -> too_old hold now p) ->
    (forall p, hd_error rest = Some p -> ~ too_old hold now p) ->
    expire hold now (old ++ rest) =
      if Nat.even (length old) then Ok (odd_places old ++ rest)
      else match rest with [] => UB | p :: rest' =>
        do r <- expire hold now rest'; Ok (odd_places old ++ p :: r) end.
  Proof.
    remember (length old) as n eqn:E. revert old E. induction n as [n IH] using lt_wf_ind. intros [|p [|p' old]] E O R; subst n.
    - cbn. destruct rest as [|q rest]; [reflexivity|]. cbn. destruct (expired hold now q) eqn:X; [|reflexivity].
      apply expired_iff in X. destruct (R q eq_refl X).
    - cbn. rewrite (proj2 (expired_iff now p)) by (apply O; left; reflexivity). destruct rest; reflexivity.
    - cbn [length Nat.even app expire odd_places]. rewrite (proj2 (expired_iff now p)) by (apply O; left; reflexivity).
      rewrite (IH (length old) ltac:(cbn; lia) old eq_refl) by (auto; intros q Hq; apply O; right; right; exact Hq).
      destruct (Nat.even (length old)); [reflexivity|]. destruct rest as [|q rest]; [reflexivity|].
      destruct (expire hold now rest); reflexivity.
  Qed.
End Spec.

(** ** Theorems *)

(** Nothing recent is lost, the order is kept and the new cloud is the last: after any sequence of pushes, a cloud that
    never was too old for a later push is still held. *)
Theorem C29_recent_clouds_are_kept {T} hold (ps : list (points T)) l :
  pushes hold ps = Ok l ->
  keeps_order l ps /\
  (forall p ps0, ps = ps0 ++ [p] -> exists l0, l = l0 ++ [p]) /\
  (forall ps1 p ps2, ps = ps1 ++ p :: ps2 -> (forall p', In p' ps2 -> ~ too_old hold (stamp p') p) -> In p l).
Proof.
  revert l. induction ps as [|q ps IH] using rev_ind; intros l E.
  - injection E as <-. split; [constructor|]. split; [intros p [|]; discriminate|intros [|]; discriminate].
  - unfold pushes in E. rewrite foldM_app in E. change (foldM (push hold) ps []) with (pushes hold ps) in E.
    destruct (pushes hold ps) as [l1|] eqn:E1; [|discriminate]. cbn [bind foldM] in E. unfold push in E.
    destruct (expire hold (stamp q) l1) as [r|] eqn:Er; [|discriminate]. cbn in E. injection E as <-.
    destruct (IH l1 eq_refl) as (A & _ & C). destruct (expire_facts hold (stamp q) l1 r Er) as [K1 K2].
    split; [apply keeps_app; eapply keeps_trans; eassumption|]. split.
    + intros p ps0 Ep. apply app_inj_tail in Ep. destruct Ep as [_ <-]. exists r. reflexivity.
    + intros ps1 p ps2 Ep N. apply in_or_app. destruct ps2 as [|z ps2] using rev_ind.
      * right. left. change (ps1 ++ [p]) with (ps1 ++ [p]) in Ep. apply app_inj_tail in Ep. apply Ep.
      * left. clear IHps2. rewrite app_comm_cons, app_assoc in Ep. apply app_inj_tail in Ep. destruct Ep as [-> ->].
        apply K2.
        { apply (C ps1 p ps2 eq_refl). intros p' Hp'. apply N. apply in_or_app. left. exact Hp'. }
        { apply N. apply in_or_app. right. left. reflexivity. }
Qed.

(** Exact expiry of one push when at most one held cloud is too old, it is the oldest, and it is not the only one
    (a sensor with a steady rate). *)
Theorem C29_push_expires_exactly_partial {T} hold (l : list (points T)) p :
  (forall q, In q (tl l) -> ~ too_old hold (stamp p) q) -> (length l <> 1)%nat ->
  exists l', push hold l p = Ok (l' ++ [p]) /\ keeps_order l' l /\ forall q, In q l' <-> In q l /\ ~ too_old hold (stamp p) q.
Proof.
  intros H L. unfold push. destruct l as [|a l]; [exists []; split; [reflexivity|]; split; [constructor|]; cbn; tauto|].
  cbn [tl] in H. destruct (expired hold (stamp p) a) eqn:X.
  - destruct l as [|b l]; [cbn in L; lia|]. cbn [expire]. rewrite X. 
    assert (E : expire hold (stamp p) l = Ok l).
    { destruct l as [|c l]; [reflexivity|]. cbn. destruct (expired hold (stamp p) c) eqn:Y; [|reflexivity].
      apply expired_iff in Y. destruct (H c ltac:(right; left; reflexivity) Y). }
    rewrite E. cbn [bind]. exists (b :: l). split; [reflexivity|]. split; [constructor; apply keeps_refl|].
    apply expired_iff in X. intros q. split.
    + intros Q. split; [right; exact Q|apply H; exact Q].
    + intros [[<-|Q] N]; [contradiction|exact Q].
  - cbn [expire]. rewrite X. cbn [bind]. exists (a :: l). split; [reflexivity|]. split; [apply keeps_refl|].
    intros q. split; [|tauto]. intros [<-|Q]; (split; [auto using in_eq|]); [|right; exact Q|apply H; exact Q].
    + rewrite <- expired_iff. congruence.
Qed.

(** What one push does to held clouds of which the first [n] are too old: every second one is removed. *)
Theorem C29_push_removes_every_second_expired_cloud {T} hold (old recent : list (points T)) p :
  (forall q, In q old -> too_old hold (stamp p) q) -> (forall q, In q recent -> ~ too_old hold (stamp p) q) ->
  push hold (old ++ recent) p = if Nat.odd (length old) && (match recent with [] => true | _ => false end) then UB
                                else Ok (odd_places old ++ recent ++ [p]).
Proof.
  intros O R. unfold push. rewrite (expire_prefix hold (stamp p) old recent O).
  2:{ intros q Hq. destruct recent; [discriminate|]. injection Hq as ->. apply R. left. reflexivity. }
  unfold Nat.odd. destruct (Nat.even (length old)); cbn [negb andb bind]; [rewrite app_assoc; reflexivity|].
  destruct recent as [|q recent]; [reflexivity|].
  assert (E : expire hold (stamp p) recent = Ok recent).
  { destruct recent as [|c l]; [reflexivity|]. cbn. destruct (expired hold (stamp p) c) eqn:Y; [|reflexivity].
    apply expired_iff in Y. destruct (R c ltac:(right; left; reflexivity) Y). }
  rewrite E. cbn [bind]. rewrite <- app_assoc. reflexivity.
Qed.

(** ** Findings and examples *)
Definition at_time (t : Z) : points nat := Points (Z.to_nat t) t.

(** Two clouds are too old: the second one stays. *)
Theorem C29_expired_clouds_are_removed_refuted :
  exists l, push 10 [at_time 0; at_time 1; at_time 15] (at_time 20) = Ok l /\ In (at_time 1) l /\ too_old 10 20 (at_time 1).
Proof. eexists. split; [vm_compute; reflexivity|]. split; [left; reflexivity|]. unfold too_old. cbn. lia. Qed.
(** The only held cloud is too old (with hold time 0, the single-shot input: every second push): undefined behaviour. *)
Theorem C29_push_is_defined_refuted : push 0 [at_time 0] (at_time 1) = UB.
Proof. reflexivity. Qed.

Example C29_example : exists l, pushes 10 (map at_time [0; 5; 9; 14; 18]) = Ok l /\ map stamp l = [9; 14; 18].
Proof. eexists. split; vm_compute; reflexivity. Qed.
Example C29_partial_example : (forall q, In q (tl (map at_time [0; 5; 9])) -> ~ too_old 10 14 q) /\ length (map at_time [0; 5; 9]) <> 1%nat.
Proof. split; [|discriminate]. intros q [<-|[<-|[]]]; unfold too_old; cbn; lia. Qed.

Print Assumptions C29_recent_clouds_are_kept.
Print Assumptions C29_push_expires_exactly_partial.
Print Assumptions C29_push_removes_every_second_expired_cloud.
