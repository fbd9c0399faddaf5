(** Properties C42 (joystick interrupt) and C43 (joystick multiplexer). *)
From Coq Require Import ZifyBool ZifyNat.
From Verif Require Import Common Joystick.
Local Open Scope Z_scope.

(** *** Specification. *)
(** Value of a button or axis number, if the array is long enough. *)
Definition entry {T} (l : list T) (i : Z) : option T :=
  if i <? 0 then None else nth_error l (Z.to_nat i).
Definition pressed (bs : list bool) (b : Z) : bool :=
  match entry bs b with Some v => v | None => false end.

Section InterruptSpec.
  Context {A V : Type}.
  (** Time of the interrupt that holds after a history: that of the last joystick
      message if it had the button pressed. *)
  Definition holding (button : Z) (es : list (@jev A V)) : option Z :=
    fold_left (fun h e => match e with
                          | EvJoy now m => if pressed (j_buttons m) button then Some now else None
                          | EvTwist _ _ => h end) es None.
  (** Last navigation command received. *)
  Definition last_command (z : @twist V) (es : list (@jev A V)) : twist :=
    fold_left (fun h e => match e with EvJoy _ _ => h | EvTwist _ t => t end) es z.
  Definition joy_times_positive (es : list (@jev A V)) : Prop :=
    forall now m, In (EvJoy now m) es -> 0 < now.

  Variables (a0 : A) (abs_gt : A -> A -> bool).
  (** The reading of a stick configured with two alternative axes: the second one
      only when it is pushed further than the first. *)
  Definition stick (axes : list A) (i j : Z) : A :=
    let v := match entry axes i with Some a => a | None => a0 end in
    let w := match entry axes j with Some a => a | None => a0 end in
    if abs_gt w v then w else v.
End InterruptSpec.

Section MuxSpec.
  Context {M : Type}.
  (** The joystick input is selected with a button press received at time [t]: the
      last usable joystick message was that press, and no later timer tick found it
      older than the timeout.  [None] stands for the default input 0. *)
  Definition selection (timeout button : Z) (es : list (@mev M)) : option Z :=
    fold_left (fun h e => match e with
       | MJoy now bs => match entry bs button with
                        | Some b => if b then Some now else None
                        | None => h end
       | MTopic _ _ _ => h
       | MTimer now => match h with
                       | Some t => if timeout <? now - t then None else Some t
                       | None => None end
       end) es None.
  Definition forwards (sel : option Z) (id : Z) : bool :=
    match sel with Some _ => id =? 1 | None => id =? 0 end.
End MuxSpec.

(** *** Proofs. *)
Definition int32 (i : Z) : Prop := - 2 ^ 31 <= i < 2 ^ 31.
(** Arrays of a message hold fewer than 2^32 entries (serialised length). *)
Definition msg_array {T} (l : list T) : Prop := Z.of_nat (length l) < 2 ^ 32.

Lemma range_ok {T} (l : list T) i : int32 i -> msg_array l ->
  (out_of_range i (length l) = true /\ entry l i = None) \/
  (out_of_range i (length l) = false /\ exists v, entry l i = Some v /\ vec_at l i = Ok v).
Proof.
  unfold int32, msg_array, out_of_range, entry, vec_at. intros Hi Hl.
  destruct (Z_lt_dec i 0) as [H|H].
  - left. replace (i <? 0) with true by lia. split; [|reflexivity].
    replace (i mod 2 ^ 64) with (i + 2 ^ 64) by (rewrite <- (Z.mod_add i 1 (2^64)), Z.mod_small; lia). lia.
  - replace (i <? 0) with false by lia. rewrite Z.mod_small by lia.
    destruct (nth_error l (Z.to_nat i)) as [v|] eqn:E.
    + right. assert (nth_error l (Z.to_nat i) <> None) as Hn by congruence. apply nth_error_Some in Hn.
      split; [lia|eauto].
    + left. apply nth_error_None in E. split; [lia|reflexivity].
Qed.

Section InterruptProofs.
  Context {A V : Type}.
  Variables (a0 : A) (abs_gt : A -> A -> bool) (hi_lin hi_ang : A -> A)
            (gain_x gain_y gain_ang : A -> V) (v0 : V) (P : jparams).
  Notation step := (jstep a0 abs_gt hi_lin hi_ang gain_x gain_y gain_ang v0 P).
  Notation run := (jrun a0 abs_gt hi_lin hi_ang gain_x gain_y gain_ang v0 P).
  Notation ev := (@jev A V).

  Definition params_ok : Prop :=
    int32 (jp_button P) /\ int32 (jp_high P) /\ int32 (jp_lin P) /\ int32 (jp_lin2 P) /\
    int32 (jp_liny P) /\ int32 (jp_liny2 P) /\ int32 (jp_ang P) /\ int32 (jp_ang2 P).
  Definition joy_ok (m : @joy A) : Prop := msg_array (j_axes m) /\ msg_array (j_buttons m).
  Definition events_ok (es : list ev) : Prop :=
    forall e, In e es -> match e with EvJoy now m => 0 < now /\ joy_ok m | EvTwist _ _ => True end.

  Lemma getJoyValue_spec m i j : int32 i -> int32 j -> joy_ok m ->
    getJoyValue a0 abs_gt m i j = Ok (stick a0 abs_gt (j_axes m) i j).
  Proof.
    intros Hi Hj [Ha _]. unfold getJoyValue, stick.
    assert (forall k, int32 k -> getAxisValue a0 m k
              = Ok (match entry (j_axes m) k with Some a => a | None => a0 end)) as G.
    { intros k Hk. unfold getAxisValue. destruct (Z_lt_dec k 0).
      - replace (k <? 0) with true by lia. unfold entry. replace (k <? 0) with true by lia. reflexivity.
      - replace (k <? 0) with false by lia.
        destruct (range_ok (j_axes m) k Hk Ha) as [[-> ->]|(-> & v & -> & ->)]; reflexivity. }
    rewrite (G i Hi), (G j Hj). reflexivity.
  Qed.

  (** What the robot is told by a joystick message with the button pressed. *)
  Definition joystick_command (m : @joy A) : twist :=
    let hs := pressed (j_buttons m) (jp_high P) in
    let x := stick a0 abs_gt (j_axes m) (jp_lin P) (jp_lin2 P) in
    let y := stick a0 abs_gt (j_axes m) (jp_liny P) (jp_liny2 P) in
    let a := stick a0 abs_gt (j_axes m) (jp_ang P) (jp_ang2 P) in
    mkTw (gain_x (if hs then hi_lin x else x)) (gain_y (if hs then hi_lin y else y)) v0 v0 v0
         (gain_ang (if hs then hi_ang a else a)).

  Lemma step_joy s now m : params_ok -> joy_ok m ->
    step s (EvJoy now m) =
    Ok (if pressed (j_buttons m) (jp_button P)
        then (mkJst now (js_twist s), [joystick_command m])
        else (mkJst 0 (js_twist s),
              match entry (j_buttons m) (jp_button P) with
              | Some _ => if negb (js_last s =? 0) then [js_twist s] else []
              | None => [] end)).
  Proof.
    intros (H1 & H2 & H3 & H4 & H5 & H6 & H7 & H8) Hm. pose proof Hm as [Ha Hb].
    unfold jstep, pressed.
    destruct (range_ok (j_buttons m) (jp_button P) H1 Hb) as [[-> ->]|(-> & v & -> & Hv)]; [reflexivity|].
    rewrite Hv. cbn [bind]. destruct v; cbn [negb]; [|destruct (js_last s =? 0); reflexivity].
    rewrite !getJoyValue_spec by assumption. cbn [bind].
    unfold joystick_command, pressed.
    destruct (Z_lt_dec (jp_high P) 0) as [H|H].
    - replace (0 <=? jp_high P) with false by lia. unfold entry at 1 2 3.
      replace (jp_high P <? 0) with true by lia. reflexivity.
    - replace (0 <=? jp_high P) with true by lia.
      destruct (range_ok (j_buttons m) (jp_high P) H2 Hb) as [[-> ->]|(-> & w & -> & Hw)]; [reflexivity|].
      rewrite Hw. reflexivity.
  Qed.

  Definition repr (s : @jst V) (es : list ev) : Prop :=
    js_twist s = last_command (tw0 v0) es /\
    js_last s = match holding (jp_button P) es with Some t => t | None => 0 end.

  Lemma run_app es1 es2 : forall s, run s (es1 ++ es2) =
    (do r1 <- run s es1; do r2 <- run (fst r1) es2; Ok (fst r2, snd r1 ++ snd r2)).
  Proof.
    induction es1 as [|e es1 IH]; intros s.
    - cbn [app jrun bind fst snd]. destruct (run s es2) as [[? ?]|]; reflexivity.
    - cbn [app jrun]. destruct (step s e) as [[s1 o1]|]; cbn [bind]; [|reflexivity]. rewrite IH. cbn [fst].
      destruct (run s1 es1) as [[s2 o2]|]; cbn [bind fst snd]; [|reflexivity].
      destruct (run s2 es2) as [[s3 o3]|]; reflexivity.
  Qed.

  Lemma run_repr es : params_ok -> events_ok es ->
    exists s o, run (jst0 v0) es = Ok (s, o) /\ repr s es.
  Proof.
    intros HP. induction es as [|e es IH] using rev_ind; intros He.
    - exists (jst0 v0), []. repeat split.
    - destruct IH as (s & o & Hr & H1 & H2); [intros e' ?; apply He; apply in_or_app; auto|].
      assert (match e with EvJoy now m => 0 < now /\ joy_ok m | EvTwist _ _ => True end) as He0
        by (apply He, in_or_app; simpl; auto).
      rewrite run_app, Hr. cbn [bind fst snd jrun]. unfold repr, holding, last_command.
      rewrite !fold_left_app. cbn [fold_left].
      fold (holding (jp_button P) es). fold (last_command (tw0 v0) es).
      destruct e as [now m|now t].
      + destruct He0 as [Hn Hm]. rewrite (step_joy s now m HP Hm).
        destruct (pressed (j_buttons m) (jp_button P)); cbn [bind fst snd]; do 2 eexists; split;
          [reflexivity|split; assumption || reflexivity|reflexivity|split; assumption || reflexivity].
      + cbn [jstep bind fst snd]. do 2 eexists; split; [reflexivity|]. split; [reflexivity|assumption].
  Qed.

  Lemma holding_pos es : events_ok es -> forall t, holding (jp_button P) es = Some t -> 0 < t.
  Proof.
    induction es as [|e es IH] using rev_ind; intros He t; [discriminate|].
    unfold holding. rewrite fold_left_app. cbn [fold_left]. fold (holding (jp_button P) es).
    specialize (He e) as He0. destruct e as [now m|now tw].
    - destruct He0 as [Hn _]; [apply in_or_app; simpl; auto|].
      destruct (pressed _ _); [injection 1 as <-; lia|discriminate].
    - apply IH. intros e' ?; apply He, in_or_app; auto.
  Qed.

  (** The three observable behaviours after an arbitrary history [es]. *)
  Definition outputs_of_next (es : list ev) (e : ev) (out : list twist) : Prop :=
    exists s o s', run (jst0 v0) (es ++ [e]) = Ok (s', o ++ [out]) /\ run (jst0 v0) es = Ok (s, o).

  (** C42, first half: while an interrupt is held and recent, the navigation command
      is dropped; otherwise it is forwarded unchanged.  (In wall-clock operation the
      clock must have passed the timeout once; with simulated time no such need.) *)
  Theorem C42_priority es now t : params_ok -> events_ok es ->
    jp_sim P = true \/ jp_timeout P < now ->
    outputs_of_next es (EvTwist now t)
      (match holding (jp_button P) es with
       | Some tj => if now - tj <=? jp_timeout P then [] else [t]
       | None => [t]
       end).
  Proof.
    intros HP He Hn. destruct (run_repr es HP He) as (s & o & Hr & H1 & H2).
    exists s, o. eexists. rewrite run_app, Hr. cbn [bind jrun jstep fst snd]. split; [|reflexivity].
    f_equal. f_equal. f_equal. f_equal. rewrite H2. pose proof (holding_pos es He) as Hp.
    destruct (holding (jp_button P) es) as [tj|].
    - specialize (Hp tj eq_refl). replace (tj =? 0) with false by lia. rewrite andb_false_r, orb_false_r.
      destruct (now - tj <=? jp_timeout P) eqn:E; [replace (jp_timeout P <? now - tj) with false by lia
                                                  |replace (jp_timeout P <? now - tj) with true by lia]; reflexivity.
    - rewrite Z.sub_0_r. destruct Hn as [->|Hn]; [rewrite orb_true_r; reflexivity|].
      replace (jp_timeout P <? now) with true by lia. reflexivity.
  Qed.

  (** C42, second half: a joystick message with the button pressed commands exactly
      the configured gains times the sticks, whatever the array lengths; one with the
      button released ends the interrupt and re-issues the last navigation command
      once; one with too few buttons commands nothing. *)
  Theorem C42_joystick_commands es now m : params_ok -> events_ok es -> joy_ok m ->
    outputs_of_next es (EvJoy now m)
      (match entry (j_buttons m) (jp_button P) with
       | Some true => [joystick_command m]
       | Some false => match holding (jp_button P) es with
                       | Some _ => [last_command (tw0 v0) es]
                       | None => [] end
       | None => []
       end).
  Proof.
    intros HP He Hm. destruct (run_repr es HP He) as (s & o & Hr & H1 & H2).
    unfold outputs_of_next. rewrite run_app, Hr. cbn [bind jrun fst snd]. rewrite (step_joy s now m HP Hm).
    unfold pressed. pose proof (holding_pos es He) as Hp.
    destruct (entry (j_buttons m) (jp_button P)) as [[|]|]; cbn [bind fst snd].
    - exists s, o. eexists. split; reflexivity.
    - exists s, o. eexists. split; [|reflexivity].
      do 4 f_equal. rewrite H1, H2. destruct (holding (jp_button P) es) as [tj|]; [|reflexivity].
      specialize (Hp tj eq_refl). replace (tj =? 0) with false by lia. reflexivity.
    - exists s, o. eexists. split; reflexivity.
  Qed.

  (** The command re-issued at release can be arbitrarily old: the navigation stack
      sent [t] once, long before, and nothing since.  (joystick_interrupt.cpp:104-109;
      a safety finding: there is no age check on [last_input_twist_].) *)
  Theorem C42_released_command_is_fresh_refuted : params_ok -> 0 <= jp_button P ->
    forall (t : twist) (age : Z) (held free : @joy A),
      joy_ok held -> joy_ok free -> 0 <= age ->
      entry (j_buttons held) (jp_button P) = Some true ->
      entry (j_buttons free) (jp_button P) = Some false ->
      exists o, run (jst0 v0) [EvTwist 1 t; EvJoy (2 + age) held; EvJoy (3 + age) free]
                = Ok (mkJst 0 t, o ++ [[t]]).
  Proof.
    intros HP Hb t age held free Hh Hf Ha E1 E2.
    set (hist := [EvTwist 1 t; EvJoy (2 + age) held] : list ev).
    assert (events_ok hist) as He by (intros e [<-|[<-|[]]]; [exact I|split; [lia|assumption]]).
    cbn [jrun]. unfold jstep at 1. cbn [bind fst snd js_last].
    rewrite step_joy by assumption. unfold pressed. rewrite E1. cbn [bind fst snd js_twist].
    rewrite step_joy by assumption. unfold pressed. rewrite E2. cbn [bind fst snd js_twist js_last].
    replace (2 + age =? 0) with false by lia. cbn [negb].
    exists [if (jp_timeout P <? 1 - 0) || jp_sim P && true then [t] else []; [joystick_command held]].
    reflexivity.
  Qed.
End InterruptProofs.

(** Non-vacuity: default configuration, a pad with 8 buttons and 4 axes; the left
    stick is pushed, button 6 held at 1.0 s, navigation commands at 1.2 s and 2.0 s. *)
Module InterruptExample.
  Definition P := mkJP 500000000 6 (-1) false 1 (-1) (-1) (-1) 0 (-1).
  Definition agt (x y : Z) := Z.abs y <? Z.abs x.
  Definition pad b := mkJoy [3; 7; 0; 0] [false; false; false; false; false; false; b; false].
  Definition nav x := mkTw x 0 0 0 0 x.
  Definition run := jrun 0 agt (fun x => 2 * x) (fun x => 2 * x) (fun x => 5 * x) (fun x => x) (fun x => 8 * x) 0 P.
  Definition hist := [EvTwist 900000000 (nav 1); EvJoy 1000000000 (pad true)].
  Example hypotheses_met : params_ok P /\ events_ok hist /\ joy_ok (pad true) /\ jp_timeout P < 900000000 /\
    holding 6 hist = Some 1000000000.
  Proof.
    unfold params_ok, int32. cbn [jp_button jp_high jp_lin jp_lin2 jp_liny jp_liny2 jp_ang jp_ang2 P].
    split; [lia|]. split; [|split; [split; reflexivity|split; [reflexivity|reflexivity]]].
    intros e [<-|[<-|[]]]; [exact I|]. split; [reflexivity|split; reflexivity].
  Qed.
  Example behaviour : exists s,
    run (jst0 0) (hist ++ [EvTwist 1200000000 (nav 2); EvTwist 2000000000 (nav 3); EvJoy 2100000000 (pad false)])
    = Ok (s, [[nav 1]; [mkTw 35 0 0 0 0 24]; []; [nav 3]; [nav 3]]).
  Proof. eexists. vm_compute. reflexivity. Qed.
End InterruptExample.

Section MuxProofs.
  Context {M : Type}.
  Variables (timeout button : Z) (t0 : Z).
  Notation ev := (@mev M).
  Notation run := (mrun (M := M) timeout button).
  Notation step := (mstep (M := M) timeout button).

  Definition mevents_ok (es : list ev) : Prop :=
    forall now bs, In (MJoy now bs) es -> msg_array bs.

  Lemma mrun_app es1 es2 : forall s, run s (es1 ++ es2) =
    (do r1 <- run s es1; do r2 <- run (fst r1) es2; Ok (fst r2, snd r1 ++ snd r2)).
  Proof.
    induction es1 as [|e es1 IH]; intros s.
    - cbn [app mrun bind fst snd]. destruct (run s es2) as [[? ?]|]; reflexivity.
    - cbn [app mrun]. destruct (step s e) as [[s1 o1]|]; cbn [bind]; [|reflexivity]. rewrite IH. cbn [fst].
      destruct (run s1 es1) as [[s2 o2]|]; cbn [bind fst snd]; [|reflexivity].
      destruct (run s2 es2) as [[s3 o3]|]; reflexivity.
  Qed.

  Definition mrepr (s : mst) (sel : option Z) : Prop :=
    match sel with Some t => s = mkM t 1 | None => ms_sel s = 0 end.

  Lemma mrun_repr es : int32 button -> mevents_ok es ->
    exists s o, run (minit t0) es = Ok (s, o) /\ mrepr s (selection timeout button es).
  Proof.
    intros Hb. induction es as [|e es IH] using rev_ind; intros He.
    - exists (minit t0), []. split; reflexivity.
    - destruct IH as (s & o & Hr & H); [intros now bs ?; eapply He, in_or_app; eauto|].
      rewrite mrun_app, Hr. unfold selection. rewrite fold_left_app. cbn [fold_left].
      fold (selection timeout button es). cbn [bind mrun fst snd].
      destruct e as [now bs|now id m|now]; cbn [mstep].
      + destruct (range_ok bs button Hb) as [[-> ->]|(-> & v & -> & Hv)].
        * eapply He, in_or_app; simpl; eauto.
        * cbn [bind fst snd]. do 2 eexists. split; [reflexivity|assumption].
        * rewrite Hv. cbn [bind fst snd]. do 2 eexists. split; [reflexivity|]. destruct v; reflexivity.
      + cbn [bind fst snd]. do 2 eexists. split; [reflexivity|assumption].
      + cbn [bind fst snd]. do 2 eexists. split; [reflexivity|].
        destruct (selection timeout button es) as [t|]; cbn [mrepr] in *.
        * subst s. cbn [ms_last]. destruct (timeout <? now - t); reflexivity.
        * destruct (timeout <? now - ms_last s); [reflexivity|assumption].
  Qed.

  (** C43: a message is forwarded, unchanged and at once, iff its input is the one
      selected; hence the output is exactly the subsequence of selected messages. *)
  Theorem C43_forwards_exactly_the_selected_input es now id m : int32 button -> mevents_ok es ->
    exists s o s', run (minit t0) es = Ok (s, o) /\
      run (minit t0) (es ++ [MTopic now id m])
      = Ok (s', o ++ [if forwards (selection timeout button es) id then [m] else []]).
  Proof.
    intros Hb He. destruct (mrun_repr es Hb He) as (s & o & Hr & H). exists s, o.
    eexists. split; [assumption|]. rewrite mrun_app, Hr. cbn [bind mrun mstep fst snd].
    do 5 f_equal. destruct (selection timeout button es); cbn [mrepr forwards] in *.
    - subst s. cbn [ms_sel]. destruct (Z.eqb_spec id 1), (Z.eqb_spec 1 id); congruence || reflexivity.
    - rewrite H. destruct (Z.eqb_spec id 0), (Z.eqb_spec 0 id); congruence || reflexivity.
  Qed.

  (** Nothing else is ever published. *)
  Theorem C43_other_events_publish_nothing es e : int32 button -> mevents_ok (es ++ [e]) ->
    (forall now id m, e <> MTopic now id m) ->
    exists s o s', run (minit t0) es = Ok (s, o) /\ run (minit t0) (es ++ [e]) = Ok (s', o ++ [[]]).
  Proof.
    intros Hb He Hn. destruct (mrun_repr es Hb) as (s & o & Hr & H).
    { intros now bs ?. eapply He, in_or_app; eauto. }
    exists s, o. destruct e as [now bs|now id m|now]; [|exfalso; eapply Hn; reflexivity|].
    - destruct (range_ok bs button Hb) as [[E1 E2]|(E1 & v & E2 & E3)].
      + eapply He, in_or_app; simpl; eauto.
      + eexists. split; [assumption|]. rewrite mrun_app, Hr. cbn [bind mrun mstep fst snd]. rewrite E1. reflexivity.
      + eexists. split; [assumption|]. rewrite mrun_app, Hr. cbn [bind mrun mstep fst snd]. rewrite E1, E3. reflexivity.
    - eexists. split; [assumption|]. rewrite mrun_app, Hr. reflexivity.
  Qed.

  (** The joystick input is live only on the strength of a press of the button that is
      the last usable joystick message, and younger than the timeout at every timer
      tick since; so when timers tick at least every [period], a forwarded joystick
      message is backed by a press younger than timeout + period. *)
  Lemma selection_some (es : list ev) t : selection timeout button es = Some t ->
    exists es1 bs es2, es = es1 ++ MJoy t bs :: es2 /\ entry bs button = Some true /\
      (forall now bs', In (MJoy now bs') es2 -> entry bs' button = None) /\
      (forall now, In (MTimer now) es2 -> now - t <= timeout).
  Proof.
    revert t. induction es as [|e es IH] using rev_ind; intros t; [discriminate|].
    unfold selection. rewrite fold_left_app. cbn [fold_left]. fold (selection timeout button es).
    assert (forall e', selection timeout button es = Some t -> e' = e ->
              match e' with MJoy _ bs => entry bs button = None | MTimer now => now - t <= timeout | _ => True end ->
              exists es1 bs es2, es ++ [e] = es1 ++ MJoy t bs :: es2 /\ entry bs button = Some true /\
                (forall now bs', In (MJoy now bs') es2 -> entry bs' button = None) /\
                (forall now, In (MTimer now) es2 -> now - t <= timeout)) as K.
    { intros e' Hs -> He. destruct (IH _ Hs) as (es1 & bs & es2 & -> & Hb & H1 & H2).
      exists es1, bs, (es2 ++ [e]). rewrite <- app_assoc. repeat split; auto.
      - intros now bs' Hin. apply in_app_or in Hin as [Hin|[->|[]]]; eauto.
      - intros now Hin. apply in_app_or in Hin as [Hin|[->|[]]]; eauto. }
    destruct e as [now bs|now id m|now].
    - destruct (entry bs button) as [[|]|] eqn:E; [|discriminate|intros Hs; eapply K; eauto].
      injection 1 as ->. exists es, bs, []. repeat split; auto; intros; contradiction.
    - intros Hs; eapply K; eauto. exact I.
    - destruct (selection timeout button es) as [t'|]; [|discriminate].
      destruct (timeout <? now - t') eqn:E; [discriminate|]. injection 1 as ->.
      eapply K; eauto. simpl. lia.
  Qed.

  Definition time_of (e : ev) : Z :=
    match e with MJoy t _ => t | MTopic t _ _ => t | MTimer t => t end.
  Definition chronological (es : list ev) : Prop :=
    forall es1 e1 es2 e2 es3, es = es1 ++ e1 :: es2 ++ e2 :: es3 -> time_of e1 <= time_of e2.

  Theorem C43_joystick_input_is_recent (es1 es2 : list ev) tick now m period s o :
    int32 button -> mevents_ok (es1 ++ MTimer tick :: es2) ->
    chronological (es1 ++ MTimer tick :: es2) ->
    now - tick <= period -> 0 <= timeout ->
    run (minit t0) ((es1 ++ MTimer tick :: es2) ++ [MTopic now 1 m]) = Ok (s, o ++ [[m]]) ->
    exists tj bs, In (MJoy tj bs) (es1 ++ MTimer tick :: es2) /\ pressed bs button = true /\
      now - tj <= timeout + period.
  Proof.
    intros Hb He Hc Hp Ht Hrun. set (es := es1 ++ MTimer tick :: es2) in *.
    destruct (C43_forwards_exactly_the_selected_input es now 1 m Hb He) as (s1 & o1 & s2 & Hr1 & Hr2).
    rewrite Hr2 in Hrun. injection Hrun as _ Ho. apply app_inj_tail in Ho as [_ Ho].
    destruct (selection timeout button es) as [tj|] eqn:Es; cbn [forwards] in Ho; [|discriminate].
    destruct (selection_some es tj Es) as (l1 & bs & l2 & El & Hbs & _ & Htm).
    exists tj, bs. split; [rewrite El; apply in_or_app; simpl; auto|].
    split; [unfold pressed; rewrite Hbs; reflexivity|].
    assert (In (MTimer tick) l2 \/ tick <= tj) as [Hin|Hle].
    { (* the tick is before or after the press *)
      clear - El Hc. subst es. rewrite El in Hc.
      assert (forall (a b c d : list ev) x y, x <> y -> a ++ x :: b = c ++ y :: d ->
                In x d \/ exists mid, c = a ++ x :: mid) as Split.
      { induction a as [|h a IH]; intros b c d x y Hxy E; destruct c as [|h' c]; simpl in E.
        - injection E as -> _. congruence.
        - injection E as -> E. right. exists c. reflexivity.
        - injection E as -> <-. left. apply in_or_app. simpl. auto.
        - injection E as -> E. destruct (IH _ _ _ _ _ Hxy E) as [?|(mid & ->)]; [left; assumption|].
          right. exists mid. reflexivity. }
      destruct (Split _ _ _ _ (MTimer tick) (MJoy tj bs) ltac:(discriminate) El) as [?|(mid & E)]; [left; assumption|].
      right. apply (Hc es1 (MTimer tick) mid (MJoy tj bs) l2). rewrite E, <- app_assoc. reflexivity. }
    - specialize (Htm _ Hin). lia.
    - lia.
  Qed.
End MuxProofs.

Module MuxExample.
  Definition hist : list (@mev Z) :=
    [MTimer 100; MTopic 110 0 7; MJoy 120 [false; true]; MTopic 130 1 8; MTopic 140 0 9; MTimer 200].
  Example hypotheses_met : mevents_ok hist /\ int32 1 /\ selection 500 1 hist = Some 120.
  Proof.
    split; [|split; [unfold int32; lia|reflexivity]].
    intros now bs H. repeat (destruct H as [H|H]; [try discriminate; injection H as <- <-; reflexivity|]). contradiction.
  Qed.
  Example behaviour : exists s, mrun 500 1 (minit 0)
    (hist ++ [MTopic 250 1 10; MTimer 700; MTopic 710 1 11; MTopic 720 0 12])
    = Ok (s, [[]; [7]; []; [8]; []; []; [10]; []; []; [12]]).
  Proof. eexists. vm_compute. reflexivity. Qed.
End MuxExample.

Print Assumptions C42_priority.
Print Assumptions C42_joystick_commands.
Print Assumptions C42_released_command_is_fresh_refuted.
Print Assumptions C43_forwards_exactly_the_selected_input.
Print Assumptions C43_other_events_publish_nothing.
Print Assumptions C43_joystick_input_is_recent.
