(** C11, continued: while the costmap stays the same and no reached cell is reported as changed, an update for another start
    extends the map, and the start's value is the one a map built from scratch would have. *)
From Coq Require Import Permutation ZifyBool.
From Verif Require Import Common CostAlg CostZ CostF32 AStar DistMap DistMapSpec DistMapProofs DistMapNum DistMapProps.
Local Open Scope Z_scope.

Section Extend.
  Context {F : Type} (K : cost_ops F) (num : F -> Prop) (D : dist_laws K num).
  Let L := dl_base K num D.
  Variables (E : @env F) (e : cell).
  Hypothesis HS : sane K num E.
  Hypothesis He : inmap E e = true.

  (** Maps obtained on the costmap [E] for the goal [e]: built from scratch for some start, then updated for other starts, with
      areas of which no cell has been reached.  The index is the start given last. *)
  Inductive grown : cell -> @dmap F -> Prop :=
  | grown_created fuel O d0 s d : any_schedule O -> inmap E s = true -> create K fuel O E d0 s e = Done d -> grown s d
  | grown_extended fuel O s0 d s lo hi d' : grown s0 d -> any_schedule O -> inmap E s = true ->
      (forall c, fst lo <= fst c <= fst hi -> snd lo <= snd c <= snd hi -> inmap E c = true /\ dm_g d c = fmax K) ->
      update K fuel O E d s e lo hi = Done d' -> grown s d'.

  Let Hd := sane_diff K num E HS.
  Let S1 : (1 <= e_ntask E)%nat := proj1 HS.
  Let S3 := proj1 (proj2 (proj2 HS)).
  Let S4 := proj1 (proj2 (proj2 (proj2 HS))).
  Let S5 := proj2 (proj2 (proj2 (proj2 HS))).

  (** What every such map satisfies: all values belong to routes; the moves from the goal are taken into account; the moves
      from another cell are taken into account unless it is remembered as an edge. *)
  Definition is_goal (v : cell) : Prop := v = e.
  Definition frontier (s : cell) (d : @dmap F) : Prop :=
    dm_goal d = e /\ route_values K num E e (dm_g d) /\
    (forall ds v, link E e ds v -> v <> e -> fleb K (dm_g d v) (fadd K (e_g0 E) (weight K E e ds)) = true) /\
    (s <> e -> status K num E s is_goal (dm_g d) [] (dm_edges d)) /\
    (forall u, u <> e -> dm_g d u = fmax K \/ settled K E is_goal (dm_g d) u \/ dm_edges d u = true).

  Lemma max_nlt c : num c -> fleb K c (fmax K) = true -> fltb K (fmax K) c = false.
  Proof. intros _ H. apply (dl_antisym K num D). exact H. Qed.

  Lemma created_frontier fuel O d0 s d : any_schedule O -> inmap E s = true -> create K fuel O E d0 s e = Done d -> frontier s d.
  Proof.
    intros HO Hs H.
    pose proof (create_values K num D E O S1 Hd S3 S4 HO S5 s e fuel d0 Hs He) as V. rewrite H in V. destruct V as [V1 V2].
    split; [exact V1|]. split; [exact V2|].
    unfold create in H. rewrite Hs, He in H. cbn [negb andb] in H. fold (g_init K E e) in H.
    pose proof (fill_spec K num D E O S1 Hd S3 S4 HO S5 s e He fuel) as G.
    destruct (fillCostmap K fuel O E s (g_init K E e) [(e_g0 E, e)]) as [g' ed| |]; try discriminate.
    injection H as <-. cbn [dm_g dm_goal dm_edges] in *. destruct G as (G1 & G2 & G3 & St & G4).
    assert (Le : fleb K (g' e) (e_g0 E) = true).
    { specialize (G2 e). unfold g_init in G2. rewrite upd_same in G2. exact G2. }
    assert (Ge : forall x, fleb K (e_g0 E) (g' x) = true).
    { intros x. destruct (G3 x) as [X|X]; [rewrite X; apply (lw_lt_le K L), S5|].
      apply (route_ge K num D E Hd S3 e _ _ _ (proj1 S5) X). }
    assert (SetE : forall ds v, link E e ds v -> v <> e ->
      fleb K (upd g' e (fzero K) v) (fadd K (e_g0 E) (weight K E e ds)) = true).
    { intros ds v Hl Hv. rewrite upd_other by exact Hv.
      destruct (link_weight K num D E Hd S3 _ _ _ Hl) as [W1 W2].
      destruct (St e (fun f => f)) as [X|[(p & [] & _)|[X|[X _]]]].
      - exfalso. rewrite X in Le. apply (dl_antisym K num D) in Le. destruct S5 as [_ S5']. unfold finite in S5'. congruence.
      - eapply (lw_le_trans K L); [apply X; [exact Hl|exact (fun f => f)]|]. apply (dl_mono_l K num D); auto. apply S5.
      - exfalso. unfold far in X.
        assert (Y : fltb K (g' s) (g' e) = true).
        { eapply (lw_lt_le_trans K L); [exact X|]. destruct S4. apply (dl_sub_le K num D); auto. }
        assert (Z : fleb K (g' e) (g' s) = true) by (eapply (lw_le_trans K L); [exact Le|apply Ge]).
        apply (dl_antisym K num D) in Z. congruence. }
    split; [exact SetE|].
    assert (Set' : forall u, u <> e -> settled K E (fun _ => False) g' u -> settled K E is_goal (upd g' e (fzero K)) u).
    { intros u Hu X ds v Hl Hv. rewrite !upd_other by assumption. apply X; [exact Hl|exact (fun f => f)]. }
    split.
    - intros Hse u Hu. rewrite (upd_other g' e (fzero K) u Hu).
      destruct (St u (fun f => f)) as [X|[(p & [] & _)|[X|[X Xe]]]]; [auto| |].
      + right. right. left. apply Set'; assumption.
      + right. right. right. split; [|exact Xe]. unfold far in *. rewrite !upd_other by assumption. exact X.
    - intros u Hu. rewrite (upd_other g' e (fzero K) u Hu).
      destruct (St u (fun f => f)) as [X|[(p & [] & _)|[X|[X Xe]]]]; [auto| |auto].
      right. left. apply Set'; assumption.
  Qed.

  Lemma rect_min_max g lo hi : (forall c, In c (rect_cells lo hi) -> inmap E c = true /\ g c = fmax K) ->
    rect_min K E g lo hi = Ok ((0, 0), fmax K).
  Proof.
    unfold rect_min. induction (rect_cells lo hi) as [|c l IH]; intros H; [reflexivity|]. cbn [foldM snd].
    destruct (H c (or_introl eq_refl)) as [-> ->]. cbn [negb bind]. rewrite (max_nlt (fmax K)).
    - apply IH. intros c' Hc. apply H. right. exact Hc.
    - apply (dl_max K num D).
    - apply (le_refl K num D), (dl_max K num D).
  Qed.

  Lemma route_inmap c0 v c : route K E e c0 v c -> inmap E v = true.
  Proof. induction 1 as [|u c ds v H IH Hl]; [exact He|apply Hl]. Qed.

  Lemma extended_frontier fuel O s0 d s lo hi d' : frontier s0 d -> any_schedule O -> inmap E s = true ->
    (forall c, fst lo <= fst c <= fst hi -> snd lo <= snd c <= snd hi -> inmap E c = true /\ dm_g d c = fmax K) ->
    update K fuel O E d s e lo hi = Done d' -> frontier s d'.
  Proof.
    intros (Hg & Hv & Hset & _ & Hst) HO Hs Hr H.
    destruct (update_values K num D E O S1 Hd S3 S4 HO S5 s e lo hi d Hs He) as [V _].
    { intros p Hp. apply in_rect_cells in Hp. apply (Hr p); apply Hp. }
    { intros _. exact Hv. }
    specialize (V fuel). rewrite H in V. destruct V as [V1 V2].
    unfold update in H. destruct (cell_dec e (dm_goal d)) as [_|N]; [|congruence]. cbn [negb] in H.
    rewrite (rect_min_max (dm_g d) lo hi) in H.
    2:{ intros c Hc. apply in_rect_cells in Hc. apply Hr; apply Hc. }
    destruct (feqb K (fmax K) (fzero K)); [eapply created_frontier; eauto|].
    rewrite Hs, He, (dl_max_eq K num D) in H. cbn [negb andb app] in H.
    rewrite (max_nlt (dm_g d s)) in H by apply Hv.
    destruct fuel as [|fuel0]; [discriminate|]. set (fuel := S fuel0) in *.
    assert (El : erase_loop K fuel (o_pick O) E (fmax K) 0 (dm_g d) (dm_edges d) [] [] = Some (dm_g d, dm_edges d, [])).
    { unfold fuel. cbn [erase_loop]. unfold take_at. cbn [length]. destruct (_ mod _)%nat; reflexivity. }
    rewrite El in H. cbv beta iota zeta in H. rewrite app_nil_r in H.
    set (reopened := map (fun c => (dm_g d c, c)) (filter (dm_edges d) (all_cells E))) in H.
    set (open := match reopened with [] => [(e_g0 E, e)] | _ => reopened end) in H.
    assert (Ho : forall p v, In (p, v) open -> num p /\ inmap E v = true).
    { intros p v Hp. assert (Hp' : In (p, v) reopened \/ (p, v) = (e_g0 E, e)).
      { unfold open in Hp. destruct reopened; [destruct Hp as [Hp|[]]; auto|auto]. }
      destruct Hp' as [Hp'|Hp'].
      - unfold reopened in Hp'. apply in_map_iff in Hp' as (c & X & Hc). injection X as <- <-. apply filter_In in Hc as [Hc _].
        apply in_rect_cells in Hc. simpl in Hc. split; [apply Hv|unfold inmap; lia].
      - injection Hp' as -> ->. split; [apply S5|exact He]. }
    assert (Hent : entries K E open (dm_g d) open).
    { intros p v Hp. exists (p, v), [], []. constructor. exact Hp. }
    pose proof (fill_loop_spec K num D E O S1 Hd S3 S4 HO open Ho s is_goal fuel 0 (dm_g d) (fun _ => false) open
      (fun x => proj1 (Hv x)) Hent) as Q.
    unfold fillCostmap in H. destruct (fill_loop K fuel O E s 0 (dm_g d) (fun _ => false) open) as [g' ed| |]; try discriminate.
    apply (f_equal (fun r => match r with Done x => x | _ => d end)) in H. cbv beta iota in H. subst d'.
    cbn [dm_g dm_goal dm_edges] in *. destruct Q as (Q1 & Q2 & Q3 & Q4).
    assert (St : status K num E s is_goal g' [] ed).
    { apply Q4. intros u Hu. destruct (Hst u Hu) as [X|[X|X]]; [auto|auto|].
      destruct (Hv u) as (Nu & _ & Ru).
      assert (Z : dm_g d u = fmax K \/ inmap E u = true).
      { destruct Ru as [R|[R|R]]; [auto|right; eapply route_inmap; eauto|right; eapply route_inmap; eauto]. }
      destruct Z as [Z|Z]; [auto|]. right. left. exists (dm_g d u). split; [|split; [exact Nu|apply (le_refl K num D), Nu]].
      assert (Hin : In (dm_g d u, u) reopened).
      { unfold reopened. apply in_map_iff. exists u. split; [reflexivity|]. apply filter_In. split; [|exact X].
        apply in_rect_cells. unfold inmap in Z. simpl. lia. }
      unfold open. destruct reopened; [destruct Hin|exact Hin]. }
    split; [reflexivity|]. split; [exact V2|]. split.
    - intros ds v Hl Hne. cbn [dm_g]. eapply (lw_le_trans K L); [apply Q2|]. apply Hset; assumption.
    - split; [intros _; exact St|]. intros u Hu. destruct (St u Hu) as [X|[(p & [] & _)|[X|[_ X]]]]; auto.
  Qed.

  Lemma grown_frontier s d : grown s d -> frontier s d /\ inmap E s = true.
  Proof.
    induction 1 as [fuel O d0 s d HO Hs H|fuel O s0 d s lo hi d' Hgr [IH _] HO Hs Hr H]; (split; [|exact Hs]).
    - eapply created_frontier; eauto.
    - eapply extended_frontier; eauto.
  Qed.

  (** The values of a grown map: routes exist for all of them, and none is above the cost of any route, as far as the start's
      value plus the overshoot. *)
  Theorem C11_extended_values_are_shortest s d : grown s d -> s <> e ->
    forall v, v <> e ->
      (dm_g d v = fmax K \/ route K E e (e_g0 E) v (dm_g d v) \/ route K E e (fzero K) v (dm_g d v)) /\
      (forall c, route K E e (e_g0 E) v c -> not_below K (dm_g d s) (fsub K c (e_over E)) -> fleb K (dm_g d v) c = true).
  Proof.
    intros Hg Hse. destruct (grown_frontier s d Hg) as [(_ & Hv & Hset & St & _) Hs]. specialize (St Hse).
    assert (G : forall v c, route K E e (e_g0 E) v c -> num c /\ fleb K (e_g0 E) c = true /\
      (v <> e -> fltb K (dm_g d s) (fsub K c (e_over E)) = false -> fleb K (dm_g d v) c = true)).
    { intros v c Hr. destruct (route_ge K num D E Hd S3 e _ _ _ (proj1 S5) Hr) as [N0 G0]. split; [exact N0|]. split; [exact G0|].
      clear N0 G0. induction Hr as [|u c ds v Hr IH Hl]; [intros X; destruct (X eq_refl)|].
      destruct (route_ge K num D E Hd S3 e _ _ _ (proj1 S5) Hr) as [Nc Gc0].
      destruct (link_weight K num D E Hd S3 _ _ _ Hl) as [W1 W2]. intros Hve Hnot.
      assert (Nn : num (fadd K c (weight K E u ds))) by (apply (dl_num_add K num D); auto).
      assert (Gc : fleb K c (fadd K c (weight K E u ds)) = true) by (apply (dl_add_ge K num D); auto).
      destruct (cell_dec u e) as [->|Hue].
      { eapply (lw_le_trans K L); [apply Hset; [exact Hl|exact Hve]|]. apply (dl_mono_l K num D); auto. apply S5. }
      destruct S4 as [O1 O2].
      assert (Hnot' : fltb K (dm_g d s) (fsub K c (e_over E)) = false).
      { destruct (fltb K (dm_g d s) (fsub K c (e_over E))) eqn:X; [|reflexivity].
        assert (fltb K (dm_g d s) (fsub K (fadd K c (weight K E u ds)) (e_over E)) = true); [|congruence].
        eapply (lw_lt_le_trans K L); [exact X|]. apply (dl_sub_mono K num D); auto. }
      specialize (IH Hue Hnot').
      destruct (St u Hue) as [X|[(p & [] & _)|[X|[X _]]]].
      - destruct (Hv v) as (_ & Y & _). rewrite <- X in Y. eapply (lw_le_trans K L); [exact Y|].
        eapply (lw_le_trans K L); [exact IH|exact Gc].
      - eapply (lw_le_trans K L); [apply X; [exact Hl|exact Hve]|]. apply (dl_mono_l K num D); auto. apply Hv.
      - exfalso. unfold far in X. assert (fltb K (dm_g d s) (fsub K c (e_over E)) = true); [|congruence].
        eapply (lw_lt_le_trans K L); [exact X|]. apply (dl_sub_mono K num D); auto. apply Hv. }
    intros v Hve. split; [apply Hv|]. intros c Hr. apply (G v c Hr). exact Hve.
  Qed.

  Theorem C11_extended_start_is_exact s d : grown s d -> s <> e -> forall c, route K E e (e_g0 E) s c -> fleb K (dm_g d s) c = true.
  Proof.
    intros Hg Hse c Hr. destruct (C11_extended_values_are_shortest s d Hg Hse s Hse) as [_ G].
    destruct (route_ge K num D E Hd S3 e _ _ _ (proj1 S5) Hr) as [Nc _].
    destruct (fltb K (dm_g d s) (fsub K c (e_over E))) eqn:X; [|apply G; [exact Hr|exact X]].
    apply (lw_lt_le K L). eapply (lw_lt_le_trans K L); [exact X|]. destruct S4. apply (dl_sub_le K num D); auto.
  Qed.

  (** A route counted from 0 is not cheaper than the same route counted from the goal's initial value. *)
  Lemma cheaper_route v c : fleb K (e_g0 E) (fzero K) = true -> route K E e (fzero K) v c ->
    exists c', route K E e (e_g0 E) v c' /\ num c' /\ num c /\ fleb K c' c = true.
  Proof.
    intros G0. induction 1 as [|u c ds v H (c' & A & B & B' & C) Hl].
    - exists (e_g0 E). split; [constructor|]. split; [apply S5|]. split; [apply (dl_zero K num D)|exact G0].
    - destruct (link_weight K num D E Hd S3 _ _ _ Hl) as [W1 W2]. exists (fadd K c' (weight K E u ds)).
      split; [econstructor; eauto|]. split; [apply (dl_num_add K num D); auto|]. split; [apply (dl_num_add K num D); auto|].
      apply (dl_mono_l K num D); auto.
  Qed.

  (** The start's value is the one computed from scratch. *)
  Theorem C11_extension_agrees_with_a_rebuilt_map s d d2 : fleb K (e_g0 E) (fzero K) = true ->
    grown s d -> s <> e -> (exists fuel O d0, any_schedule O /\ create K fuel O E d0 s e = Done d2) ->
    fleb K (dm_g d s) (dm_g d2 s) = true /\ fleb K (dm_g d2 s) (dm_g d s) = true.
  Proof.
    intros G0 Hg Hse (fuel & O & d0 & HO & Hc). destruct (grown_frontier s d Hg) as [(_ & Hv & _) Hs].
    destruct (C10_start_cell_is_exact K num D E fuel O d0 s e d2 HS HO Hs He Hse Hc) as (A & B & _).
    pose proof (created_frontier fuel O d0 s d2 HO Hs Hc) as (_ & Hv2 & _).
    split.
    - destruct A as [A|A]; [rewrite A; apply Hv|]. apply (C11_extended_start_is_exact s d Hg Hse). exact A.
    - destruct (Hv s) as (_ & _ & [X|[X|X]]); [rewrite X; apply Hv2|apply B; exact X|].
      destruct (cheaper_route s _ G0 X) as (c' & R & _ & _ & Q). eapply (lw_le_trans K L); [apply B; exact R|exact Q].
  Qed.
End Extend.

(** The same at the arithmetic the code uses. *)
Theorem C11_binary32_extension_agrees_with_a_rebuilt_map (E : @env f32) e s d d2 : sane KF32 num32 E -> inmap E e = true ->
  fleb KF32 (e_g0 E) (fzero KF32) = true -> grown KF32 E e s d -> s <> e ->
  (exists fuel O d0, any_schedule O /\ create KF32 fuel O E d0 s e = Done d2) ->
  fleb KF32 (dm_g d s) (dm_g d2 s) = true /\ fleb KF32 (dm_g d2 s) (dm_g d s) = true.
Proof. intros. eapply (C11_extension_agrees_with_a_rebuilt_map KF32 num32 KF32_dist); eauto. Qed.

(** A corridor of 30 cells with a short overshoot: the first search stops early, the update for a start further away goes on. *)
Module ExtendExample.
  Import DistExample.
  Definition corridor : @env (option Z) := Env 30 1 (search_diffs euc) (blocked []) (fun _ _ => Some 0) (Some 20) (Some (-5)) 1.
  Definition first := create KZ 400 orc corridor (init KZ) (4,0) (0,0).
  Definition next := update KZ 400 orc corridor (get first) (25,0) (0,0) (28,0) (29,0).
  Lemma corridor_sane : sane KZ anyZ corridor.
  Proof.
    split; [simpl; lia|]. split.
    - exists euc. split; [reflexivity|]. intros n. split; [exact I|]. unfold not_below, euc.
      pose proof (Z.sqrt_nonneg (100 * n)). generalize dependent (Z.sqrt (100 * n)). intros z Hz. simpl. lia.
    - split; [intros; split; [exact I|reflexivity]|]. split; [split; reflexivity|split; [exact I|reflexivity]].
  Qed.
  Example extension_example : grown KZ corridor (0,0) (25,0) (get next) /\
    dm_g (get first) (25,0) = None /\ dm_g (get next) (25,0) = Some 245.
  Proof.
    split; [|split; vm_compute; reflexivity].
    eapply (grown_extended KZ corridor (0,0) 400 orc (4,0) (get first) (25,0) (28,0) (29,0)).
    - eapply (grown_created KZ corridor (0,0) 400 orc (init KZ) (4,0)); [apply orc_fair|reflexivity|].
      apply done_get. vm_compute. reflexivity.
    - apply orc_fair.
    - reflexivity.
    - intros [x y] Hx Hy. cbn [fst snd] in Hx, Hy. assert (y = 0) by lia. subst y.
      assert (x = 28 \/ x = 29) as [-> | ->] by lia; split; vm_compute; reflexivity.
    - apply done_get. vm_compute. reflexivity.
  Qed.
End ExtendExample.

Print Assumptions C11_extended_values_are_shortest.
Print Assumptions C11_extended_start_is_exact.
Print Assumptions C11_extension_agrees_with_a_rebuilt_map.
Print Assumptions C11_binary32_extension_agrees_with_a_rebuilt_map.
