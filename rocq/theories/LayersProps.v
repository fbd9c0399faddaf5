(** Properties C25-C28: the layer stack of the costmap node. *)
From Verif Require Import Common CSpace CSpaceProps Inflate InflateProofs InflateProps Layers LayersProofs LayersRun LayersSync.
Local Open Scope Z_scope.

(** ** Specification

    [last_base es], [latest i es] (LayersRun.v) are the last base map and the last overlay message for
    layer [i] in the history [es]; [good_event] are well-formed messages to footprint/plain layers. *)

(** A usable configuration: radii are not negative, at least one heading, an update output only at the end. *)
Record good_conf (root : fcfg) (ang : Z) (ks : list kind) : Prop := {
  gc_root : 0 <= f_r root; gc_ang : 0 < ang; gc_kinds : Forall kind_ok ks;
  gc_last : forall pre post, ks = pre ++ UpdateOut :: post -> post = [] }.

(** What a layer of kind [k] with latest message [om] shows at [q] on top of [parent]:
    the message drawn over the parent, unknown replaced, everything unknown, or the parent's cost. *)
Definition shown (k : kind) (om : option omsg) (parent : cmap) (q : cell) (v : Z) : Prop :=
  match k, om with
  | Foot c, Some m => if o_frame m then exists d, generate c (o_grid m) parent = Ok d /\ v = peek d q else v = peek parent q
  | Unknown c, _ => v = if peek parent q <? 0 then c else peek parent q
  | StopProp, _ => v = -1
  | _, _ => v = peek parent q
  end.
(** The map below layer [i]. *)
Definition below (base : cmap) (ls : list layer) (i : nat) : option cmap :=
  match i with O => Some base | S j => option_map l_over (nth_error ls j) end.

Lemma shows_shown l p q v : shows l p q v -> shown (l_kind l) (l_msg l) p q v.
Proof. unfold shows, shown. destruct (l_kind l); auto. Qed.
Lemma chain_settled_nth ls : forall p i l, chain_settled p ls -> nth_error ls i = Some l -> exists p', below p ls i = Some p' /\ settled p' l.
Proof.
  induction ls as [|x ls IH]; intros p [|i] l S E; cbn in E; try discriminate; destruct S as [S0 S].
  - injection E as <-. exists p. auto.
  - destruct (IH (l_over x) i l S E) as (p' & B & S'). exists p'. split; [|assumption]. destruct i; [exact B|exact B].
Qed.

(** ** C25 *)

(** After any history with a base map, every layer shows, inside its current update area, exactly its latest
    message over the map below it; the lowest map is the inflated last base map. *)
Theorem C25_layers_show_their_latest_messages root ang ks es b :
  good_conf root ang ks -> Forall (good_event ks) es -> last_base es = Some b ->
  exists n ps base, run (new_node root ang ks) es = Ok (n, ps) /\
    base_map root (b_w b) (b_h b) ang (b_data b) = Ok base /\ s_base (n_stack n) = base /\
    map l_kind (s_layers (n_stack n)) = ks /\
    forall i l k, nth_error (s_layers (n_stack n)) i = Some l -> nth_error ks i = Some k ->
      exists parent, below base (s_layers (n_stack n)) i = Some parent /\
      forall q, in_map base q -> in_region (l_region l) q \/ k = StopProp -> shown k (latest i es) parent q (peek (l_over l) q).
Proof.
  intros [H1 H2 H3 H4] G L. destruct (run_ok root ang ks H1 H2 H3 H4 es G) as (n & ps & E & S). unfold state_after in S. rewrite L in S.
  destruct S as (_ & _ & [A B C D W F [P _ _] Hs I J K]). exists n, ps, (s_base (n_stack n)). split; [exact E|]. split; [exact C|]. split; [reflexivity|]. split; [exact J|].
  intros i l k El Ek. assert (Kl : l_kind l = k). { rewrite <- J, nth_error_map, El in Ek. injection Ek as ->. reflexivity. }
  destruct (chain_settled_nth _ _ _ _ Hs El) as (p & B1 & B2). exists p. split; [exact B1|]. intros q Iq Q.
  rewrite <- Kl, <- (K i l El). apply shows_shown. apply B2; [|rewrite Kl; exact Q].
  destruct i as [|j]; [injection B1 as <-; exact Iq|]. cbn in B1.
  destruct (nth_error (s_layers (n_stack n)) j) as [x|] eqn:Ex; [|discriminate]. injection B1 as <-.
  rewrite Forall_forall in P. destruct (P x (nth_error_In _ _ Ex)) as (_ & Dx & _).
  apply (same_dims_in_map (s_base (n_stack n)) (l_over x) q (same_dims_sym _ _ Dx)). exact Iq.
Qed.

(** The cell is in the current update area of layers 0 .. i. *)
Definition current (n : node) (i : nat) (q : cell) : Prop :=
  forall j l, (j <= i)%nat -> nth_error (s_layers (n_stack n)) j = Some l -> in_region (l_region l) q \/ l_kind l = StopProp.

(** The history does not matter there. *)
Theorem C25_updated_cells_do_not_depend_on_history root ang ks es1 es2 b n1 ps1 n2 ps2 i l1 l2 q :
  good_conf root ang ks -> Forall (good_event ks) es1 -> Forall (good_event ks) es2 ->
  last_base es1 = Some b -> last_base es2 = Some b -> (forall j, (j <= i)%nat -> latest j es1 = latest j es2) ->
  run (new_node root ang ks) es1 = Ok (n1, ps1) -> run (new_node root ang ks) es2 = Ok (n2, ps2) ->
  nth_error (s_layers (n_stack n1)) i = Some l1 -> nth_error (s_layers (n_stack n2)) i = Some l2 ->
  in_map (s_base (n_stack n1)) q -> current n1 i q -> current n2 i q ->
  peek (l_over l1) q = peek (l_over l2) q.
Proof.
  intros [H1 H2 H3 H4] G1 G2 L1 L2 La E1 E2 N1 N2 Iq C1 C2.
  destruct (run_ok root ang ks H1 H2 H3 H4 es1 G1) as (m1 & qs1 & E1' & S1). rewrite E1 in E1'. injection E1' as <- <-.
  destruct (run_ok root ang ks H1 H2 H3 H4 es2 G2) as (m2 & qs2 & E2' & S2). rewrite E2 in E2'. injection E2' as <- <-.
  unfold state_after in S1, S2. rewrite L1 in S1. rewrite L2 in S2. destruct S1 as (_ & _ & R1), S2 as (_ & _ & R2).
  pose proof (rd_base _ _ _ _ _ _ R1) as B1. pose proof (rd_base _ _ _ _ _ _ R2) as B2. rewrite B1 in B2. injection B2 as EB.
  destruct R1 as [_ _ _ _ W1 _ [P1 _ _] S1 _ J1 K1], R2 as [_ _ _ _ W2 _ [P2 _ _] S2 _ J2 K2]. rewrite <- EB in *.
  unfold current in C1, C2.
  set (ls1 := s_layers (n_stack n1)) in *. set (ls2 := s_layers (n_stack n2)) in *. set (base := s_base (n_stack n1)) in *.
  assert (Main : forall i p1 p2 ls1 ls2 l1 l2 o, wf p1 -> wf p2 -> same_dims p1 p2 -> same_dims p1 base -> peek p1 q = peek p2 q ->
     Forall (layer_pre ang base) ls1 -> Forall (layer_pre ang base) ls2 -> chain_settled p1 ls1 -> chain_settled p2 ls2 ->
     map l_kind ls1 = map l_kind ls2 ->
     (forall j l, nth_error ls1 j = Some l -> l_msg l = latest (o + j) es1) -> (forall j l, nth_error ls2 j = Some l -> l_msg l = latest (o + j) es2) ->
     (forall j, (j <= o + i)%nat -> latest j es1 = latest j es2) ->
     (forall j l, (j <= i)%nat -> nth_error ls1 j = Some l -> in_region (l_region l) q \/ l_kind l = StopProp) ->
     (forall j l, (j <= i)%nat -> nth_error ls2 j = Some l -> in_region (l_region l) q \/ l_kind l = StopProp) ->
     nth_error ls1 i = Some l1 -> nth_error ls2 i = Some l2 -> peek (l_over l1) q = peek (l_over l2) q).
  { clear - Iq. induction i as [|i IH]; intros p1 p2 [|x1 ls1] [|x2 ls2] l1 l2 o W1 W2 D D1 Pq P1 P2 S1 S2 J M1 M2 La C1 C2 N1 N2; cbn in N1, N2; try discriminate.
    - injection N1 as <-. injection N2 as <-. cbn in S1, S2. destruct S1 as [S1 _], S2 as [S2 _]. cbn in J. injection J as J _.
      assert (I1 : in_map p1 q) by (apply (same_dims_in_map base p1 q (same_dims_sym _ _ D1)); exact Iq).
      assert (I2 : in_map p2 q) by (apply (same_dims_in_map p1 p2 q D); exact I1).
      pose proof (S1 q I1 (C1 0%nat x1 (le_n _) eq_refl)) as T1. pose proof (S2 q I2 (C2 0%nat x2 (le_n _) eq_refl)) as T2.
      assert (Mm : l_msg x1 = l_msg x2). { rewrite (M1 0%nat x1 eq_refl), (M2 0%nat x2 eq_refl). apply La. lia. }
      inversion P1 as [|? ? (_ & _ & _ & _ & _ & Kk & Mk) _]; subst.
      apply (shows_local x1 p1 p2 q (peek (l_over x1) q) (peek (l_over x2) q)); try assumption. unfold shows in *. rewrite J, Mm. exact T2.
    - cbn in S1, S2. destruct S1 as [S1 T1], S2 as [S2 T2]. cbn in J. assert (J' := J). injection J' as Jx Jl.
      inversion P1 as [|? ? L1 Q1]; subst. inversion P2 as [|? ? L2 Q2]; subst. pose proof L1 as (W1' & D1' & _). pose proof L2 as (W2' & D2' & _).
      apply (IH (l_over x1) (l_over x2) ls1 ls2 l1 l2 (S o)); try assumption.
      + eapply same_dims_trans; [exact D1'|apply same_dims_sym; exact D2'].
      + (* the layer below *)
        assert (I1 : in_map p1 q) by (apply (same_dims_in_map base p1 q (same_dims_sym _ _ D1)); exact Iq).
        assert (I2 : in_map p2 q) by (apply (same_dims_in_map p1 p2 q D); exact I1).
        pose proof (S1 q I1 (C1 0%nat x1 ltac:(lia) eq_refl)) as U1. pose proof (S2 q I2 (C2 0%nat x2 ltac:(lia) eq_refl)) as U2.
        assert (Mm : l_msg x1 = l_msg x2). { rewrite (M1 0%nat x1 eq_refl), (M2 0%nat x2 eq_refl). apply La. lia. }
        destruct L1 as (_ & _ & _ & _ & _ & Kk & Mk).
        apply (shows_local x1 p1 p2 q (peek (l_over x1) q) (peek (l_over x2) q)); try assumption. unfold shows in *. rewrite Jx, Mm. exact U2.
      + intros j l Hj. rewrite (M1 (S j) l Hj). f_equal. lia.
      + intros j l Hj. rewrite (M2 (S j) l Hj). f_equal. lia.
      + intros j Hj. apply La. lia.
      + intros j l Hj. apply (C1 (S j) l). lia.
      + intros j l Hj. apply (C2 (S j) l). lia. }
  apply (Main i base base ls1 ls2 l1 l2 0%nat); try assumption; try reflexivity; try (apply same_dims_refl); try congruence.
Qed.

(** A new base map makes every cell of every layer current. *)
Lemma chain_regions a : forall ls p r out ls' ps, wf p -> ca p = a -> 0 < a -> chain_pre a p ls -> passed a p r ->
  (Forall (out_fits p) ls \/ zero_size r = false) -> chain p r out ls = Ok (ls', ps) ->
  forall l, In l ls' -> l_kind l <> UpdateOut -> forall q, in_map p q -> in_region r q -> in_region (l_region l) q.
Proof.
  induction ls as [|x ls IH]; intros p r out ls' ps W Ha Pa C P F E l Il Kl q Iq Q.
  - injection E as <- <-. destruct Il.
  - apply chain_pre_cons in C. destruct C as (L & U & UL & C).
    assert (F1 : out_fits p x \/ zero_size r = false). { destruct F as [F|F]; [|auto]. inversion F; auto. }
    destruct (entry_ok a p r out x W Ha Pa L U P F1) as (x' & r' & out' & ps1 & E1 & L' & S' & K' & P' & U' & F' & Z').
    cbn [chain] in E. rewrite E1 in E. cbn [bind] in E. destruct (chain (l_over x') r' out' ls) as [[ls1 ps2]|] eqn:E2; [|discriminate].
    cbn [bind fst snd] in E. injection E as <- <-.
    assert (X : l_kind x <> UpdateOut -> in_region (l_region x') q /\ in_region r' q).
    { pose proof L as (_ & _ & Tr & _). destruct P as [Tr2 _].
      destruct (reg_facts a p (l_region x) r W Ha Pa Tr Tr2) as (_ & _ & _ & _ & Ireg & _).
      assert (Hr : in_region (normalize (merge (l_region x) r) (cw p) (ch p)) q).
      { apply Ireg; [assumption|]. apply merge_superset; [apply Tr|apply Tr2|auto]. }
      clear -E1 Hr Iq. unfold entry in E1. destruct (bitblt _ _ _) as [bb|]; [|discriminate]. cbn [bind] in E1. intros NU.
      destruct (l_kind x); try congruence.
      - match type of E1 with bind ?d _ = _ => destruct d as [dd|] end; [|discriminate]. cbn [bind] in E1. injection E1 as <- <- <- <-. auto.
      - match type of E1 with bind ?d _ = _ => destruct d as [dd|] end; [|discriminate]. cbn [bind] in E1. injection E1 as <- <- <- <-. auto.
      - injection E1 as <- <- <- <-. cbn [l_region]. split; apply in_full; assumption.
      - injection E1 as <- <- <- <-. auto. }
    destruct Il as [->|Il].
    + apply X. rewrite (proj1 K'). exact Kl.
    + assert (NU : l_kind x <> UpdateOut). { intros E3. rewrite (UL E3) in E2. injection E2 as <- <-. destruct Il. }
      pose proof L' as (Wl & Dl & _). assert (Dl' := same_dims_sym _ _ Dl).
      apply (IH (l_over x') r' out' ls1 ps2) with (l := l) (q := q); try assumption.
      * destruct Dl as (_ & _ & ->). assumption.
      * eapply chain_pre_dims; eassumption.
      * eapply passed_dims; eassumption.
      * destruct F as [F|F].
        { left. inversion F; subst. eapply Forall_impl; [|eassumption]. intros y. apply out_fits_dims. assumption. }
        { right. apply Z'; assumption. }
      * apply (same_dims_in_map p (l_over x') q Dl'). assumption.
      * apply X. exact NU.
Qed.

Theorem C25_a_base_map_refreshes_every_layer root ang ks es b0 b n ps i l q :
  good_conf root ang ks -> Forall (good_event ks) es -> last_base es = Some b0 -> good_base b ->
  run (new_node root ang ks) (es ++ [EvBase b]) = Ok (n, ps) ->
  nth_error (s_layers (n_stack n)) i = Some l -> l_kind l <> UpdateOut -> in_map (s_base (n_stack n)) q -> in_region (l_region l) q.
Proof.
  intros [H1 H2 H3 H4] G L Gb E Nl Kl Iq. destruct (run_ok root ang ks H1 H2 H3 H4 es G) as (n0 & ps0 & E0 & S). unfold state_after in S. rewrite L in S.
  destruct S as (Bf & _ & R). rewrite run_app, E0 in E. cbn [bind fst snd run step] in E. unfold cb_map in E. rewrite Bf in E.
  apply ready_can in R. pose proof R as R0. destruct R as [A B C D Ek F]. destruct Gb as (Gw & Gh & GL).
  unfold set_base in E. rewrite A, B, (proj2 (Z.ltb_lt 0 ang) H2), (proj2 (Z.leb_le _ _)) in E by lia. cbn [andb] in E.
  destruct (base_map_total root (b_w b) (b_h b) ang (b_data b)) as (m & Em & Wm & Mw & Mh & Ma); try assumption; try lia.
  rewrite Em in E. cbn [bind] in E. set (full := Region 0 0 0 (b_w b) (b_h b) ang (b_stamp b)) in *.
  set (f := fun l => Layer (l_kind l) m (l_region l) (l_prev l) (l_oprev l) (l_msg l)) in *.
  destruct (chain m _ true (map f (s_layers (n_stack n0)))) as [[ls' ps']|] eqn:Ec; cbn [bind fst snd replay n_stack] in E; [|discriminate].
  injection E as <- <-. cbn [n_stack s_layers s_base] in *.
  assert (Tf : tall ang full). { split; [unfold sized, full; cbn; lia|]. cbn. lia. }
  assert (Ff : fits m full). { split; [apply Tf|]. unfold full. cbn. lia. }
  destruct (reg_facts ang m (s_rregion (n_stack n0)) full Wm Ma H2 C Tf) as (T1 & P1 & _ & _ & I1 & Z1).
  assert (Zf : zero_size full = false). { apply zero_size_false; [apply Tf|]. cbn. lia. }
  specialize (Z1 Zf Ff). rewrite Mw, Mh in *.
  apply (chain_regions ang _ m _ true ls' ps' Wm Ma H2) with (l := l) (q := q) in Ec; try assumption.
  - assert (Kok : Forall (fun l => kind_ok (l_kind l)) (s_layers (n_stack n0))).
    { rewrite Forall_forall. intros l' Hl. rewrite Forall_forall in H3. apply H3. rewrite <- Ek. apply List.in_map. assumption. }
    split.
    + clear -D Kok Wm. induction D as [|l l' (d1 & d2 & d3 & d4 & d5) _ IH]; [constructor|]. inversion Kok; subst.
      constructor; [|auto]. unfold layer_pre. cbn [f l_over l_region l_prev l_oprev l_kind l_msg].
      split; [assumption|]. split; [apply same_dims_refl|]. auto 10.
    + apply (updates_last_kinds ks H4). rewrite map_map. cbn. exact Ek.
    + clear -D. induction D as [|l l' (d1 & d2 & d3 & d4 & d5) _ IH]; [constructor|]. constructor; auto.
  - right. exact Z1.
  - apply nth_error_In with i. exact Nl.
  - apply I1; [assumption|]. apply merge_superset; [apply C|apply Tf|]. right. destruct q as [[qx qy] qz]. cbn in Iq |- *. lia.
Qed.

(** *** Examples: a 4 x 4 map with one heading, plain (single cell) layers *)
Definition plain : fcfg := Fcfg (fun dx dy _ => if (dx =? 0) && (dy =? 0) then 100 else 0) 0 false false.
Definition msg (x y : Z) : omsg := Omsg (dot x y) 1 1 0 true.
Definition free4 : bmsg := Bmsg 4 4 (repeat 0 16) 0.
Definition two_layers : list kind := [Foot plain; Foot plain].
Lemma two_layers_good : good_conf plain 1 two_layers.
Proof.
  split; [cbn; lia|lia| |].
  - repeat (constructor; [cbn; lia|]). constructor.
  - intros [|? [|? [|]]] post E; discriminate E.
Qed.
Lemma free4_good : good_base free4.
Proof. unfold good_base. cbn. lia. Qed.
Lemma msg_ok_msg x y : msg_ok (msg x y).
Proof. repeat split; cbn; try lia. Qed.
Definition final (ks : list kind) (es : list event) : node :=
  match run (new_node plain 1 ks) es with Ok (n, _) => n | UB => new_node plain 1 ks end.
Definition cost (ks : list kind) (es : list event) (i : nat) (q : cell) : Z :=
  match nth_error (s_layers (n_stack (final ks es))) i with Some l => peek (l_over l) q | None => -2 end.

(** The hypotheses are met: an obstacle of layer 0 at (1,1), then one of layer 1 at (2,2). *)
Definition history1 : list event := [EvBase free4; EvOverlay 0 (msg 1 1); EvOverlay 1 (msg 2 2)].
Example C25_example : Forall (good_event two_layers) history1 /\ last_base history1 = Some free4 /\
  cost two_layers history1 1 (1, 1, 0) = 100 /\ cost two_layers history1 1 (2, 2, 0) = 100 /\ cost two_layers history1 1 (3, 3, 0) = 0 /\
  current (final two_layers [EvBase free4; EvOverlay 0 (msg 1 1)]) 1 (1, 1, 0).
Proof.
  split. { constructor; [exact free4_good|]. repeat (constructor; [split; [exists plain; reflexivity|apply msg_ok_msg]|]). constructor. }
  split; [reflexivity|]. split; [vm_compute; reflexivity|]. split; [vm_compute; reflexivity|]. split; [vm_compute; reflexivity|].
  intros [|[|j]] l Hj El; [| |lia]; vm_compute in El; injection El as <-; left; cbn; lia.
Qed.

(** Ghosts: outside the update area a layer may keep an obstacle that no message contains any more.
    Layer 0 reports an obstacle at (0,0), layer 1 one at (3,3), then layer 0's obstacle moves to (3,0):
    the combined map keeps the obstacle at (0,0). *)
Definition ghost_history : list event := [EvBase free4; EvOverlay 0 (msg 0 0); EvOverlay 1 (msg 3 3); EvOverlay 0 (msg 3 0)].
Definition clean_history : list event := [EvBase free4; EvOverlay 1 (msg 3 3); EvOverlay 0 (msg 3 0)].
Theorem C25_whole_map_does_not_depend_on_history_refuted :
  Forall (good_event two_layers) ghost_history /\ Forall (good_event two_layers) clean_history /\
  last_base ghost_history = last_base clean_history /\ (forall j, latest j ghost_history = latest j clean_history) /\
  cost two_layers ghost_history 1 (0, 0, 0) = 100 /\ cost two_layers clean_history 1 (0, 0, 0) = 0.
Proof.
  assert (P0 : exists k, nth_error two_layers 0 = Some (Foot k)) by (exists plain; reflexivity).
  assert (P1 : exists k, nth_error two_layers 1 = Some (Foot k)) by (exists plain; reflexivity).
  split. { constructor; [exact free4_good|]. repeat (constructor; [split; [assumption|apply msg_ok_msg]|]). constructor. }
  split. { constructor; [exact free4_good|]. repeat (constructor; [split; [assumption|apply msg_ok_msg]|]). constructor. }
  split; [reflexivity|]. split; [intros [|[|j]]; reflexivity|]. split; vm_compute; reflexivity.
Qed.

(** Inflation may leave the message's area: a square robot of radius 2, one overlay layer; the obstacle of a
    3 x 1 message moves away but its inflated border stays. *)
Definition square2 : fcfg := Fcfg (fun _ _ _ => 100) 2 false false.
Definition wide (x y : Z) (data : list Z) : omsg := Omsg (Grid 3 1 data x y (fun i => i) true 1) 3 1 0 true.
Definition free12 : bmsg := Bmsg 12 4 (repeat 0 48) 0.
Definition spill_history : list event := [EvBase free12; EvOverlay 0 (wide 2 1 [0; 100; 0]); EvOverlay 0 (wide 2 1 [0; 0; 0])].
Theorem C25_no_ghosts_with_one_inflated_layer_refuted :
  cost [Foot square2] spill_history 0 (3, 1, 0) = 0 /\ cost [Foot square2] spill_history 0 (1, 1, 0) = 100.
Proof. split; vm_compute; reflexivity. Qed.

(** ** C26 *)

(** An update message describes the node's map exactly, in the area it covers; the area contains the
    region that changed now and the one sent before. *)
Theorem C26_update_message_equals_the_map m reg oprev :
  wf m -> 0 < ca m -> tall (ca m) reg -> tall (ca m) oprev -> fits m reg -> zero_size reg = false ->
  exists u, gen_update m reg oprev = Ok (u, reg) /\
    (forall q, in_map m q -> in_region reg q \/ in_region oprev q -> in_update u q) /\
    (forall q, in_update u q -> in_map m q /\ upd_cell u (fst (fst q)) (snd (fst q)) (snd q) = peek m q).
Proof.
  intros W Pa Tr To Fr Z. destruct (gen_update_ok (ca m) m reg oprev W eq_refl Pa Tr To Fr (or_intror Z)) as (u & E & _ & H).
  destruct (H Z) as [A B]. exists u. split; [assumption|]. split; [|assumption]. intros q I Q. apply A; [assumption|].
  apply merge_superset; [apply Tr|apply To|exact Q].
Qed.

(** A client that replaces its copy by each published map and patches it with each published update message
    ([client], LayersSync.v) has the node's map after every overlay message.
    Stack: static output, layers without outputs, a last layer [kx], update output.  Required: message areas meet the
    base maps, and messages for the last layer draw inside their own area. *)
Theorem C26_client_copy_equals_the_nodes_map root ang ks mid kx es i m c0 :
  good_conf root ang ks -> ks = StaticOut :: mid ++ [kx; UpdateOut] -> Forall (fun k => output k = false) (mid ++ [kx]) ->
  Forall (good_event ks) (es ++ [EvOverlay i m]) -> Forall (neat mid kx) (es ++ [EvOverlay i m]) ->
  (forall b j m', In (EvBase b) es -> In (EvOverlay j m') (es ++ [EvOverlay i m]) -> meets b m') ->
  last_base es <> None ->
  exists n ps x, run (new_node root ang ks) (es ++ [EvOverlay i m]) = Ok (n, ps) /\
    nth_error (s_layers (n_stack n)) (S (length mid)) = Some x /\ l_kind x = kx /\
    forall q, in_map (s_base (n_stack n)) q -> fold_left client ps c0 q = peek (l_over x) q.
Proof.
  intros [H1 H2 H3 H4] Eks Hm G Nt Me Lb. destruct (last_base es) as [b|] eqn:L; [|congruence]. clear Lb.
  destruct (split_at_base es b L) as (q & b0 & es' & Ee).
  assert (Gb0 : good_base b0).
  { apply Forall_app in G. destruct G as [G _]. rewrite Ee in G. apply Forall_app in G. destruct G as [_ G]. exact (Forall_inv G). }
  assert (ER : run (new_node root ang ks) (es ++ [EvOverlay i m]) = run (new_node root ang ks) (EvBase b0 :: map as_event q ++ es' ++ [EvOverlay i m])).
  { rewrite Ee, <- app_assoc. cbn [app]. apply buffered_base; assumption. }
  rewrite ER. rewrite app_assoc in *.
  assert (Inc : forall e, In e ((map as_event q ++ es') ++ [EvOverlay i m]) -> In e (es ++ [EvOverlay i m])).
  { intros e He. rewrite Ee. rewrite !in_app_iff in *. cbn. tauto. }
  destruct (history_sync root ang ks H1 H2 H3 H4 mid kx Eks Hm c0 b0 ((map as_event q ++ es') ++ [EvOverlay i m])) as (n & ps & b1 & lat & E & _ & _ & _ & R & _ & Fin).
  - constructor; [exact Gb0|]. rewrite Forall_forall in *. intros e He. apply G, Inc, He.
  - rewrite Forall_forall in *. intros e He. apply Nt, Inc, He.
  - intros b2 j m' Hb Hj. apply (Me b2 j m'); [|apply Inc, Hj]. rewrite Ee. destruct Hb as [Hb|Hb].
    + injection Hb as <-. apply in_or_app. right. left. reflexivity.
    + apply in_app_or in Hb. destruct Hb as [Hb|[Hb|[]]]; [|discriminate]. apply in_app_or in Hb. apply in_or_app. cbn. tauto.
  - destruct (Fin _ i m eq_refl) as (l0 & pre & x & y & El & Lp & Sy).
    exists n, ps, x. split; [exact E|]. split. { rewrite El. cbn. rewrite nth_error_app2 by lia. rewrite Lp, Nat.sub_diag. reflexivity. }
    split; [|exact Sy]. pose proof (rd_kind _ _ _ _ _ _ R) as Kk. rewrite El, Eks in Kk. cbn in Kk. rewrite map_app in Kk. injection Kk as _ Kk.
    assert (Lk : length (map l_kind pre) = length mid) by (rewrite map_length; exact Lp).
    clear -Kk Lk. revert mid Kk Lk. generalize (map l_kind pre). intros a. induction a as [|z a IH]; intros [|w mid] Kk Lk; try discriminate.
    + cbn in Kk. injection Kk. auto.
    + cbn in Kk. injection Kk as _ Kk. apply (IH mid Kk). cbn in Lk. lia.
Qed.

(** *** Examples *)
Definition sync_layers : list kind := [StaticOut; Foot plain; UpdateOut].
Lemma sync_layers_good : good_conf plain 1 sync_layers.
Proof.
  split; [cbn; lia|lia| |].
  - repeat (constructor; [cbn; first [lia|exact I]|]). constructor.
  - intros [|? [|? [|? [|]]]] post E; try discriminate E. injection E as _ _ <-. reflexivity.
Qed.
Definition copy (ks : list kind) (es : list event) (q : cell) : Z :=
  match run (new_node plain 1 ks) es with Ok (_, ps) => fold_left client ps (fun _ => -3) q | UB => -4 end.
(** A buffered message, the base map, a message at (1,1), another at (3,2). *)
Definition sync_history : list event := [EvOverlay 1 (msg 0 3); EvBase free4; EvOverlay 1 (msg 1 1); EvOverlay 1 (msg 3 2)].
Example C26_example :
  Forall (good_event sync_layers) sync_history /\ Forall (neat [] (Foot plain)) sync_history /\
  (forall b j m', In (EvBase b) sync_history -> In (EvOverlay j m') sync_history -> meets b m') /\
  copy sync_layers sync_history (3, 2, 0) = 100 /\ copy sync_layers sync_history (1, 1, 0) = 0 /\ copy sync_layers sync_history (0, 3, 0) = 0.
Proof.
  split. { constructor; [split; [exists plain; reflexivity|apply msg_ok_msg]|]. constructor; [exact free4_good|].
    repeat (constructor; [split; [exists plain; reflexivity|apply msg_ok_msg]|]). constructor. }
  split. { assert (Cf : forall x y, confined plain (msg x y)).
    { intros x y. apply confined_small; try reflexivity; [apply msg_ok_msg|cbn; lia]. }
    constructor; [intros k Ek _; injection Ek as <-; apply Cf|]. constructor; [exact I|].
    repeat (constructor; [intros k Ek _; injection Ek as <-; apply Cf|]). constructor. }
  split. { intros b j m' Hb Hj. cbn in Hb, Hj. assert (b = free4) as -> by (decompose [or] Hb; try discriminate; try tauto; congruence).
    assert (Hm : m' = msg 0 3 \/ m' = msg 1 1 \/ m' = msg 3 2) by (decompose [or] Hj; try discriminate; try tauto; match goal with H : _ = EvOverlay _ _ |- _ => injection H as <- <- end; tauto).
    decompose [or] Hm; subst m'; unfold meets; cbn; lia. }
  split; [vm_compute; reflexivity|]. split; vm_compute; reflexivity.
Qed.

(** Finding: a message whose area lies outside the map makes the node clear the layer's previous obstacles but
    publish an empty update message; the client keeps them, also after later updates. *)
Definition outside_history : list event :=
  [EvBase free4; EvOverlay 1 (msg 2 0); EvOverlay 1 (msg 1 1); EvOverlay 1 (msg 9 9); EvOverlay 1 (msg 3 3)].
Theorem C26_messages_outside_the_map_are_followed_refuted :
  Forall (good_event sync_layers) outside_history /\ Forall (neat [] (Foot plain)) outside_history /\
  cost sync_layers outside_history 1 (1, 1, 0) = 0 /\ copy sync_layers outside_history (1, 1, 0) = 100.
Proof.
  split. { constructor; [exact free4_good|]. repeat (constructor; [split; [exists plain; reflexivity|apply msg_ok_msg]|]). constructor. }
  split. { assert (Cf : forall x y, confined plain (msg x y)).
    { intros x y. apply confined_small; try reflexivity; [apply msg_ok_msg|cbn; lia]. }
    constructor; [exact I|]. repeat (constructor; [intros k Ek _; injection Ek as <-; apply Cf|]). constructor. }
  split; vm_compute; reflexivity.
Qed.

(** Finding: inflation that leaves the message's area is not sent. *)
Definition spill_layers : list kind := [StaticOut; Foot square2; UpdateOut].
Definition spill_history2 : list event := [EvBase free12; EvOverlay 1 (wide 2 1 [0; 100; 0]); EvOverlay 1 (wide 7 1 [0; 100; 0])].
Theorem C26_inflation_beyond_the_message_is_sent_refuted :
  Forall (good_event spill_layers) spill_history2 /\
  (forall m, In (EvOverlay 1 m) spill_history2 -> meets free12 m) /\
  cost spill_layers spill_history2 1 (10, 1, 0) = 100 /\ copy spill_layers spill_history2 (10, 1, 0) = 0.
Proof.
  assert (Mw : forall x y a b c, msg_ok (wide x y [a; b; c])) by (intros; repeat split; cbn; lia).
  split. { constructor; [unfold good_event, good_base; cbn; lia|]. repeat (constructor; [split; [exists square2; reflexivity|apply Mw]|]). constructor. }
  split. { intros m Hm. cbn in Hm.
    assert (H : m = wide 2 1 [0; 100; 0] \/ m = wide 7 1 [0; 100; 0]) by (decompose [or] Hm; try discriminate; try tauto; match goal with H : _ = EvOverlay _ _ |- _ => injection H as <- end; tauto).
    destruct H as [->| ->]; unfold meets; cbn; lia. }
  split; vm_compute; reflexivity.
Qed.

(** ** C27 *)

(** Overlays before the base map: nothing is published, and when the base map comes the node is in the same state and
    has published the same as if the base map had come first, followed by the overlays in their order. *)
Theorem C27_overlays_before_the_base_map_are_processed_in_order root ang ks (early : list (nat * omsg)) b es :
  good_conf root ang ks -> good_base b ->
  let overlays := map (fun im => EvOverlay (fst im) (snd im)) early in
  (exists n, run (new_node root ang ks) overlays = Ok (n, [])) /\
  run (new_node root ang ks) (overlays ++ EvBase b :: es) = run (new_node root ang ks) (EvBase b :: overlays ++ es).
Proof.
  intros [H1 H2 H3 H4] Gb. cbv zeta. split.
  - exists (buffer early (new_node root ang ks)). exact (run_buffers root ang ks early).
  - exact (buffered_base root ang ks H1 H2 H3 H4 b early es Gb).
Qed.
Example C27_example : good_conf plain 1 sync_layers /\ good_base free4 /\
  cost sync_layers [EvOverlay 1 (msg 0 3); EvOverlay 1 (msg 1 2); EvBase free4] 1 (1, 2, 0) = 100 /\
  cost sync_layers [EvOverlay 1 (msg 0 3); EvOverlay 1 (msg 1 2); EvBase free4] 1 (0, 3, 0) = 0.
Proof. split; [exact sync_layers_good|]. split; [exact free4_good|]. split; vm_compute; reflexivity. Qed.

(** Finding: an empty base map while overlays are buffered makes the replay loop append to the list it iterates over. *)
Theorem C27_empty_base_map_is_harmless_refuted :
  run (new_node plain 1 sync_layers) [EvOverlay 1 (msg 1 1); EvBase (Bmsg 0 0 [] 0)] = UB.
Proof. vm_compute. reflexivity. Qed.

(** ** C28 *)

(** Unknown handling on any map and area. *)
Theorem C28_unknown_cells_are_replaced_in_the_area_only c r m :
  wf m -> 0 <= rx r -> 0 <= ry r -> 0 <= rz r ->
  exists m', handle_unknown c r m = Ok m' /\ same_dims m m' /\
    forall q, in_map m q ->
      (in_region r q -> peek m q < 0 -> peek m' q = c) /\
      (in_region r q -> 0 <= peek m q -> peek m' q = peek m q) /\
      (~ in_region r q -> peek m' q = peek m q).
Proof.
  intros W X Y Z. destruct (handle_unknown_ok c r m W X Y Z) as (m' & E & _ & D & H). exists m'. split; [assumption|]. split; [assumption|].
  intros q I. destruct (H q I) as [H1 H2]. split; [|split; [|assumption]]; intros Q V; rewrite (H1 Q); destruct (Z.ltb_spec (peek m q) 0); try lia; reflexivity.
Qed.

(** In a node: after any history, the unknown-handling layer shows no unknown cell in its update area (if the cost is
    not negative), and the cells below a stop-propagation layer are all hidden: what it passes on is unknown everywhere. *)
Theorem C28_layers_in_a_node root ang ks es b n ps i l :
  good_conf root ang ks -> Forall (good_event ks) es -> last_base es = Some b ->
  run (new_node root ang ks) es = Ok (n, ps) -> nth_error (s_layers (n_stack n)) i = Some l ->
  forall q, in_map (s_base (n_stack n)) q ->
  (nth_error ks i = Some StopProp -> peek (l_over l) q = -1) /\
  (forall c, nth_error ks i = Some (Unknown c) -> in_region (l_region l) q ->
     exists parent, below (s_base (n_stack n)) (s_layers (n_stack n)) i = Some parent /\
       (peek parent q < 0 -> peek (l_over l) q = c) /\ (0 <= peek parent q -> peek (l_over l) q = peek parent q)).
Proof.
  intros C G L E Nl q Iq. destruct (C25_layers_show_their_latest_messages root ang ks es b C G L) as (n' & ps' & base & E' & _ & Eb & Kk & H).
  rewrite E in E'. injection E' as <- <-. rewrite Eb in *. split.
  - intros Ek. destruct (H i l StopProp Nl Ek) as (p & _ & H'). apply (H' q Iq). auto.
  - intros c Ek Q. destruct (H i l (Unknown c) Nl Ek) as (p & B & H'). exists p. split; [exact B|].
    specialize (H' q Iq (or_introl Q)). cbn in H'. rewrite H'. destruct (Z.ltb_spec (peek p q) 0); split; intros; try lia; reflexivity.
Qed.
Definition part_unknown : bmsg := Bmsg 4 4 [-1;0;0;0; 0;100;0;0; 0;0;0;0; 0;0;0;-1] 0.
Example C28_example :
  cost [Unknown 60; StopProp; Foot plain] [EvBase part_unknown; EvOverlay 2 (msg 2 2)] 0 (0, 0, 0) = 60 /\
  cost [Unknown 60; StopProp; Foot plain] [EvBase part_unknown; EvOverlay 2 (msg 2 2)] 0 (1, 1, 0) = 100 /\
  cost [Unknown 60; StopProp; Foot plain] [EvBase part_unknown; EvOverlay 2 (msg 2 2)] 1 (1, 1, 0) = -1 /\
  cost [Unknown 60; StopProp; Foot plain] [EvBase part_unknown; EvOverlay 2 (msg 2 2)] 2 (1, 1, 0) = -1 /\
  cost [Unknown 60; StopProp; Foot plain] [EvBase part_unknown; EvOverlay 2 (msg 2 2)] 2 (2, 2, 0) = 100.
Proof. repeat split; vm_compute; reflexivity. Qed.

Print Assumptions C25_updated_cells_do_not_depend_on_history.
Print Assumptions C26_client_copy_equals_the_nodes_map.
Print Assumptions C27_overlays_before_the_base_map_are_processed_in_order.
Print Assumptions C28_layers_in_a_node.
