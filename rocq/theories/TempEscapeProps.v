(** C51: the temporary escape search stays inside the map, and what it returns. *)
From Verif Require Import Common CyclicVec CyclicVecSpec CyclicVecProofs CostAlg CostZ CostF32 DistMap Overlay OverlayProofs SearchAvail SearchAvailProps TempEscape GridMap.
Local Open Scope Z_scope.

(** Specification.  A cell within the escape range of the robot, [range] away from the border, that can be reached locally. *)
Definition reachable_near (W H range esc : Z) (arrivable : cell -> bool) (s : cell) (c : cell) : Prop :=
  (fst c - fst s) * (fst c - fst s) + (snd c - snd s) * (snd c - snd s) <= esc * esc /\
  range <= fst c < W - range /\ range <= snd c < H - range /\
  arrivable (fst c - fst s + esc, snd c - snd s + esc) = true.
(** A pose the search may choose. *)
Definition escape_pose (W H A range esc esc_min acceptable : Z) (cm : cell3 -> Z) (cm_rough : cell -> Z) (arrivable : cell -> bool) (heading : cell -> option Z)
    (s : cell) (p : cell3) : Prop :=
  reachable_near W H range esc arrivable s (fst p) /\ fst p <> s /\
  esc_min * esc_min <= (fst (fst p) - fst s) * (fst (fst p) - fst s) + (snd (fst p) - snd s) * (snd (fst p) - snd s) /\
  cm_rough (fst p) < acceptable /\ cm p < acceptable /\ 0 <= snd p < A /\
  exists h k, heading (fst p) = Some h /\ snd p = h + k * A.

  Lemma copy_local_iff W H esc cm_rough s junk : 0 <= esc -> (exists l, copy_local W H esc cm_rough s junk = Ok l) <->
    (0 <= fst s - esc /\ fst s + esc + 1 < W /\ 0 <= snd s - esc /\ snd s + esc + 1 < H).
  Proof.
    intros He. unfold copy_local. split.
    - intros [l E].
      assert (X : forall p, In p (copy_area esc s) -> in_map W H p = true).
      { revert l junk E. induction (copy_area esc s) as [|p ps IH]; intros l junk E q; [intros []|]. cbn [foldM] in E.
        destruct (guard (in_map W H p)) as [u|] eqn:G; [|discriminate E]. cbn [bind] in E. destruct (guard (in_local _ _)); [|discriminate E]. cbn [bind] in E.
        intros [->|Hq]; [unfold guard in G; destruct (in_map W H q); [reflexivity|discriminate G]|]. eapply IH; [exact E|exact Hq]. }
      assert (I1 : In (fst s - esc, snd s - esc) (copy_area esc s)).
      { unfold copy_area. apply in_prod; apply in_range_incl; unfold local_width; lia. }
      assert (I2 : In (fst s + esc + 1, snd s + esc + 1) (copy_area esc s)).
      { unfold copy_area. apply in_prod; apply in_range_incl; unfold local_width; lia. }
      apply X in I1, I2. unfold in_map in *. cbn [fst snd] in *. lia.
    - intros B. assert (X : forall p, In p (copy_area esc s) -> in_map W H p = true /\ in_local esc (local_of esc s p) = true).
      { intros [x y] Hp. unfold copy_area in Hp. apply in_prod_iff in Hp as [Hx Hy]. apply in_range_incl in Hx, Hy. unfold in_map, in_local, local_of, local_width in *. cbn [fst snd]. lia. }
      revert junk. induction (copy_area esc s) as [|p ps IH]; intros junk; [eexists; reflexivity|]. cbn [foldM].
      destruct (X p (or_introl eq_refl)) as [-> ->]. cbn [guard bind]. apply IH. intros q Hq. apply X. right. exact Hq.
  Qed.

  Lemma in_circle esc dx dy : In (dx, dy) (circle esc) <-> Z.abs dx <= esc /\ Z.abs dy <= esc.
  Proof.
    unfold circle. rewrite in_map_iff. split.
    - intros ([y x] & E & I). injection E as <- <-. apply in_prod_iff in I as [I1 I2]. apply in_range_incl in I1, I2. lia.
    - intros [X Y]. exists (dy, dx). split; [reflexivity|]. apply in_prod; apply in_range_incl; lia.
  Qed.

Section P.
  Context {F : Type} (K : cost_ops F).
  Hypothesis L : order_laws K.
  Hypothesis CL : cost_laws K.
  Variables W H A range esc esc_min acceptable : Z.
  Variable cm : cell3 -> Z.
  Variable cm_rough : cell -> Z.
  Variable static_dist : cell -> F.
  Variable arrivable : cell -> bool.
  Variable heading : cell -> option Z.
  Variable goal : cell3.
  Hypothesis HA : 0 < A.
  Hypothesis Hr : 1 <= range.
  Hypothesis He : 0 <= esc.
  Hypothesis Hg : 0 <= snd goal < A.
  Notation near := (reachable_near W H range esc arrivable).
  Notation epose := (escape_pose W H A range esc esc_min acceptable cm cm_rough arrivable heading).
  Notation probe' := (probe K W H A range esc esc_min acceptable cm cm_rough static_dist arrivable heading goal).

  Lemma read_gradient_ok te : range <= fst te < W - range -> range <= snd te < H - range -> read_gradient W H te = Ok tt.
  Proof.
    intros Hx Hy. unfold read_gradient.
    assert (X : forall d, In d (list_prod [-1; 0; 1] [-1; 0; 1]) -> in_map W H (cadd te d) = true).
    { intros [x y] Hd. apply in_prod_iff in Hd as [D1 D2]. unfold in_map, cadd. cbn [fst snd In] in *. lia. }
    induction (list_prod [-1; 0; 1] [-1; 0; 1]) as [|d l IH]; [reflexivity|]. cbn [foldM]. rewrite (X d (or_introl eq_refl)). cbn [guard].
    destruct (_ && _); cbn [bind]; apply IH; intros; apply X; right; assumption.
  Qed.

  (** One cell: the original goal, an acceptable pose, or neither. *)
  Lemma probe_spec s best te0 d : 0 <= fst s -> 0 <= snd s -> Z.abs (fst d) <= esc -> Z.abs (snd d) <= esc ->
    (near s (cadd s d) /\ cadd s d = fst goal /\ cm goal < 100 /\ probe' s (Best best te0) d = Ok (BackToGoal)) \/
    (~ (near s (cadd s d) /\ cadd s d = fst goal /\ cm goal < 100) /\
     ((exists t, epose s (cadd s d, t) /\ probe' s (Best best te0) d = Ok (if fltb K (static_dist (cadd s d)) best then Best (static_dist (cadd s d)) (cadd s d, t) else Best best te0)) \/
      ((forall t, epose s (cadd s d, t) -> fltb K (static_dist (cadd s d)) best = false) /\ probe' s (Best best te0) d = Ok (Best best te0)))).
  Proof.
    destruct s as [sx sy], d as [dx dy]. unfold cadd. cbn [fst snd]. intros Sx Sy Dx Dy. unfold probe. cbv zeta. unfold cadd. cbn [fst snd].
    assert (EQ : (sx + dx - sx) * (sx + dx - sx) + (sy + dy - sy) * (sy + dy - sy) = dx * dx + dy * dy) by ring.
    destruct (Z.ltb_spec (esc * esc) (dx * dx + dy * dy)) as [E1|E1].
    { right. split; [intros [[N _] _]; cbn [fst snd] in N; lia|]. right. split; [|reflexivity]. intros t [[N _] _]. cbn [fst snd] in N. lia. }
    destruct (in_map W H (sx + dx, sy + dy)) eqn:E2; cbn [negb].
    2:{ unfold in_map in E2. cbn [fst snd] in E2. right. split; [intros [[_ [N1 [N2 _]]] _]; cbn [fst snd] in *; lia|]. right. split; [|reflexivity].
        intros t [[_ [N1 [N2 _]]] _]. cbn [fst snd] in *. lia. }
    destruct (validate_at W H (sx + dx, sy + dy) range) eqn:E3; cbn [negb]; unfold validate_at in E3; cbn [fst snd] in E3.
    2:{ right. split; [intros [[_ [N1 [N2 _]]] _]; cbn [fst snd] in *; lia|]. right. split; [|reflexivity].
        intros t [[_ [N1 [N2 _]]] _]. cbn [fst snd] in *. lia. }
    assert (E4 : in_local esc (local_of esc (sx, sy) (sx + dx, sy + dy)) = true) by (unfold in_local, local_of, local_width; cbn [fst snd]; lia).
    rewrite E4. cbn [guard bind].
    assert (LO : local_of esc (sx, sy) (sx + dx, sy + dy) = (sx + dx - sx + esc, sy + dy - sy + esc)) by (unfold local_of; cbn [fst snd]; f_equal; lia).
    destruct (arrivable (local_of esc (sx, sy) (sx + dx, sy + dy))) eqn:E5; cbn [negb]; rewrite LO in E5.
    2:{ right. split; [intros [[_ [_ [_ N]]] _]; cbn [fst snd] in *; congruence|]. right. split; [|reflexivity].
        intros t [[_ [_ [_ N]]] _]. cbn [fst snd] in *. congruence. }
    assert (Nr : near (sx, sy) (sx + dx, sy + dy)) by (split; [cbn [fst snd]; lia|]; cbn [fst snd]; repeat split; lia || exact E5).
    assert (GB : exists b, (if (sx + dx =? fst (fst goal)) && (sy + dy =? snd (fst goal)) then do _ <- guard (in_map3 W H A goal); Ok (cm goal <? 100) else Ok false) = Ok b /\
      (b = true <-> ((sx + dx, sy + dy) = fst goal /\ cm goal < 100))).
    { destruct goal as [[gx gy] gt]. cbn [fst snd] in *. destruct (Z.eqb_spec (sx + dx) gx) as [Ex|Ex]; cbn [andb].
      - destruct (Z.eqb_spec (sy + dy) gy) as [Ey|Ey].
        + match goal with |- context [guard ?b] => assert (I3 : b = true) by (unfold in_map3, in_map in *; cbn [fst snd] in *; lia); rewrite I3 end. cbn [guard bind].
          eexists. split; [reflexivity|]. subst. split.
          * intros Y. apply Z.ltb_lt in Y. auto.
          * intros [_ Y]. apply Z.ltb_lt. exact Y.
        + eexists. split; [reflexivity|]. split; [discriminate|]. intros [Y _]. congruence.
      - eexists. split; [reflexivity|]. split; [discriminate|]. intros [Y _]. congruence. }
    destruct GB as [b [-> Hb]]. cbn [bind]. destruct b.
    { left. destruct (proj1 Hb eq_refl). auto. }
    right. split. { intros [_ X]. apply Hb in X. discriminate. }
    destruct (((dx =? 0) && (dy =? 0)) || (dx * dx + dy * dy <? esc_min * esc_min)) eqn:E6.
    { right. split; [|reflexivity]. intros t [_ [N1 [N2 _]]]. cbn [fst snd] in *. apply orb_true_iff in E6 as [E6|E6].
      - exfalso. apply N1. f_equal; lia.
      - lia. }
    apply orb_false_iff in E6 as [E6 E7].
    cbn [guard bind].
    destruct (Z.leb_spec acceptable (cm_rough (sx + dx, sy + dy))) as [E8|E8].
    { right. split; [|reflexivity]. intros t [_ [_ [_ [N _]]]]. exact (False_ind _ (Zlt_not_le _ _ N E8)). }
    destruct (fleb K best (static_dist (sx + dx, sy + dy))) eqn:E9.
    { right. split; [|reflexivity]. intros t _. match goal with |- ?x = false => destruct x eqn:Y; [|reflexivity] end.
      rewrite <- (lw_lt_irrefl K CL best). symmetry. eapply (lw_le_lt_trans K CL); [exact E9|exact Y]. }
    rewrite read_gradient_ok by (cbn [fst snd]; lia). cbn [bind].
    destruct (heading (sx + dx, sy + dy)) as [h|] eqn:E10.
    2:{ right. split; [|reflexivity]. intros t [_ [_ [_ [_ [_ [_ [h [k [N _]]]]]]]]]. cbn [fst] in N. congruence. }
    destruct (cycleUnsignedElement_spec h A HA) as (t & -> & [k Sd] & Ur). cbn [bind]. unfold unsigned_range in Ur.
    match goal with |- context [guard ?b] => assert (I3 : b = true) by (unfold in_map3, in_map in *; cbn [fst snd] in *; lia); rewrite I3 end. cbn [guard bind].
    assert (Tq : forall t', 0 <= t' < A -> (exists k', t' = h + k' * A) -> t' = t).
    { intros t' Ht' [k' E']. assert (k' = k \/ k' <= k - 1 \/ k + 1 <= k') as [->|[X|X]] by lia; nia. }
    match goal with |- context [acceptable <=? ?x] => destruct (Z.leb_spec acceptable x) as [E11|E11] end.
    { right. split; [|reflexivity]. intros t' [_ [_ [_ [_ [N1 [N2 [h' [k' [N3 N4]]]]]]]]]. cbn [fst snd] in *. rewrite E10 in N3. injection N3 as <-.
      rewrite (Tq t' N2 (ex_intro _ k' N4)) in N1. exact (False_ind _ (Zlt_not_le _ _ N1 E11)). }
    left. exists t. split.
    - split; [exact Nr|]. cbn [fst snd]. split; [intros X; injection X; lia|]. split; [lia|]. split; [exact E8|]. split; [exact E11|]. split; [lia|].
      exists h, k. split; [exact E10|lia].
    - match goal with |- (if ?b then _ else _) = _ => destruct b; reflexivity end.
  Qed.

  Definition no_back s (pre : list cell) : Prop := forall d, In d pre -> ~ (near s (cadd s d) /\ cadd s d = fst goal /\ cm goal < 100).
  Lemma scan_spec s : 0 <= fst s -> 0 <= snd s ->
    exists r, foldM (probe' s) (circle esc) (Best (fmax K) ((0, 0), 0)) = Ok r /\
      match r with
      | BackToGoal => near s (fst goal) /\ cm goal < 100
      | Best c te => no_back s (circle esc) /\
          ((c = fmax K /\ te = ((0, 0), 0) /\ forall d t, In d (circle esc) -> epose s (cadd s d, t) -> fltb K (static_dist (cadd s d)) (fmax K) = false) \/
           (epose s te /\ c = static_dist (fst te) /\ fltb K c (fmax K) = true /\
            forall d t, In d (circle esc) -> epose s (cadd s d, t) -> fltb K (static_dist (cadd s d)) c = false))
      end.
  Proof.
    intros Sx Sy.
    apply (foldM_prefix (probe' s) (fun pre r => match r with
      | BackToGoal => near s (fst goal) /\ cm goal < 100
      | Best c te => no_back s pre /\
          ((c = fmax K /\ te = ((0, 0), 0) /\ forall d t, In d pre -> epose s (cadd s d, t) -> fltb K (static_dist (cadd s d)) (fmax K) = false) \/
           (epose s te /\ c = static_dist (fst te) /\ fltb K c (fmax K) = true /\
            forall d t, In d pre -> epose s (cadd s d, t) -> fltb K (static_dist (cadd s d)) c = false))
      end) (circle esc) (Best (fmax K) ((0, 0), 0))).
    - split; [intros d []|]. left. split; [reflexivity|]. split; [reflexivity|]. intros d t [].
    - intros pre d post r E P. destruct r as [c te|]; [|exists BackToGoal; split; [reflexivity|exact P]].
      destruct P as [Nb P].
      assert (Hd : In d (circle esc)) by (rewrite E; apply in_or_app; right; left; reflexivity).
      assert (Z.abs (fst d) <= esc /\ Z.abs (snd d) <= esc) as [D1 D2] by (destruct d as [dx dy]; apply in_circle in Hd; exact Hd).
      destruct (probe_spec s c te d Sx Sy D1 D2) as [[N [G [Cg ->]]]|[Nn Q]].
      { eexists. split; [reflexivity|]. cbn. rewrite <- G. auto. }
      assert (Nb' : no_back s (pre ++ [d])). { intros d' I. apply in_app_or in I as [I|[<-|[]]]; [apply Nb; exact I|exact Nn]. }
      destruct Q as [[t [Pt ->]]|[Np ->]].
      + destruct (fltb K (static_dist (cadd s d)) c) eqn:Cm.
        * eexists. split; [reflexivity|]. cbn. split; [exact Nb'|]. right. split; [exact Pt|]. split; [reflexivity|].
          assert (Lm : fltb K (static_dist (cadd s d)) (fmax K) = true).
          { destruct P as [[-> _]|[_ [_ [Lc _]]]]; [exact Cm|]. eapply (ol_trans K L); eassumption. }
          split; [exact Lm|]. intros d' t' I H'. apply in_app_or in I as [I|[<-|[]]]; [|apply (ol_irrefl K L)].
          destruct (fltb K (static_dist (cadd s d')) (static_dist (cadd s d))) eqn:Y; [|reflexivity].
          destruct P as [[-> [_ M]]|[_ [_ [_ M]]]]; rewrite <- (M d' t' I H'); symmetry; eapply (ol_trans K L); eassumption.
        * eexists. split; [reflexivity|]. cbn. split; [exact Nb'|]. destruct P as [[-> [-> M]]|[P1 [P2 [P3 M]]]].
          -- left. split; [reflexivity|]. split; [reflexivity|]. intros d' t' I H'. apply in_app_or in I as [I|[<-|[]]]; [apply (M d' t' I H')|exact Cm].
          -- right. split; [exact P1|]. split; [exact P2|]. split; [exact P3|]. intros d' t' I H'. apply in_app_or in I as [I|[<-|[]]]; [apply (M d' t' I H')|exact Cm].
      + eexists. split; [reflexivity|]. cbn. split; [exact Nb'|]. destruct P as [[-> [-> M]]|[P1 [P2 [P3 M]]]].
        -- left. split; [reflexivity|]. split; [reflexivity|]. intros d' t' I H'. apply in_app_or in I as [I|[<-|[]]]; [apply (M d' t' I H')|exact (Np t' H')].
        -- right. split; [exact P1|]. split; [exact P2|]. split; [exact P3|]. intros d' t' I H'. apply in_app_or in I as [I|[<-|[]]]; [apply (M d' t' I H')|exact (Np t' H')].
  Qed.
End P.

Lemma near_in_circle W H range esc arrivable s c : reachable_near W H range esc arrivable s c -> 0 <= esc -> exists d, In d (circle esc) /\ c = cadd s d.
Proof.
  destruct s as [sx sy], c as [x y]. intros [N _] He. cbn [fst snd] in N. exists (x - sx, y - sy). split; [apply in_circle; nia|]. unfold cadd. cbn [fst snd]. f_equal; lia.
Qed.

(** C51.  Where the search runs, it touches only cells of the map and of its local buffer exactly if the robot is more than the escape range plus
    one cell away from the far borders. *)
Theorem C51_escape_search_is_in_bounds_partial {F} (K : cost_ops F) W H A range esc esc_min acceptable cm cm_rough static_dist arrivable heading goal s junk :
  order_laws K -> cost_laws K -> 0 < A -> 1 <= range -> 0 <= esc -> 0 <= snd goal < A ->
  esc <= fst s < W - esc -> esc <= snd s < H - esc ->
  (exists r, crowd_escape K W H A range esc esc_min acceptable cm cm_rough static_dist arrivable heading goal s junk = Ok r) <->
  (fst s + esc + 1 < W /\ snd s + esc + 1 < H).
Proof.
  intros L CL HA Hr He Hg Sx Sy. unfold crowd_escape.
  assert (V : validate_at W H s esc = true) by (unfold validate_at; lia). rewrite V. cbn [negb]. split.
  - intros [r E]. destruct (copy_local W H esc cm_rough s junk) as [l|] eqn:Ec; [|discriminate E].
    assert (X : exists l, copy_local W H esc cm_rough s junk = Ok l) by eauto. apply copy_local_iff in X; [|assumption]. lia.
  - intros B. assert (X : exists l, copy_local W H esc cm_rough s junk = Ok l) by (apply copy_local_iff; lia). destruct X as [l ->]. cbn [bind].
    destruct (scan_spec K L CL W H A range esc esc_min acceptable cm cm_rough static_dist arrivable heading goal HA Hr He Hg s) as [r [-> _]]; [lia|lia|].
    cbn [bind]. destruct r; [|eauto]. destruct (feqb K _ _); [eauto|].
    assert (I : in_map W H s = true) by (unfold in_map; lia). rewrite I. cbn [guard bind]. eauto.
Qed.

(** C51, refuted: the check before the search lets the robot stand where the copy into the local buffer reads one column past the map, for every map and every escape range. *)
Theorem C51_far_border_reads_outside_the_map_refuted {F} (K : cost_ops F) W H A range esc esc_min acceptable cm cm_rough static_dist arrivable heading goal s junk :
  0 <= esc -> esc <= fst s -> fst s = W - esc - 1 -> esc <= snd s < H - esc ->
  crowd_escape K W H A range esc esc_min acceptable cm cm_rough static_dist arrivable heading goal s junk = UB.
Proof.
  intros He S0 Sx Sy. unfold crowd_escape. assert (V : validate_at W H s esc = true) by (unfold validate_at; lia). rewrite V. cbn [negb].
  destruct (copy_local W H esc cm_rough s junk) as [l|] eqn:Ec; [|reflexivity].
  assert (X : exists l, copy_local W H esc cm_rough s junk = Ok l) by eauto. apply copy_local_iff in X; [|assumption]. lia.
Qed.
(** On the block structured memory of the map this is a read past the allocation if the width is a multiple of the block width: a 128 x 128 map with
    blocks of 128, robot at column 125, escape range 2 (planner_3d.cpp:2170-2195, cm_rough_ is a BlockMemGridmap<char, 3, 2, 0x80>). *)
Theorem C51_far_border_reads_past_the_allocation_refuted : forall (fresh junk : Z -> Z) (vmax : Z),
  let rough := GridMap.reset 2 7 [128; 128; 1] fresh (gmap_init vmax junk) in
  let local := GridMap.reset 2 7 [6; 6; 1] fresh (gmap_init vmax junk) in
  GridMap.validate 2 rough [125; 60; 0] 2 = true /\
  copy_partially_to 2 7 false vmax local [0; 0; 0] rough [123; 58; 0] [128; 63; 0] = UB.
Proof. intros fresh junk vmax rough local. split; vm_compute; reflexivity. Qed.

(** C51, refuted: with a search range below one cell the gradient reads outside the map. *)
Definition edge_static (c : cell) : option Z := Some (fst c + snd c).
Theorem C51_zero_search_range_reads_outside_the_map_refuted : exists W H esc s,
  esc <= fst s < W - esc /\ esc <= snd s < H - esc /\ fst s + esc + 1 < W /\ snd s + esc + 1 < H /\
  crowd_escape KZ W H 4 0 esc 0 50 (fun _ => 0) (fun _ => 0) edge_static (fun _ => true) (fun _ => Some 0) ((9, 9), 0) s (fun _ => 0) = UB.
Proof. exists 10, 10, 2, (2, 2). cbn [fst snd]. split; [lia|]. split; [lia|]. split; [lia|]. split; [lia|]. vm_compute. reflexivity. Qed.

(** C51: the temporary goal.  It is a locally reachable free pose within the escape range and not closer than the minimum, with the smallest
    distance to the original goal on the static map among those; the original goal is taken back exactly if it is free and locally reachable. *)
Theorem C51_escape_goal_is_reachable_and_best {F} (K : cost_ops F) W H A range esc esc_min acceptable cm cm_rough static_dist arrivable heading goal s junk r :
  order_laws K -> cost_laws K -> 0 < A -> 1 <= range -> 0 <= esc -> 0 <= snd goal < A ->
  esc <= fst s < W - esc -> esc <= snd s < H - esc ->
  crowd_escape K W H A range esc esc_min acceptable cm cm_rough static_dist arrivable heading goal s junk = Ok r ->
  let back := reachable_near W H range esc arrivable s (fst goal) /\ cm goal < 100 in
  let pose := escape_pose W H A range esc esc_min acceptable cm cm_rough arrivable heading s in
  match r with
  | OriginalGoal => back
  | EscapeTo te better => ~ back /\ pose te /\ fltb K (static_dist (fst te)) (fmax K) = true /\
      (forall te', pose te' -> fltb K (static_dist (fst te')) (static_dist (fst te)) = false) /\
      better = fltb K (static_dist (fst te)) (static_dist s)
  | NoEscape => ~ back /\ forall te', pose te' -> fltb K (static_dist (fst te')) (fmax K) = false
  end.
Proof.
  intros L CL HA Hr He Hg Sx Sy E back pose. unfold crowd_escape in E.
  assert (V : validate_at W H s esc = true) by (unfold validate_at; lia). rewrite V in E. cbn [negb] in E.
  destruct (copy_local W H esc cm_rough s junk) as [l|]; [|discriminate E]. cbn [bind] in E.
  destruct (scan_spec K L CL W H A range esc esc_min acceptable cm cm_rough static_dist arrivable heading goal HA Hr He Hg s) as [q [Eq P]]; [lia|lia|].
  rewrite Eq in E. cbn [bind] in E. destruct q as [c te|]; [|injection E as <-; exact P].
  destruct P as [Nb P].
  assert (NB : ~ back). { intros [B1 B2]. destruct (near_in_circle W H range esc arrivable s _ B1 He) as [d [Id Ed]]. apply (Nb d Id). rewrite <- Ed. auto. }
  assert (EP : forall te', pose te' -> exists d t, In d (circle esc) /\ te' = (cadd s d, t)).
  { intros [c' t'] [B _]. destruct (near_in_circle W H range esc arrivable s _ B He) as [d [Id Ed]]. exists d, t'. split; [exact Id|]. cbn [fst] in Ed. congruence. }
  destruct P as [[-> [-> M]]|[P1 [-> [P3 M]]]].
  - rewrite (ol_max K L) in E. injection E as <-. split; [exact NB|]. intros te' Hp. destruct (EP te' Hp) as [d [t [Id ->]]]. exact (M d t Id Hp).
  - rewrite (ol_below_max K L) in E by exact P3.
    destruct (guard (in_map W H s)); [|discriminate E]. cbn [bind] in E. injection E as <-.
    split; [exact NB|]. split; [exact P1|]. split; [exact P3|]. split; [|reflexivity]. intros te' Hp. destruct (EP te' Hp) as [d [t [Id ->]]]. exact (M d t Id Hp).
Qed.

(** C51, finding: without crowd mode the temporary goal is searched around the corner of the map instead of the robot: a robot further than the
    escape range from there gets a goal outside of its escape range. *)
Theorem C51_plain_escape_goal_is_near_the_robot_refuted {F} (K : cost_ops F) W H A range esc esc_min acceptable cm euclid esc_angle te better (s : cell) :
  order_laws K -> 0 < A -> 0 <= esc -> (forall d, d <> ((0, 0), 0) -> fltb K (euclid d) (fmax K) = true) -> acceptable <> -1 ->
  plain_escape K W H A range esc esc_min acceptable cm euclid esc_angle = Ok (EscapeTo te better) ->
  2 * esc < fst s -> esc < fst s - fst (fst te).
Proof.
  intros L HA He Fin Hacc E Hs. unfold plain_escape in E.
  destruct (C14_search_finds_a_nearest_pose K euclid W H A range acceptable cm ((0, 0), 0) esc esc_angle acceptable esc_min L HA He Fin) as [f [q [Eq P]]].
  rewrite Eq in E. cbn [bind fst snd] in E. destruct f; [|discriminate E]. injection E as <- _.
  assert (X : exists mn limit, nearest_pose K euclid W H A range cm ((0, 0), 0) esc esc_angle mn limit q) by (destruct P as [P|[_ [_ P]]]; eauto).
  destruct X as [mn [limit [d [Hd _]]]]. destruct d as [[dx dy] dt], q as [[x y] t]. cbn [acceptable_pose] in Hd.
  destruct Hd as (_ & H1 & _ & _ & Hx & _). cbn [fst snd] in *. nia.
Qed.

Module Examples.
  (** A 12 x 12 map, escape range 3: the robot at (5, 5), the original goal far away at (10, 10), everything reachable and free. *)
  Definition dist (c : cell) : option Z := Some (Z.abs (10 - fst c) + Z.abs (10 - snd c)).
  Definition search := crowd_escape KZ 12 12 4 1 3 1 50 (fun _ => 0) (fun _ => 0) dist (fun _ => true) (fun _ => Some 5) ((10, 10), 0) (5, 5) (fun _ => 0).
  Example found_one : search = Ok (EscapeTo ((7, 7), 1) true).
  Proof. vm_compute. reflexivity. Qed.
  Example in_bounds : 3 <= 5 < 12 - 3 /\ 5 + 3 + 1 < 12.
  Proof. lia. Qed.
  Example plain : plain_escape KZ 40 40 4 1 3 1 50 (fun _ => 0) (fun d => Some (Z.abs (fst (fst d)) + Z.abs (snd (fst d)) + Z.abs (snd d))) 1 = Ok (EscapeTo ((1, 1), 0) false).
  Proof. vm_compute. reflexivity. Qed.
End Examples.

Print Assumptions C51_escape_search_is_in_bounds_partial.
Print Assumptions C51_far_border_reads_outside_the_map_refuted.
Print Assumptions C51_far_border_reads_past_the_allocation_refuted.
Print Assumptions C51_zero_search_range_reads_outside_the_map_refuted.
Print Assumptions C51_escape_goal_is_reachable_and_best.
Print Assumptions C51_plain_escape_goal_is_near_the_robot_refuted.
