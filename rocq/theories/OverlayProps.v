(** C13: dynamic costmap updates never leave residue. *)
From Coq Require Import ZifyBool.
From Verif Require Import Common DistMap DistMapProofs Overlay OverlaySpec OverlayProofs.
Local Open Scope Z_scope.

Section S.
  Variable unknown : Z.
  Variable overwrite : bool.

  (** The planner's grids agree with the map and the update in force. *)
  Definition shows (o : ov) (m : mmsg) (cur kept : option umsg) : Prop :=
    o_w o = m_w m /\ o_h o = m_h m /\ o_a o = m_a m /\ o_kept o = kept /\
    (forall c, in3 o c = true -> o_cm o c = cost_in_force unknown overwrite m cur c) /\
    (forall c, in2 o c = true -> o_rough o c = rough_in_force unknown m cur c) /\
    (forall c, in2 o c = true ->
       match cur with
       | Some u => if (u_x u <=? fst c) && (fst c <? u_x u + u_w u) && (u_y u <=? snd c) && (snd c <? u_y u + u_h u)
                   then o_upd o c = lowest (fun t => nth (Z.to_nat ((t * u_h u + (snd c - u_y u)) * u_w u + (fst c - u_x u))) (u_data u) 0) (u_a u)
                   else o_upd o c = 0 \/ o_upd o c = -1
       | None => o_upd o c = 0 \/ o_upd o c = -1
       end).

  Definition inv (o : ov) (m : mmsg) (cur kept : option umsg) : Prop :=
    shows o m cur kept /\ good_map m /\ clean_outside o /\
    (forall c, in3 o c = true -> o_base o c = map_cost unknown m c) /\
    (forall c, in2 o c = true -> o_rbase o c = lowest (fun t => map_cost unknown m (c, t)) (m_a m)).

  Lemma in_dims o o' : o_w o' = o_w o -> o_h o' = o_h o -> o_a o' = o_a o -> (forall c, in2 o' c = in2 o c) /\ (forall c, in3 o' c = in3 o c).
  Proof. intros E1 E2 E3. unfold in3, in2. rewrite E1, E2, E3. auto. Qed.

  Lemma too_large_fits o m u : good_map m -> good_update u -> o_w o = m_w m -> o_h o = m_h m -> o_a o = m_a m ->
    too_large o u = negb (fits m u).
  Proof.
    intros (M1 & M2 & M3 & M4 & _) (G1 & G2 & G3 & G4 & G5 & G6 & G7 & G8 & _) E1 E2 E3. unfold too_large, fits.
    rewrite !u32_small, !i32_small by lia. rewrite E1, E2, E3. lia.
  Qed.

  Lemma fits_small m u : good_map m -> good_update u -> fits m u = true -> u_w u * u_h u * u_a u < 2 ^ 31.
  Proof.
    intros (M1 & M2 & M3 & M4 & _) (G1 & G2 & G3 & G4 & G5 & G6 & G7 & G8 & _) F. unfold fits in F.
    assert (u_w u * u_h u <= m_w m * m_h m) by nia. assert (0 <= u_w u * u_h u) by nia. nia.
  Qed.

  Lemma apply_fits o m cur kept u : inv o m cur kept -> good_update u -> fits m u = true -> fits_yaw m u ->
    exists o', apply_update overwrite o u = Ok o' /\ inv o' m (Some u) None.
  Proof.
    intros ((D1 & D2 & D3 & D4 & D5 & D6 & D7) & Gm & CO & B1 & B2) Gu F FY. unfold apply_update.
    rewrite (too_large_fits o m u Gm Gu D1 D2 D3), F. cbn [negb].
    destruct (restore_spec o CO) as (o1 & E1 & R1 & R2 & R3 & R4 & R5 & R6 & R7 & R8). rewrite E1. cbn [bind].
    pose proof (fits_small m u Gm Gu F) as Sm. unfold fits in F. unfold fits_yaw in FY.
    pose proof Gu as (G1 & G2 & G3 & G4 & G5 & G6 & G7 & G8 & G9). pose proof Gm as (M1 & M2 & M3 & M4 & _).
    rewrite (i32_small (u_x u)), (i32_small (u_y u)), (i32_small (u_w u)), (i32_small (u_h u)), !u32_small, !i32_small by lia.
    set (o2 := set_area _ _ _).
    destruct (columns_spec overwrite u (m_w m) (m_h m) (m_a m) Gu ltac:(lia) ltac:(lia) ltac:(lia) Sm o2) as
      (o3 & E3 & J1 & J2 & J3 & J4 & J5 & J6 & J7 & J8 & J9 & J10 & J11 & J12);
      [unfold o2; cbn [o_w set_area]; congruence|unfold o2; cbn [o_h set_area]; congruence|unfold o2; cbn [o_a set_area]; congruence|].
    rewrite E3. cbn [bind]. eexists. split; [reflexivity|].
    unfold o2 in *. cbn [o_w o_h o_a o_cm o_base o_rough o_rbase o_upd o_min o_max o_kept set_area] in *.
    set (o4 := keep o3 None).
    assert (In2 : forall c, in2 o4 c = in2 o c) by (apply in_dims; cbn [o4 keep o_w o_h o_a]; congruence).
    assert (In3 : forall c, in3 o4 c = in3 o c) by (apply in_dims; cbn [o4 keep o_w o_h o_a]; congruence).
    assert (Col : forall c : cell, u_x u <= fst c < u_x u + u_w u /\ u_y u <= snd c < u_y u + u_h u ->
      In (fst c - u_x u, snd c - u_y u) (columns (u_w u) (u_h u)) /\ c = (u_x u + (fst c - u_x u), u_y u + (snd c - u_y u))).
    { intros [x y] Hc. cbn [fst snd] in *. split; [apply in_columns; cbn [fst snd]; lia|f_equal; lia]. }
    assert (Col' : forall c p, In p (columns (u_w u) (u_h u)) -> c = (u_x u + fst p, u_y u + snd p) ->
      u_x u <= fst c < u_x u + u_w u /\ u_y u <= snd c < u_y u + u_h u).
    { intros c p Hp ->. apply in_columns in Hp. cbn [fst snd]. lia. }
    (* the cost of every cell and orientation *)
    assert (CM : forall c, in3 o c = true -> o_cm o3 c = cost_in_force unknown overwrite m (Some u) c).
    { intros [c t] Hc. unfold cost_in_force, update_cost. cbn [fst snd].
      destruct ((0 <=? fst c - u_x u) && (fst c - u_x u <? u_w u) && (0 <=? snd c - u_y u) && (snd c - u_y u <? u_h u) && (0 <=? t - u_yaw u) && (t - u_yaw u <? u_a u)) eqn:Q.
      - destruct (Col c ltac:(lia)) as [Hp Ep].
        specialize (J9 (fst c - u_x u, snd c - u_y u) (t - u_yaw u) Hp ltac:(lia)). cbn [fst snd] in J9. rewrite <- Ep in J9.
        replace (u_yaw u + (t - u_yaw u)) with t in J9 by lia. rewrite J9, (R7 _ Hc), (B1 _ Hc). reflexivity.
      - rewrite J10. { rewrite (R7 _ Hc), (B1 _ Hc). reflexivity. }
        intros (p & Hp & X & Y). cbn [fst snd] in X, Y. pose proof (Col' c p Hp X). lia. }
    assert (RO : forall c, in2 o c = true -> o_rough o3 c = rough_in_force unknown m (Some u) c).
    { intros c Hc. unfold rough_in_force.
      destruct ((0 <=? fst c - u_x u) && (fst c - u_x u <? u_w u) && (0 <=? snd c - u_y u) && (snd c - u_y u <? u_h u)) eqn:Q.
      - destruct (Col c ltac:(lia)) as [Hp Ep]. destruct (J11 _ Hp) as [K1 _]. cbn [fst snd] in K1. rewrite <- Ep in K1.
        rewrite K1, (proj1 (R8 _ Hc)), (B2 _ Hc). reflexivity.
      - destruct (J12 c) as [K1 _]. { intros (p & Hp & X). pose proof (Col' c p Hp X). lia. }
        rewrite K1, (proj1 (R8 _ Hc)), (B2 _ Hc). reflexivity. }
    split; [|split; [exact Gm|split; [|split]]].
    - unfold shows. cbn [o4 keep o_w o_h o_a o_kept o_cm o_rough o_upd]. split; [congruence|]. split; [congruence|]. split; [congruence|]. split; [reflexivity|].
      split; [intros c Hc; rewrite In3 in Hc; apply CM, Hc|]. split; [intros c Hc; rewrite In2 in Hc; apply RO, Hc|].
      intros c Hc. rewrite In2 in Hc. destruct ((u_x u <=? fst c) && (fst c <? u_x u + u_w u) && (u_y u <=? snd c) && (snd c <? u_y u + u_h u)) eqn:Q.
      + destruct (Col c ltac:(lia)) as [Hp Ep]. destruct (J11 _ Hp) as [_ K2]. cbn [fst snd] in K2. rewrite <- Ep in K2. exact K2.
      + destruct (J12 c) as [_ K2]. { intros (p & Hp & X). pose proof (Col' c p Hp X). lia. }
        rewrite K2. apply R8, Hc.
    - unfold clean_outside. assert (AR : forall c, in_area o4 c <-> u_x u <= fst c <= Z.max (u_x u + u_w u - 1) 0 /\ u_y u <= snd c <= Z.max (u_y u + u_h u - 1) 0).
      { intros c. unfold in_area. cbn [o4 keep o_min o_max]. rewrite J7, J8. cbn [fst snd]. reflexivity. }
      cbn [o4 keep o_cm o_base o_rough o_rbase o_upd]. fold o4. split; [|split].
      + intros [c t] Hc Na. rewrite In3 in Hc. rewrite AR in Na. cbn [fst snd] in Na. rewrite J10, (R7 _ Hc). { congruence. }
        intros (p & Hp & X & Y). cbn [fst snd] in X, Y. pose proof (Col' c p Hp X). lia.
      + intros c Hc Na. rewrite In2 in Hc. rewrite AR in Na. destruct (J12 c) as [K1 K2].
        { intros (p & Hp & X). pose proof (Col' c p Hp X). lia. }
        rewrite K1, K2. destruct (R8 c Hc) as [-> K]. split; [congruence|exact K].
      + intros c Hc. rewrite AR in Hc. rewrite In2. unfold in2. rewrite D1, D2. lia.
    - intros c Hc. rewrite In3 in Hc. cbn [o4 keep o_base]. rewrite J4, R4. apply B1, Hc.
    - intros c Hc. rewrite In2 in Hc. cbn [o4 keep o_rbase]. rewrite J5, R5. apply B2, Hc.
  Qed.

  Lemma inv_keep o m cur kept k : inv o m cur kept -> inv (keep o k) m cur k.
  Proof. intros ((D1 & D2 & D3 & D4 & D5 & D6 & D7) & X). split; [|exact X]. repeat (split; [assumption|]). split; [reflexivity|]. auto. Qed.

  Lemma apply_rejected o m cur kept u : inv o m cur kept -> good_update u -> fits m u = false ->
    exists o', apply_update overwrite o u = Ok o' /\ inv o' m cur (Some u).
  Proof.
    intros I Gu F. unfold apply_update. rewrite (too_large_fits o m u) by (try apply I; exact Gu). rewrite F. cbn [negb].
    eexists. split; [reflexivity|]. eapply inv_keep, I.
  Qed.

  Lemma loaded k m : good_map m -> exists o, load_map unknown k m = Ok o /\ inv o m None k.
  Proof.
    intros G. destruct (load_map_spec unknown k m G) as (o & E & L1 & L2 & L3 & L4 & L5 & L6 & L7 & L8 & L9 & L10 & L11).
    exists o. split; [exact E|]. split; [|split; [exact G|split; [|split; assumption]]].
    - split; [exact L1|]. split; [exact L2|]. split; [exact L3|]. split; [exact L9|]. rewrite L4, L5.
      split; [intros c Hc; rewrite (L10 c Hc); reflexivity|]. split; [intros c Hc; rewrite (L11 c Hc); reflexivity|]. intros c Hc. left. apply L6.
    - split; [intros; rewrite L4; reflexivity|]. split; [intros; split; [rewrite L5; reflexivity|left; apply L6]|].
      intros c [H1 H2]. rewrite L7, L8 in *. cbn [fst snd] in *. destruct G as (M1 & M2 & _). lia.
  Qed.

  Definition state_matches (s : option ov) (t : option (mmsg * option umsg * option umsg)) : Prop :=
    match s, t with
    | None, None => True
    | Some o, Some (m, cur, kept) => inv o m cur kept
    | _, _ => False
    end.
  Definition kept_known (es : list oevent) (t : option (mmsg * option umsg * option umsg)) : Prop :=
    match t with
    | Some (m, _, kept) => In (EMap m) es /\ match kept with Some u => In (EUpdate u) es | None => True end
    | None => True
    end.

  Lemma run_matches es : Forall good_event es -> (forall m u, In (EMap m) es -> In (EUpdate u) es -> fits m u = true -> fits_yaw m u) ->
    exists s, orun unknown overwrite es = Ok s /\ state_matches s (track es) /\ kept_known es (track es).
  Proof.
    intros G Y. unfold orun, track.
    enough (P : exists s, foldM (ostep unknown overwrite) es None = Ok s /\
      (fun pre s => state_matches s (fold_left track_step pre None) /\ kept_known es (fold_left track_step pre None)) es s) by exact P.
    apply (foldM_prefix _ (fun pre s => state_matches s (fold_left track_step pre None) /\ kept_known es (fold_left track_step pre None))).
    - split; exact I.
    - intros pre e post s E [M K]. rewrite fold_left_app. cbn [fold_left].
      assert (He : In e es) by (rewrite E; apply in_or_app; right; left; reflexivity).
      pose proof (proj1 (Forall_forall _ _) G) as G'. pose proof (G' e He) as Ge.
      set (t := fold_left track_step pre None) in *. destruct e as [m|u]; cbn [ostep track_step good_event] in *.
      + (* a map *)
        assert (Q : exists o, cb_map unknown overwrite (match s with Some o => o_kept o | None => None end) m = Ok o /\
          state_matches (Some o) (match t with Some (_, _, Some u) => if (m_stamp m <=? u_stamp u) && fits m u then Some (m, Some u, None) else Some (m, None, None) | _ => Some (m, None, None) end)).
        { set (k := match s with Some o => o_kept o | None => None end).
          assert (Ek : k = match t with Some (_, _, k) => k | None => None end).
          { unfold k. destruct s as [o|], t as [[[m0 cur] kept]|]; try contradiction; [|reflexivity]. apply M. }
          unfold cb_map. destruct (loaded k m Ge) as (o & -> & Io). cbn [bind]. destruct k as [u|] eqn:Hk.
          - destruct t as [[[m0 cur] kept]|]; [|discriminate]. subst kept. cbn [kept_known] in K. destruct K as [_ Ku].
            pose proof (G' _ Ku) as Gu. cbn [good_event] in Gu.
            destruct (m_stamp m <=? u_stamp u) eqn:S; cbn [andb].
            + destruct (fits m u) eqn:F.
              * destruct (apply_fits o m None (Some u) u Io Gu F (Y m u He Ku F)) as (o' & -> & I'). cbn [bind]. eexists. split; [reflexivity|]. eapply inv_keep, I'.
              * destruct (apply_rejected o m None (Some u) u Io Gu F) as (o' & -> & I'). cbn [bind]. eexists. split; [reflexivity|]. eapply inv_keep, I'.
            + cbn [bind]. eexists. split; [reflexivity|]. eapply inv_keep, Io.
          - cbn [bind]. eexists. split; [reflexivity|]. destruct t as [[[m0 cur] kept]|]; [subst kept|]; eapply inv_keep, Io. }
        destruct Q as (o & Eo & Mo). exists (Some o). split; [|split].
        * destruct s; rewrite Eo; reflexivity.
        * exact Mo.
        * destruct t as [[[m0 cur] [u|]]|]; [|split; auto|split; auto]. destruct ((m_stamp m <=? u_stamp u) && fits m u); split; auto.
      + (* an update *)
        destruct s as [o|], t as [[[m cur] kept]|]; try contradiction; cbn [bind].
        * cbn [state_matches kept_known] in M, K. destruct (fits m u) eqn:F.
          -- destruct (apply_fits o m cur kept u M Ge F (Y m u (proj1 K) He F)) as (o' & -> & I'). cbn [bind]. eexists. split; [reflexivity|]. split; [exact I'|]. split; [apply K|exact I].
          -- destruct (apply_rejected o m cur kept u M Ge F) as (o' & -> & I'). cbn [bind]. eexists. split; [reflexivity|]. split; [exact I'|]. split; [apply K|exact He].
        * exists None. split; [reflexivity|]. split; exact I.
  Qed.
End S.

(** C13: after every history of well-formed maps and updates whose angular window lies on the map, no access leaves a grid, and the
    cost of every cell and orientation is the static cost laid over by the update in force - nothing else; the same for the costs by
    cell; and cm_updates_ holds the lowest cost of the update in force in its area and 0 or -1 elsewhere. *)
Theorem C13_costmap_is_static_plus_latest_update unknown overwrite es : Forall good_event es ->
  (forall m u, In (EMap m) es -> In (EUpdate u) es -> fits m u = true -> fits_yaw m u) ->
  exists s, orun unknown overwrite es = Ok s /\
    match track es with
    | None => s = None
    | Some (m, cur, kept) => exists o, s = Some o /\ shows unknown overwrite o m cur kept
    end.
Proof.
  intros G Y. destruct (run_matches unknown overwrite es G Y) as (s & E & M & _). exists s. split; [exact E|].
  destruct s as [o|], (track es) as [[[m cur] kept]|]; try contradiction; [|reflexivity]. exists o. split; [reflexivity|apply M].
Qed.

(** The history before the last map does not matter, and of the updates after it only the last fitting one does. *)
Theorem C13_older_updates_leave_no_residue unknown overwrite m us1 us2 u es1 es2 : 
  let h1 := es1 ++ EMap m :: map EUpdate us1 ++ [EUpdate u] in
  let h2 := es2 ++ EMap m :: map EUpdate us2 ++ [EUpdate u] in
  Forall good_event h1 -> Forall good_event h2 -> fits m u = true ->
  (forall m' u', In (EMap m') h1 -> In (EUpdate u') h1 -> fits m' u' = true -> fits_yaw m' u') ->
  (forall m' u', In (EMap m') h2 -> In (EUpdate u') h2 -> fits m' u' = true -> fits_yaw m' u') ->
  exists o1 o2, orun unknown overwrite h1 = Ok (Some o1) /\ orun unknown overwrite h2 = Ok (Some o2) /\
    (forall x y t, 0 <= x < m_w m -> 0 <= y < m_h m -> 0 <= t < m_a m -> o_cm o1 (x, y, t) = o_cm o2 (x, y, t)) /\
    (forall x y, 0 <= x < m_w m -> 0 <= y < m_h m -> o_rough o1 (x, y) = o_rough o2 (x, y)).
Proof.
  intros h1 h2 G1 G2 F Y1 Y2.
  assert (T : forall es us, track (es ++ EMap m :: map EUpdate us ++ [EUpdate u]) = Some (m, Some u, None)).
  { intros es us. unfold track. rewrite fold_left_app. cbn [fold_left]. rewrite fold_left_app. cbn [fold_left].
    set (t := track_step _ (EMap m)). assert (exists c k, t = Some (m, c, k)) as (c & k & ->).
    { unfold t, track_step. destruct (fold_left _ es None) as [[[a b] [w|]]|]; [destruct (_ && _)| |]; eauto. }
    revert c k. induction us as [|v us IH]; intros c k; cbn [map fold_left].
    - cbn [track_step]. rewrite F. reflexivity.
    - cbn [track_step]. destruct (fits m v); apply IH. }
  destruct (C13_costmap_is_static_plus_latest_update unknown overwrite h1 G1 Y1) as (s1 & E1 & M1).
  destruct (C13_costmap_is_static_plus_latest_update unknown overwrite h2 G2 Y2) as (s2 & E2 & M2).
  unfold h1 in M1. unfold h2 in M2. rewrite T in M1, M2. destruct M1 as (o1 & -> & A1 & A2 & A3 & _ & A4 & A5 & _).
  destruct M2 as (o2 & -> & B1 & B2 & B3 & _ & B4 & B5 & _). exists o1, o2. split; [exact E1|]. split; [exact E2|]. split.
  - intros x y t Hx Hy Ht. rewrite A4, B4; [reflexivity| |]; unfold in3, in2; cbn [fst snd]; lia.
  - intros x y Hx Hy. rewrite A5, B5; [reflexivity| |]; unfold in2; cbn [fst snd]; lia.
Qed.

(** The check accepts an update whose angular window leaves the map, and laying it over reads and writes outside the grids. *)
Theorem C13_angular_window_is_not_checked_refuted : exists m u, good_map m /\ good_update u /\ fits m u = true /\
  orun 100 false [EMap m; EUpdate u] = UB.
Proof.
  exists (MMsg 0 2 2 2 (repeat 0 8)), (UMsg 0 0 0 1 1 1 2 [0; 50]). split; [|split; [|split; vm_compute; reflexivity]].
  - unfold good_map. simpl. lia.
  - unfold good_update. simpl. lia.
Qed.
(** The same for a position so large that position plus width wraps to zero. *)
Theorem C13_wrapping_area_is_accepted_refuted : exists m u, good_map m /\ u_x u < 2 ^ 32 /\
  Z.of_nat (length (u_data u)) = u_w u * u_h u * u_a u /\ orun 100 false [EMap m; EUpdate u] = UB.
Proof.
  exists (MMsg 0 2 2 1 (repeat 0 4)), (UMsg 0 (2 ^ 32 - 1) 0 0 1 1 1 [50]).
  split; [unfold good_map; simpl; lia|]. split; [simpl; lia|]. split; vm_compute; reflexivity.
Qed.

(** Two overlapping updates and one that is too large, on a 3x2 map with two orientations; then a larger map that takes it. *)
Module OverlayExample.
  Definition m := MMsg 0 3 2 2 [0; 10; 20; 0; -1; 0;  5; 10; 20; 0; 0; 0].
  Definition u1 := UMsg 1 0 0 0 2 2 2 [100; 30; 0; 0; 100; 30; 0; 0].
  Definition u2 := UMsg 2 1 0 0 2 1 2 [5; 60; 5; 60].
  Definition u3 := UMsg 3 2 0 0 2 1 2 [7; 7; 7; 7].
  Definition m2 := MMsg 3 4 1 2 [0; 0; 0; 0; 0; 0; 0; 0].
  Definition grid (w h a : Z) (r : outcome (option ov)) : list Z :=
    match r with Ok (Some o) => map (fun '(t, (y, x)) => o_cm o (x, y, t)) (list_prod (range_excl 0 a) (list_prod (range_excl 0 h) (range_excl 0 w))) | _ => [] end.
  Example hypotheses_hold : Forall good_event [EMap m; EUpdate u1; EUpdate u2; EUpdate u3; EMap m2] /\
    (forall m' u', In (EMap m') [EMap m; EUpdate u1; EUpdate u2; EUpdate u3; EMap m2] ->
      In (EUpdate u') [EMap m; EUpdate u1; EUpdate u2; EUpdate u3; EMap m2] -> fits m' u' = true -> fits_yaw m' u').
  Proof.
    split.
    - repeat (constructor; [unfold good_event, good_map, good_update; simpl; lia|]). constructor.
    - intros m' u' Hm Hu _. simpl in Hm, Hu. unfold fits_yaw.
      repeat match goal with H : _ \/ _ |- _ => destruct H | H : EMap _ = EMap _ |- _ => injection H as <- | H : EUpdate _ = EUpdate _ |- _ => injection H as <- end;
        try discriminate; try contradiction; vm_compute; discriminate.
  Qed.
  Example first_update : grid 3 2 2 (orun 100 false [EMap m; EUpdate u1]) = [100; 30; 20; 0; 100; 0; 100; 30; 20; 0; 0; 0].
  Proof. vm_compute. reflexivity. Qed.
  Example second_update : grid 3 2 2 (orun 100 false [EMap m; EUpdate u1; EUpdate u2]) = [0; 10; 60; 0; 100; 0; 5; 10; 60; 0; 0; 0].
  Proof. vm_compute. reflexivity. Qed.
  Example overwriting : grid 3 2 2 (orun 100 true [EMap m; EUpdate u1; EUpdate u2]) = [0; 5; 60; 0; 100; 0; 5; 5; 60; 0; 0; 0].
  Proof. vm_compute. reflexivity. Qed.
  Example too_large_waits : grid 4 1 2 (orun 100 true [EMap m; EUpdate u1; EUpdate u3; EMap m2]) = [0; 0; 7; 7; 0; 0; 7; 7].
  Proof. vm_compute. reflexivity. Qed.
End OverlayExample.

Print Assumptions C13_costmap_is_static_plus_latest_update.
Print Assumptions C13_older_updates_leave_no_residue.
Print Assumptions C13_angular_window_is_not_checked_refuted.
Print Assumptions C13_wrapping_area_is_accepted_refuted.
