(** C84: what the planner works with after reconfigurations and new maps. *)
From Coq Require Import Reals ZArith QArith List Lra Lia Bool ZifyBool.
From Flocq Require Import Core.
From Verif Require Import Common CostAlg CostZ CyclicVec MotionCache Cost3D Cost3DProps Motion3DSpec Motion3DProofs GridMetric StartPredict Hysteresis Reconfig.
Import ListNotations.
Local Open Scope R_scope.

(** *** Specification *)
(** The configuration and the map received last. *)
Fixpoint last_config {A} (c : config A) (es : list (event A)) : config A := match es with [] => c | EvConfig c' :: es => last_config c' es | EvMap _ :: es => last_config c es end.
Fixpoint last_map {A} (M : option pmap) (es : list (event A)) : option pmap := match es with [] => M | EvConfig _ :: es => last_map M es | EvMap M' :: es => last_map (Some M') es end.
Definition good_map (M : pmap) : Prop := 0 < mi_res (pm_info M) /\ (0 < pm_a M)%Z /\ mi_ang (pm_info M) = 2 * PI / IZR (pm_a M).
(** What a planner that has just been started with configuration [c] and then received map [M] works with. *)
Definition dist_of {A} (c : config A) (M : pmap) : dparams :=
  Dparams (ec_of c) (c_range (cells_of c M)) (c_local (cells_of c M)) (lroundR (g_longcut c / mi_res (pm_info M))) (pm_w M) (pm_h M) (mi_res (pm_info M)).
Definition model_of {A} (c : config A) (M : pmap) : model A := Model M (ec_of c) (c_local (cells_of c M)) (2 / tan (mi_ang (pm_info M))) (g_cc c) (c_range (cells_of c M)).
Definition same_grid (M1 M2 : pmap) : Prop := mi_res (pm_info M1) = mi_res (pm_info M2) /\ mi_ang (pm_info M1) = mi_ang (pm_info M2) /\ pm_a M1 = pm_a M2.
Definition same_size (M1 M2 : pmap) : Prop := pm_w M1 = pm_w M2 /\ pm_h M1 = pm_h M2.
Definition map_events {A} (es : list (event A)) (P : pmap -> Prop) : Prop := forall M, In (EvMap M) es -> P M.

(** *** Proofs *)
Section Node.
  Context {A : Type}.
  Implicit Types (c : config A) (n : node A) (es : list (event A)).

  Lemma Reqb_iff x y : Reqb x y = true <-> x = y.
  Proof. unfold Reqb. destruct (Req_EM_T x y); split; congruence. Qed.
  Lemma good_angle M : good_map M -> mi_ang (pm_info M) <> 0.
  Proof. intros (_ & P & ->). apply Rgt_not_eq. apply Rdiv_lt_0_compat; [pose proof PI_RGT_0; lra|apply IZR_lt; exact P]. Qed.
  Lemma good_same M1 M2 : good_map M1 -> good_map M2 -> mi_ang (pm_info M1) = mi_ang (pm_info M2) -> pm_a M1 = pm_a M2.
  Proof.
    intros (_ & P1 & E1) (_ & P2 & E2) E. rewrite E1, E2 in E. apply eq_IZR. pose proof PI_RGT_0 as Pp. apply IZR_lt in P1, P2.
    assert (X : 2 * PI / IZR (pm_a M1) * (IZR (pm_a M1) * IZR (pm_a M2)) = 2 * PI / IZR (pm_a M2) * (IZR (pm_a M1) * IZR (pm_a M2))) by (rewrite E; reflexivity).
    replace (2 * PI / IZR (pm_a M1) * (IZR (pm_a M1) * IZR (pm_a M2))) with (2 * PI * IZR (pm_a M2)) in X by (field; lra).
    replace (2 * PI / IZR (pm_a M2) * (IZR (pm_a M1) * IZR (pm_a M2))) with (2 * PI * IZR (pm_a M1)) in X by (field; lra). symmetry. apply (Rmult_eq_reg_l (2 * PI)); lra.
  Qed.
  Lemma cells_same c M1 M2 : same_grid M1 M2 -> cells_of c M1 = cells_of c M2.
  Proof. intros (E1 & E2 & E3). unfold cells_of. rewrite E1, E2, E3. reflexivity. Qed.

  (** The state after a history with maps: everything belongs to the last configuration and map, except that the model may have been made for an earlier map with the same grid [M0]. *)
  Definition settled c M M0 n : Prop :=
    n_cfg n = c /\ n_map n = M /\ n_cells n = Some (cells_of c M) /\ n_ec n = ec_of c /\ n_aspect n = aspect_of M /\ n_dist n = Some (dist_of c M) /\
    same_grid M0 M /\ n_model n = Some (model_of c M0).
  Lemma settle_config c c' M M0 n : good_map M -> settled c M M0 n -> exists M1, (M1 = M0 \/ M1 = M) /\ exists n', cb_parameter c' n = Ok n' /\ settled c' M M1 n'.
  Proof.
    intros G (E1 & E2 & E3 & E4 & E5 & E6 & Sg & E7). unfold cb_parameter. cbn [n_map n_cells n_aspect n_model n_dist]. rewrite E2.
    destruct (Reqb (mi_res (pm_info M)) 0) eqn:R1; [exfalso; apply Reqb_iff in R1; destruct G; lra|]. destruct (Reqb (mi_ang (pm_info M)) 0) eqn:R2; [exfalso; apply Reqb_iff in R2; exact (good_angle M G R2)|].
    cbn [negb andb]. unfold reset. cbn [n_cfg n_map n_cells n_ec n_model n_dist]. rewrite E3, E7. cbn [bind]. unfold init_dist. cbn [n_cfg n_map n_cells n_ec n_aspect n_model n_dist].
    destruct (Z.eqb_spec (c_range (cells_of c M)) (c_range (cells_of c' M))) as [Er|Nr].
    - exists M0. split; [left; reflexivity|]. eexists. split; [reflexivity|]. unfold settled. cbn [n_cfg n_map n_cells n_ec n_aspect n_model n_dist]. repeat (split; [reflexivity || exact Sg|]).
      f_equal. unfold model_of. cbn [m_map m_range]. rewrite !(cells_same _ _ _ Sg), Er. destruct Sg as (_ & Sa & _). unfold aspect_of. rewrite <- Sa. reflexivity.
    - exists M. split; [right; reflexivity|]. eexists. split; [reflexivity|]. unfold settled. cbn [n_cfg n_map n_cells n_ec n_aspect n_model n_dist]. repeat (split; [reflexivity|]).
      split; [repeat split; reflexivity|]. reflexivity.
  Qed.
  Lemma settle_map c M' M M0 n : good_map M -> good_map M' -> settled c M M0 n -> exists M1, (M1 = M0 \/ M1 = M') /\ exists n', cb_map M' n = Ok n' /\ settled c M' M1 n'.
  Proof.
    intros G G' (E1 & E2 & E3 & E4 & E5 & E6 & Sg & E7). unfold cb_map. rewrite E2, E1.
    destruct (Reqb (mi_res (pm_info M)) (mi_res (pm_info M'))) eqn:R1; [destruct (Reqb (mi_ang (pm_info M)) (mi_ang (pm_info M'))) eqn:R2|]; cbn [negb orb].
    - apply Reqb_iff in R1, R2. exists M0. split; [left; reflexivity|].
      assert (Sg' : same_grid M M') by (split; [exact R1|split; [exact R2|exact (good_same M M' G G' R2)]]).
      assert (Sg0 : same_grid M0 M') by (destruct Sg as (?&?&?), Sg' as (?&?&?); repeat split; congruence).
      cbn [bind]. unfold init_dist. cbn [n_cfg n_map n_cells n_ec n_aspect n_model n_dist]. rewrite E3. eexists. split; [reflexivity|]. unfold settled. cbn [n_cfg n_map n_cells n_ec n_aspect n_model n_dist].
      split; [reflexivity|]. split; [reflexivity|]. split; [f_equal; apply cells_same; exact Sg'|]. split; [reflexivity|].
      split; [rewrite E5; unfold aspect_of; rewrite R2; reflexivity|]. split; [unfold dist_of; rewrite (cells_same c M M' Sg'); reflexivity|]. split; [exact Sg0|exact E7].
    - exists M'. split; [right; reflexivity|]. unfold reset. cbn [bind]. unfold init_dist. cbn [n_cfg n_map n_cells n_ec n_aspect n_model n_dist]. eexists. split; [reflexivity|].
      unfold settled. cbn [n_cfg n_map n_cells n_ec n_aspect n_model n_dist]. repeat (split; [reflexivity|]). split; [repeat split; reflexivity|reflexivity].
    - exists M'. split; [right; reflexivity|]. unfold reset. cbn [bind]. unfold init_dist. cbn [n_cfg n_map n_cells n_ec n_aspect n_model n_dist]. eexists. split; [reflexivity|].
      unfold settled. cbn [n_cfg n_map n_cells n_ec n_aspect n_model n_dist]. repeat (split; [reflexivity|]). split; [repeat split; reflexivity|reflexivity].
  Qed.
  Lemma settled_run es : forall c M M0 n, good_map M -> map_events es good_map -> settled c M M0 n ->
    exists M1 M' n', foldM step es n = Ok n' /\ last_map (Some M) es = Some M' /\ settled (last_config c es) M' M1 n' /\ (M1 = M0 \/ M1 = M \/ In (EvMap M1) es) /\ good_map M'.
  Proof.
    induction es as [|e es IH]; intros c M M0 n G Gs H.
    - exists M0, M, n. repeat split; try reflexivity; try apply H; try exact G; auto; apply G.
    - destruct e as [c'|M']; cbn [foldM step last_map last_config].
      + destruct (settle_config c c' M M0 n G H) as (M1 & Hm & n' & -> & H'). cbn [bind].
        destruct (IH c' M M1 n' G ltac:(intros M2 H2; apply Gs; right; exact H2) H') as (M2 & M'' & n'' & -> & L & S2 & I & G'').
        exists M2, M'', n''. split; [reflexivity|]. split; [exact L|]. split; [exact S2|]. split; [|exact G'']. destruct I as [->|[->|I]]; [destruct Hm as [->| ->]; auto|auto|right; right; right; exact I].
      + assert (G' : good_map M') by (apply Gs; left; reflexivity).
        destruct (settle_map c M' M M0 n G G' H) as (M1 & Hm & n' & -> & H'). cbn [bind].
        destruct (IH c M' M1 n' G' ltac:(intros M2 H2; apply Gs; right; exact H2) H') as (M2 & M'' & n'' & -> & L & S2 & I & G'').
        exists M2, M'', n''. split; [reflexivity|]. split; [exact L|]. split; [exact S2|]. split; [|exact G''].
        destruct I as [->|[->|I]]; [destruct Hm as [->| ->]; [auto|right; right; left; reflexivity]|right; right; left; reflexivity|right; right; right; exact I].
  Qed.
  Definition waiting c n : Prop := n = Node c (PMap (mkMI 0 0 0 0) 0 0 0) None (ec_of c) 0 None None.
  Lemma waiting_config c c' n : waiting c n -> exists n', cb_parameter c' n = Ok n' /\ waiting c' n'.
  Proof.
    intros ->. unfold cb_parameter. cbn [n_map pm_info mi_res mi_ang]. destruct (Reqb 0 0) eqn:R; [|exfalso; assert (0 = 0) by reflexivity; apply Reqb_iff in H; congruence]. cbn [negb andb].
    eexists. split; reflexivity.
  Qed.
  Lemma waiting_map c M n : good_map M -> waiting c n -> exists n', cb_map M n = Ok n' /\ settled c M M n'.
  Proof.
    intros G ->. unfold cb_map. cbn [n_map pm_info mi_res mi_ang n_cfg]. destruct (Reqb 0 (mi_res (pm_info M))) eqn:R; [exfalso; apply Reqb_iff in R; destruct G; lra|]. cbn [negb orb]. unfold reset. cbn [bind].
    unfold init_dist. cbn [n_cfg n_map n_cells n_ec n_aspect n_model n_dist]. eexists. split; [reflexivity|]. unfold settled. cbn [n_cfg n_map n_cells n_ec n_aspect n_model n_dist].
    repeat (split; [reflexivity|]). split; [repeat split; reflexivity|reflexivity].
  Qed.
  Lemma waiting_run es : forall c n, map_events es good_map -> waiting c n ->
    exists n', foldM step es n = Ok n' /\
      match last_map None es with None => waiting (last_config c es) n' | Some M => exists M1, settled (last_config c es) M M1 n' /\ In (EvMap M1) es end.
  Proof.
    induction es as [|e es IH]; intros c n Gs H; [exists n; split; [reflexivity|exact H]|]. destruct e as [c'|M]; cbn [foldM step last_map last_config].
    - destruct (waiting_config c c' n H) as (n' & -> & H'). cbn [bind]. destruct (IH c' n' ltac:(intros M2 H2; apply Gs; right; exact H2) H') as (n'' & -> & B). exists n''. split; [reflexivity|].
      destruct (last_map None es) as [M|]; [|exact B]. destruct B as (M1 & B & I). exists M1. split; [exact B|right; exact I].
    - assert (G : good_map M) by (apply Gs; left; reflexivity). destruct (waiting_map c M n G H) as (n' & -> & H'). cbn [bind].
      destruct (settled_run es c M M n' G ltac:(intros M2 H2; apply Gs; right; exact H2) H') as (M1 & M' & n'' & -> & -> & S1 & I & _). exists n''. split; [reflexivity|]. exists M1. split; [exact S1|].
      destruct I as [->|[->|I]]; [left; reflexivity|left; reflexivity|right; exact I].
  Qed.

  (** After every history of configurations and maps, all ranges, tolerances and cost parameters, those of the search and those of the distance map, are what the last configuration and the
      last map ask for; only the size of the map in the search model may be that of an earlier map of the same resolution. *)
  Theorem C84_the_last_configuration_and_map_count c es : map_events es good_map ->
    exists n, run c es = Ok n /\
      match last_map None es with
      | None => n_model n = None /\ n_dist n = None
      | Some M => let c' := last_config c es in
          n_cells n = Some (cells_of c' M) /\ n_ec n = ec_of c' /\ n_dist n = Some (dist_of c' M) /\
          exists M1, In (EvMap M1) es /\ same_grid M1 M /\ n_model n = Some (model_of c' M1)
      end.
  Proof.
    intros G. destruct (waiting_config c c (Node c (PMap (mkMI 0 0 0 0) 0 0 0) None (ec_of c) 0 None None) eq_refl) as (n0 & E0 & W0).
    destruct (waiting_run es c n0 G W0) as (n & E & B). exists n. split; [unfold run, start; rewrite E0; exact E|]. destruct (last_map None es) as [M|].
    - destruct B as (M1 & (B1 & B2 & B3 & B4 & B5 & B6 & B7 & B8) & I). cbv zeta. repeat (split; [assumption|]). exists M1. auto.
    - rewrite B. split; reflexivity.
  Qed.
  (** If maps of the same resolution have the same size, the planner works like one that was started anew. *)
  Theorem C84_like_a_new_planner c es M : map_events es good_map -> last_map None es = Some M ->
    (forall M1, In (EvMap M1) es -> same_grid M1 M -> same_size M1 M) ->
    exists n n', run c es = Ok n /\ run (last_config c es) [EvMap M] = Ok n' /\ n_cells n = n_cells n' /\ n_ec n = n_ec n' /\ n_dist n = n_dist n' /\
      exists m m', n_model n = Some m /\ n_model n' = Some m' /\ m_ec m = m_ec m' /\ m_local m = m_local m' /\ m_aspect m = m_aspect m' /\ m_cc m = m_cc m' /\ m_range m = m_range m' /\
        forall band, lower band m = lower band m' /\ upper band m = upper band m'.
  Proof.
    intros G L Sz. destruct (C84_the_last_configuration_and_map_count c es G) as (n & E & B). rewrite L in B. cbv zeta in B. destruct B as (B1 & B2 & B3 & M1 & I & Sg & B4).
    assert (GM : good_map M). { assert (Q : forall es (o : option pmap), last_map o es = Some M -> o = Some M \/ In (EvMap M) es).
      { clear. induction es as [|[c|M'] es IH]; intros o H; cbn [last_map] in H; [left; exact H| |]. - destruct (IH o H); [left; assumption|right; right; assumption].
        - destruct (IH _ H) as [H'|H']; [right; left; congruence|right; right; exact H']. }
      destruct (Q es None L) as [Q'|Q']; [discriminate|apply G; exact Q']. }
    destruct (C84_the_last_configuration_and_map_count (last_config c es) [EvMap M]) as (n' & E' & B'); [intros M2 [H|[]]; injection H as <-; exact GM|].
    cbn [last_map last_config] in B'. cbv zeta in B'. destruct B' as (B1' & B2' & B3' & M2 & [I'|[]] & _ & B4'). injection I' as <-.
    exists n, n'. repeat (split; [congruence|]). exists (model_of (last_config c es) M1), (model_of (last_config c es) M). split; [exact B4|]. split; [exact B4'|].
    unfold model_of. cbn [m_ec m_local m_aspect m_cc m_range]. rewrite (cells_same _ _ _ Sg). split; [reflexivity|]. split; [reflexivity|]. split; [destruct Sg as (_ & -> & _); reflexivity|]. split; [reflexivity|]. split; [reflexivity|].
    intros band. destruct (Sz M1 I Sg) as [W H]. assert (Lo : lower band (Model M1 (ec_of (last_config c es)) (c_local (cells_of (last_config c es) M)) (2 / tan (mi_ang (pm_info M1))) (g_cc (last_config c es)) (c_range (cells_of (last_config c es) M)))
      = lower band (Model M (ec_of (last_config c es)) (c_local (cells_of (last_config c es) M)) (2 / tan (mi_ang (pm_info M))) (g_cc (last_config c es)) (c_range (cells_of (last_config c es) M)))).
    { unfold lower. cbn [m_map m_range]. destruct Sg as (-> & -> & ->). reflexivity. }
    split; [exact Lo|]. unfold upper. rewrite Lo. cbn [m_map]. rewrite W, H. destruct Sg as (_ & _ & ->). reflexivity.
  Qed.
  (** The lengths and angles of the configuration are kept to within half a cell (half a heading); the search range is rounded down to whole cells. *)
  Theorem C84_ranges_in_cells c M : good_map M ->
    let r := mi_res (pm_info M) in let a := mi_ang (pm_info M) in let k := cells_of c M in
    (0 <= g_search c -> IZR (c_range k) * r <= g_search c < (IZR (c_range k) + 1) * r) /\
    Rabs (IZR (c_hist k) * r - g_hist c) <= r / 2 /\ Rabs (IZR (c_hist_max k) * r - g_hist_max c) <= r / 2 /\ Rabs (IZR (c_local k) * r - g_local c) <= r / 2 /\
    Rabs (IZR (c_esc k) * r - g_esc c) <= r / 2 /\ Rabs (IZR (c_esc_min k) * r - g_esc c * g_esc_ratio c) <= r / 2 /\
    Rabs (IZR (c_tol_lin k) * r - g_tol_lin c) <= r / 2 /\ Rabs (IZR (c_tol_ang k) * a - g_tol_ang c) <= a / 2 /\
    Rabs (IZR (c_goal_lin k) * r - g_goal_lin c) <= r / 2 /\ Rabs (IZR (c_goal_ang k) * a - g_goal_ang c) <= a / 2 /\
    Rabs (IZR (c_tesc_lin k) * r - g_tesc_lin c) <= r / 2 /\ Rabs (IZR (c_tesc_ang k) * a - g_tesc_ang c) <= a / 2 /\
    IZR (c_esc_angle k) * a <= PI / 4 < (IZR (c_esc_angle k) + 1) * a.
  Proof.
    intros (Gr & Ga & Gp). cbv zeta. set (r := mi_res (pm_info M)) in *. assert (Pa : 0 < mi_ang (pm_info M)) by (rewrite Gp; apply Rdiv_lt_0_compat; [pose proof PI_RGT_0; lra|apply IZR_lt; exact Ga]).
    set (a := mi_ang (pm_info M)) in *.
    assert (Near : forall u x, 0 < u -> Rabs (IZR (lroundR (x / u)) * u - x) <= u / 2).
    { intros u x Hu. pose proof (Znearest_half (Z.leb 0) (x / u)) as H. fold (lroundR (x / u)) in H. replace (IZR (lroundR (x / u)) * u - x) with (- ((x / u - IZR (lroundR (x / u))) * u)) by (field; lra).
      rewrite Rabs_Ropp, Rabs_mult, (Rabs_right u) by lra. apply Rle_trans with (/ 2 * u); [apply Rmult_le_compat_r; lra|lra]. }
    unfold cells_of. cbn [c_range c_hist c_hist_max c_local c_esc c_esc_min c_esc_angle c_tol_lin c_tol_ang c_goal_lin c_goal_ang c_tesc_lin c_tesc_ang]. fold r a.
    split.
    - intros H0. assert (0 <= g_search c / r) by (apply Rmult_le_pos; [exact H0|left; apply Rinv_0_lt_compat; exact Gr]). rewrite Ztrunc_floor by assumption.
      pose proof (Zfloor_lb (g_search c / r)) as F1. pose proof (Zfloor_ub (g_search c / r)) as F2. assert (X : g_search c = g_search c / r * r) by (field; lra). split; [rewrite X at 2|rewrite X at 1]; nra.
    - repeat (split; [apply Near; assumption|]). split; [|].
      + rewrite Gp. assert (H : (8 * (pm_a M / 8) <= pm_a M)%Z) by (apply Z.mul_div_le; lia). apply IZR_le in H. rewrite mult_IZR in H. assert (0 < IZR (pm_a M)) by (apply IZR_lt; exact Ga).
        pose proof PI_RGT_0. apply (Rmult_le_reg_r (IZR (pm_a M))); [assumption|]. replace (IZR (pm_a M / 8) * (2 * PI / IZR (pm_a M)) * IZR (pm_a M)) with (IZR (pm_a M / 8) * (2 * PI)) by (field; lra). nra.
      + rewrite Gp. assert (H : (pm_a M < 8 * (pm_a M / 8 + 1))%Z) by (pose proof (Z.mul_succ_div_gt (pm_a M) 8); lia). apply IZR_lt in H. rewrite mult_IZR, plus_IZR in H. assert (0 < IZR (pm_a M)) by (apply IZR_lt; exact Ga).
        pose proof PI_RGT_0. apply (Rmult_lt_reg_r (IZR (pm_a M))); [assumption|]. replace ((IZR (pm_a M / 8) + 1) * (2 * PI / IZR (pm_a M)) * IZR (pm_a M)) with ((IZR (pm_a M / 8) + 1) * (2 * PI)) by (field; lra). nra.
  Qed.
  (** Costs are times: driving at the configured speed for t seconds costs t, turning at the configured speed costs t times the configured weight. *)
  Theorem C84_costs_are_times c es n t : map_events es good_map -> 0 < g_vel (last_config c es) -> 0 < g_ang_vel (last_config c es) ->
    run c es = Ok n -> last_map None es <> None ->
    let '(ex, ey, ea) := n_ec n in
    ex * (g_vel (last_config c es) * t) = t /\ ey * (g_vel (last_config c es) * t) = t /\ ea * (g_ang_vel (last_config c es) * t) = g_weight_ang (last_config c es) * t.
  Proof.
    intros G V W E L. destruct (C84_the_last_configuration_and_map_count c es G) as (n' & E' & B). rewrite E in E'. assert (n' = n) as -> by congruence.
    destruct (last_map None es) as [M|]; [|congruence]. cbv zeta in B. destruct B as (_ & B & _). rewrite B. unfold ec_of. repeat split; field; lra.
  Qed.
End Node.

(** *** A new map of another size but the same resolution *)
Definition sized (w h a : Z) : pmap := PMap (mkMI 1 (2 * PI / IZR a) 0 0) w h a.
Lemma sized_good w h a : (0 < a)%Z -> good_map (sized w h a).
Proof. intros H. split; [cbn; lra|]. split; [exact H|reflexivity]. Qed.
Definition config_ex (range : R) : config unit := Config unit range 1 10 2 0 3 0 1 1 (1/2) 1 (1/2) 1 1 1 (1/2) tt.
(** The search model after a map of size w0 x h0 and one of size w x h. *)
Lemma resized range w0 h0 w h a : (0 < a)%Z ->
  exists n, run (config_ex range) [EvMap (sized w0 h0 a); EvMap (sized w h a)] = Ok n /\ n_map n = sized w h a /\ n_model n = Some (model_of (config_ex range) (sized w0 h0 a)).
Proof.
  intros Ha. destruct (waiting_config (config_ex range) (config_ex range) _ eq_refl) as (n0 & E0 & W0).
  destruct (waiting_map _ (sized w0 h0 a) n0 (sized_good w0 h0 a Ha) W0) as (n1 & E1 & S1).
  exists (Node (config_ex range) (sized w h a) (n_cells n1) (ec_of (config_ex range)) (n_aspect n1) (n_model n1) (Some (dist_of (config_ex range) (sized w h a)))). split.
  - unfold run, start. rewrite E0. cbn [bind foldM step]. rewrite E1. cbn [bind]. destruct S1 as (S1 & S2 & S3 & S4 & S5 & S6 & S7 & S8). unfold cb_map. rewrite S1, S2.
    assert (R1 : Reqb (mi_res (pm_info (sized w0 h0 a))) (mi_res (pm_info (sized w h a))) = true) by (apply Reqb_iff; reflexivity).
    assert (R2 : Reqb (mi_ang (pm_info (sized w0 h0 a))) (mi_ang (pm_info (sized w h a))) = true) by (apply Reqb_iff; reflexivity). rewrite R1, R2. cbn [negb orb bind].
    unfold init_dist. cbn [n_cfg n_map n_cells n_ec n_aspect n_model n_dist]. rewrite S3. cbn [bind]. f_equal.
  - destruct S1 as (S1 & S2 & S3 & S4 & S5 & S6 & S7 & S8). split; [reflexivity|exact S8].
Qed.
(** Curves in the part of a larger map that a smaller one before it did not have are refused, even in the open. *)
Theorem C84_curves_in_a_larger_map_refuted : exists c (es : list (event unit)) M n m,
  map_events es good_map /\ last_map None es = Some M /\ run c es = Ok n /\ n_model n = Some m /\
  exists band C N cur next v, (forall tried, cache_ok tried C (pm_a M) (pm_a M) (lower band m)) /\
    let cm := mkCostmap (pm_w M) (pm_h M) (pm_a M) (fun _ => 0%Z) in
    cost3 KZ cm cm false 50 C (pm_a M) (m_range m) (lower band m) (upper band m) N cur next = Ok (Some (-1)%Z) /\
    cost3 KZ cm cm false 50 C (pm_a M) (m_range m) (lower band (model_of c M)) (upper band (model_of c M)) N cur next = Ok (Some v) /\ (0 <= v)%Z.
Proof.
  destruct (resized 6 12 12 24 24 4 ltac:(lia)) as (n & E & _ & Em).
  exists (config_ex 6), [EvMap (sized 12 12 4); EvMap (sized 24 24 4)], (sized 24 24 4), n, (model_of (config_ex 6) (sized 12 12 4)).
  split; [intros M [H|[H|[]]]; injection H as <-; apply sized_good; lia|]. split; [reflexivity|]. split; [exact E|]. split; [exact Em|].
  exists (fun _ _ _ _ => [4; 4; 0]%Z), ex_cache, ex_num, [12; 5; 0]%Z, [14; 7; 1]%Z, 5%Z.
  assert (Er : m_range (model_of (config_ex 6) (sized 12 12 4)) = 6%Z).
  { unfold model_of, cells_of. cbn [m_range c_range sized pm_info mi_res mi_ang config_ex g_search]. replace (6 / 1) with (IZR 6) by field. apply Ztrunc_IZR. }
  split; [exact ex_cache_ok|]. cbv zeta. rewrite Er. split; [|split; [|lia]]; vm_compute; reflexivity.
Qed.
(** A curve that starts and ends in the map and leaves it in between. *)
Definition bulge_cache : cache := fun yaw => if (yaw =? 2)%Z then
  [([2; 11; 5]%Z, build_page 16 1 [2; 11; 5]%Z [mkPosef 0 0 2; mkPosef (9#10) 1 2; mkPosef (21#10) 3 3; mkPosef (29#10) 7 4; mkPosef (26#10) 9 5])] else [].
Lemma bulge_cache_ok tried : cache_ok tried bulge_cache 16 16 [11; 11; 0]%Z.
Proof.
  intros yaw d pg m _ _ Ha Hm. unfold bulge_cache in Ha. destruct (Z.eqb_spec yaw 2) as [->|]; [|discriminate Ha]. cbn [assoc] in Ha. destruct (veq [2; 11; 5]%Z d) eqn:V; [|discriminate Ha].
  apply veq_true in V. subst d. assert (E : pg = build_page 16 1 [2; 11; 5]%Z [mkPosef 0 0 2; mkPosef (9#10) 1 2; mkPosef (21#10) 3 3; mkPosef (29#10) 7 4; mkPosef (26#10) 9 5]) by congruence. clear Ha. rewrite E in Hm. clear E. rename Hm into Hm'.
  vm_compute in Hm'. destruct Hm' as [<-|[<-|[<-|[<-|[<-|[]]]]]]; unfold vx, vy, vt; cbn [nth]; lia.
Qed.
(** In a map that is smaller than the one before it, curves are evaluated with cells outside the map. *)
Theorem C84_reads_inside_a_smaller_map_refuted : exists c (es : list (event unit)) M n m,
  map_events es good_map /\ last_map None es = Some M /\ run c es = Ok n /\ n_model n = Some m /\
  exists band C (N : @numeric (option Z)) cur next, (forall tried, cache_ok tried C (pm_a M) (pm_a M) (lower band m)) /\
    let cm := mkCostmap (pm_w M) (pm_h M) (pm_a M) (fun _ => 0%Z) in
    cm_inside cm cur = true /\ cm_inside cm next = true /\
    cost3 KZ cm cm false 50 C (pm_a M) (m_range m) (lower band m) (upper band m) N cur next = UB /\
    cost3 KZ cm cm false 50 C (pm_a M) (m_range m) (lower band (model_of c M)) (upper band (model_of c M)) N cur next = Ok (Some (-1)%Z).
Proof.
  destruct (resized 12 60 60 40 40 16 ltac:(lia)) as (n & E & _ & Em).
  exists (config_ex 12), [EvMap (sized 60 60 16); EvMap (sized 40 40 16)], (sized 40 40 16), n, (model_of (config_ex 12) (sized 60 60 16)).
  split; [intros M [H|[H|[]]]; injection H as <-; apply sized_good; lia|]. split; [reflexivity|]. split; [exact E|]. split; [exact Em|].
  exists (fun _ _ _ _ => [11; 11; 0]%Z), bulge_cache, ex_num, [37; 20; 2]%Z, [39; 31; 5]%Z.
  assert (Er : m_range (model_of (config_ex 12) (sized 60 60 16)) = 12%Z).
  { unfold model_of, cells_of. cbn [m_range c_range sized pm_info mi_res mi_ang config_ex g_search]. replace (12 / 1) with (IZR 12) by field. apply Ztrunc_IZR. }
  split; [exact bulge_cache_ok|]. cbv zeta. rewrite Er. split; [|split; [|split]]; vm_compute; reflexivity.
Qed.
(** Example: a change of the search range between two maps of different size makes the model anew. *)
Example ex_range_change : exists n m, run (config_ex 6) [EvMap (sized 12 12 4); EvMap (sized 24 24 4); EvConfig (config_ex 8)] = Ok n /\ n_model n = Some m /\ m_map m = sized 24 24 4 /\ m_range m = 8%Z.
Proof.
  destruct (resized 6 12 12 24 24 4 ltac:(lia)) as (n & E & Mn & Em).
  destruct (C84_the_last_configuration_and_map_count (config_ex 6) [EvMap (sized 12 12 4); EvMap (sized 24 24 4)]) as (n' & E' & B); [intros M [H|[H|[]]]; injection H as <-; apply sized_good; lia|].
  assert (n' = n) as -> by congruence. cbn [last_map last_config] in B. cbv zeta in B. destruct B as (Bc & _).
  assert (T : forall x, Ztrunc (IZR x / 1) = x) by (intros x; replace (IZR x / 1) with (IZR x) by field; apply Ztrunc_IZR).
  unfold run in E. destruct (start (config_ex 6)) as [n0|] eqn:E0; [|discriminate]. cbn [bind] in E. cbn [foldM step] in E.
  destruct (cb_map (sized 12 12 4) n0) as [n1|] eqn:E1; [|discriminate]. cbn [bind] in E. destruct (cb_map (sized 24 24 4) n1) as [n2|] eqn:E2; [|discriminate]. cbn [bind] in E. injection E as ->.
  unfold run. rewrite E0. cbn [bind foldM step]. rewrite E1. cbn [bind]. rewrite E2. cbn [bind]. unfold cb_parameter. cbn [n_map n_cells n_aspect n_model n_dist]. rewrite Mn.
  destruct (Reqb (mi_res (pm_info (sized 24 24 4))) 0) eqn:R1; [exfalso; apply Reqb_iff in R1; cbn in R1; lra|].
  destruct (Reqb (mi_ang (pm_info (sized 24 24 4))) 0) eqn:R2; [exfalso; apply Reqb_iff in R2; exact (good_angle _ (sized_good 24 24 4 ltac:(lia)) R2)|].
  cbn [negb andb]. unfold reset. cbn [n_cfg n_map n_cells n_ec n_model n_dist]. rewrite Bc, Em. cbn [bind]. unfold init_dist. cbn [n_cfg n_map n_cells n_ec n_aspect n_model n_dist bind].
  destruct (Z.eqb_spec (c_range (cells_of (config_ex 6) (sized 24 24 4))) (c_range (cells_of (config_ex 8) (sized 24 24 4)))) as [X|_].
  { exfalso. unfold cells_of in X. cbn [c_range sized pm_info mi_res config_ex g_search] in X. rewrite !T in X. discriminate X. }
  eexists. eexists. split; [reflexivity|]. split; [reflexivity|]. split; [reflexivity|]. unfold cells_of. cbn [m_range c_range sized pm_info mi_res config_ex g_search]. apply T.
Qed.

Print Assumptions C84_the_last_configuration_and_map_count.
Print Assumptions C84_like_a_new_planner.
Print Assumptions C84_curves_in_a_larger_map_refuted.
Print Assumptions C84_reads_inside_a_smaller_map_refuted.
Print Assumptions C84_ranges_in_cells.
Print Assumptions C84_costs_are_times.
