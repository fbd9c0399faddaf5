(** C86: along a planned path the robot keeps clear of the obstacles in the sensor layers of the costmap. *)
From Coq Require Import Reals Lra Lia Psatz ZifyBool.
From Flocq Require Import Core.
From Verif Require Import Common CyclicVec CyclicVecSpec CyclicVecProofs CostAlg CostZ CSpace CSpaceProps Inflate InflateProofs InflateProps Layers LayersProofs LayersRun LayersSync LayersProps Overlay OverlaySpec OverlayProps
  Polygon PolygonProofs PolygonProps ClearMap DistMap SearchAvail SearchAvailProps MakePlanSrvProps DummyRobotProps
  GridMetric GridMetricProps Path2D Path2DProps PathGeom PathGeomProps StartPredict StartPredictProps StartPoses StartPosesProps
  Hysteresis HysteresisProps Primitives PrimitivesProps GridMapSpec AStar AStarSpec AStarProofs AStarSearch AStarTerm AStarComplete AStarProps
  MotionCache Cost3D Motion3DSpec Motion3DProofs Cost3DProps MotionReset MotionResetProps Plan3D Plan3DMoves Plan3DProps ClearProps SensedMap.
Local Open Scope R_scope.

(** *** Specification *)
(** An update message of the costmap node, as the planner receives it. *)
Definition update_message (stamp : Z) (u : Layers.update) : umsg :=
  UMsg stamp (Layers.u_x u) (Layers.u_y u) (Layers.u_yaw u) (Layers.u_w u) (Layers.u_h u) (Layers.u_a u) (Layers.u_data u).
Section Spec.
  Variables (M : pmap) (c : params) (fp : list vec2) (k : fcfg) (m : omsg).
  (** The sensor message [m] reports an obstacle in cell (x, y) of the map. *)
  Definition sensed (x y : Z) : Prop := (0 <= x < pm_w M)%Z /\ (0 <= y < pm_h M)%Z /\
    exists ix iy, in_msg (o_grid m) ix iy /\ at_map (o_grid m) ix iy = (x, y) /\ msg_value (o_grid m) ix iy = 100%Z.
  (** The pose lies in the area of the message, and the message does not say "unknown" there (unless unknown is drawn over). *)
  Definition surveyed (q : cell3) : Prop := in_rect m q /\ pose_known k (o_grid m) q /\
    (gsame (o_grid m) = true -> in_msg (o_grid m) (fst (fst q) - gox (o_grid m)) (snd (fst q) - goy (o_grid m))).
  (** No obstacle of the message is inside the outline, or closer to it than the expansion. *)
  Definition clear_of_sensed (q : cell3) : Prop := forall x y, sensed x y ->
    Polygon.inside (outline_at M fp q) (centre M x y) = Ok false /\ forall p, on_outline (outline_at M fp q) p -> expand c <= vdist (centre M x y) p.
  (** The costs of the planner come from a costmap node: [m] is the latest message of the layer that draws with [k], the node has just published an update for a message of
      that layer or one below ([low] are the layers below the one that got the message, [mid] those in between), the layers above do not take obstacles away,
      and the planner has received this update after any history of maps and updates, the latest map having the node's size. *)
  Definition costs_with_sensors (unknown : Z) (cm : cell3 -> Z) : Prop :=
    exists root low mid above b es m0 n ps n' upd stamp pes mm cur kept o,
      let ks := low ++ mid ++ Foot k :: above ++ [UpdateOut] in
      let pes' := pes ++ [EUpdate (update_message stamp upd)] in
      good_conf root (pm_a M) ks /\ Forall (fun k => output k = false) mid /\ Forall raises above /\
      Forall (LayersRun.good_event ks) (es ++ [EvOverlay (length low) m0]) /\ last_base es = Some b /\ b_w b = pm_w M /\ b_h b = pm_h M /\
      latest (length low + length mid) (es ++ [EvOverlay (length low) m0]) = Some m /\ o_frame m = true /\
      Layers.run (new_node root (pm_a M) ks) es = Ok (n, ps) /\ Layers.step n (EvOverlay (length low) m0) = Ok (n', [PubUpdate upd]) /\
      Forall good_event pes' /\ (forall m u, In (EMap m) pes' -> In (EUpdate u) pes' -> OverlaySpec.fits m u = true -> fits_yaw m u) /\
      track pes = Some (mm, cur, kept) /\ m_w mm = pm_w M /\ m_h mm = pm_h M /\ m_a mm = pm_a M /\
      orun unknown false pes' = Ok (Some o) /\ (forall q, inside_map M q -> cm q = o_cm o q).
End Spec.

(** *** Proofs *)
Lemma update_cost_is u stamp (q : cell3) : in_update u q -> update_cost (update_message stamp u) q = Some (upd_cell u (fst (fst q)) (snd (fst q)) (snd q)).
Proof.
  destruct q as [[x y] t]. cbn [in_update fst snd]. intros (A & B & C). unfold update_cost, update_message, upd_cell. cbn [fst snd u_x u_y u_yaw u_w u_h u_a u_data].
  replace (_ && _)%bool with true by lia. reflexivity.
Qed.
Lemma track_fitting pes mm cur kept u : track pes = Some (mm, cur, kept) -> OverlaySpec.fits mm u = true -> track (pes ++ [EUpdate u]) = Some (mm, Some u, None).
Proof. intros T F. unfold track in *. rewrite fold_left_app, T. cbn [fold_left track_step]. rewrite F. reflexivity. Qed.

Section Clear.
  Variables (M : pmap) (c : params) (pts fp : list vec2) (k : fcfg) (m : omsg) (unknown : Z) (cm : cell3 -> Z).
  Hypotheses (Hc : good_params c) (Hf : polygon_of pts = Some fp) (Hk : template_of c fp k) (Hfo : gsame (o_grid m) = true -> falls_off k).
  Hypotheses (Hl : lin_res c = mi_res (pm_info M)) (Hg : ang_res c = mi_ang (pm_info M)) (HD : costs_with_sensors M k m unknown cm).

  (** A pose the planner takes for free keeps clear of every obstacle of the latest message of the layer. *)
  Theorem C86_free_poses_keep_clear_of_sensed_obstacles q : inside_map M q -> (cm q < 100)%Z -> surveyed k m q -> clear_of_sensed M c fp m q.
  Proof.
    intros Iq L Sv x y (Hx & Hy & ix & iy & Im & Am & Vm).
    destruct HD as (root & low & mid & above & b & es & m0 & n & ps & n' & upd & stamp & pes & mm & cur & kept & o & Gc & Hmid & Hab & Ge & Lb & Bw & Bh & La & Fr & Er & Es & Gp & Yw & T & Mw & Mh & Ma & Eo & Ecm).
    destruct (C86_update_messages_show_the_layer root (pm_a M) _ low mid k above es m0 m Gc eq_refl Hmid Hab Ge ltac:(rewrite Lb; discriminate) La Fr)
      as (n1 & ps1 & n1' & upd1 & parent & d & E1 & E2 & _ & Wp & Dp & Mo & Ed & U1 & U2).
    rewrite Er in E1. injection E1 as <- <-. rewrite Es in E2. injection E2 as <- <-.
    set (base := s_base (n_stack n)) in *.
    assert (Db : cw base = pm_w M /\ ch base = pm_h M /\ ca base = pm_a M).
    { pose proof Gc as [G1 G2 G3 G4]. apply Forall_app in Ge. destruct (run_ok root (pm_a M) _ G1 G2 G3 G4 es (proj1 Ge)) as (n2 & ps2 & E2 & S2). rewrite Er in E2. injection E2 as <- <-.
      unfold state_after in S2. rewrite Lb in S2. destruct S2 as (_ & _ & R). pose proof (rd_dims _ _ _ _ _ _ R) as (D1 & D2 & D3). fold base in D1, D2, D3. rewrite D1, D2, D3. auto. }
    destruct Db as (Db1 & Db2 & Db3). destruct Sv as (Sv1 & Sv2 & Sv3).
    assert (Iqb : CSpace.in_map base q). { destruct q as [[qx qy] qa]. destruct Iq as (Q1 & Q2 & Q3). cbn [fst snd] in *. cbn. rewrite Db1, Db2, Db3. auto. }
    destruct (U2 q Iqb Sv1) as [Iu Le].
    assert (Ft : OverlaySpec.fits mm (update_message stamp upd) = true).
    { destruct q as [[qx qy] qa]. cbn [in_update] in Iu. destruct Iu as (u1 & u2 & u3).
      pose proof (U1 (Layers.u_x upd + Layers.u_w upd - 1, Layers.u_y upd + Layers.u_h upd - 1, Layers.u_yaw upd + Layers.u_a upd - 1)%Z) as F1.
      pose proof (U1 (Layers.u_x upd, Layers.u_y upd, Layers.u_yaw upd)) as F2. cbn in F1, F2. rewrite Db1, Db2, Db3 in F1, F2.
      unfold OverlaySpec.fits, update_message. cbn [u_x u_y u_w u_h u_a]. rewrite Mw, Mh, Ma. lia. }
    pose proof (track_fitting pes mm cur kept _ T Ft) as T2.
    destruct (C13_costmap_is_static_plus_latest_update unknown false _ Gp Yw) as (s & Eo' & Sh). rewrite T2 in Sh. destruct Sh as (o' & -> & W & H & A & _ & Cm & _).
    rewrite Eo in Eo'. assert (o' = o) as -> by congruence.
    assert (Cq : (upd_cell upd (fst (fst q)) (snd (fst q)) (snd q) <= cm q)%Z).
    { rewrite (Ecm q Iq). destruct q as [[qx qy] qa]. destruct Iq as (Q1 & Q2 & Q3). cbn [fst snd] in *. rewrite Cm by (unfold in3, in2; rewrite W, H, A, Mw, Mh, Ma; cbn [fst snd]; lia).
      unfold cost_in_force. rewrite (update_cost_is upd stamp _ Iu). cbn [fst snd]. unfold laid_over. lia. }
    apply clear_absolute; [exact Hl|exact Hg|]. destruct Hk as [Hr Ht]. destruct Mo as (Gg & _).
    assert (R0 : (0 <= f_r k)%Z) by (rewrite Hr; apply range_nonneg; exact Hc).
    destruct q as [[qx qy] qa]. cbn [fst snd] in *. unfold keeps_clear.
    destruct (Z_le_gt_dec (Z.abs (qx - x)) (f_r k)) as [Lx|Gx]; [destruct (Z_le_gt_dec (Z.abs (qy - y)) (f_r k)) as [Ly|Gy]|].
    - apply (low_template c pts fp _ _ _ (f_tmpl k (qx - x) (qy - y) qa) Hf (Ht _ _ _)).
      destruct (Z.leb_spec 100 (f_tmpl k (qx - x) (qy - y) qa)) as [N|N]; [exfalso|exact N].
      assert (Tc : InflateProps.touches k (o_grid m) parent ix iy (qx, qy, qa) (f_tmpl k (qx - x) (qy - y) qa)).
      { unfold InflateProps.touches. rewrite Am, Vm. cbn [fst snd]. rewrite Z.quot_mul by lia. destruct Dp as (d1 & d2 & d3). unfold InflateProps.inside. cbn [fst snd]. rewrite <- d1, <- d2, Db1, Db2.
        repeat split; try apply Im; try lia; reflexivity. }
      assert (Iqp : CSpace.in_map parent (qx, qy, qa)) by (apply (same_dims_in_map base parent _ Dp); exact Iqb).
      assert (Cov : (f_tmpl k (qx - x) (qy - y) qa <= peek d (qx, qy, qa))%Z).
      { destruct (gsame (o_grid m)) eqn:Gs.
        - exact (C23_inflation_covers_footprint_same_resolution k (o_grid m) parent d ix iy qx qy qa _ Wp Gg R0 Gs (Hfo eq_refl) Ed Iqp Sv2 (Sv3 eq_refl) Tc).
        - exact (C23_inflation_covers_footprint_other_resolution k (o_grid m) parent d ix iy (qx, qy, qa) _ Wp Gg R0 Gs Ed Iqp Sv2 Tc). }
      specialize (Le ltac:(etransitivity; [|exact Cov]; lia)). pose proof (Z.le_trans _ _ _ Cov Le). pose proof (Z.le_trans _ _ _ H0 Cq). lia.
    - destruct (C58_template_range_suffices c pts fp (qx - x) (qy - y) qa Hc Hf ltac:(right; rewrite <- Hr; lia)) as [I O]. split; [exact I|].
      intros p Hp. specialize (O p Hp). destruct Hc as (_ & S0 & _). lra.
    - destruct (C58_template_range_suffices c pts fp (qx - x) (qy - y) qa Hc Hf ltac:(left; rewrite <- Hr; lia)) as [I O]. split; [exact I|].
      intros p Hp. specialize (O p Hp). destruct Hc as (_ & S0 & _). lra.
  Qed.

  Variables (S : scfg) (G : ccfg) (P : prim_cfg) (computed : Z -> vec -> list posef) (gres ires : R) (page_dist : Z -> vec -> R)
    (cm_hyst : cell3 -> Z) (hyst : bool) (est : Z -> Z -> option R) (local_range : Z) (C : pcfg) (racc tol_range tol_angle : Z).
  Hypothesis OK : planner_ok S G P M computed gres page_dist cm cm_hyst est.
  Hypothesis Hacc : (racc <= 100)%Z.
  Hypothesis Hran : (0 <= tol_range)%Z.
  Hypothesis Ht : (2 * tol_a S + 1 <> pm_a M)%Z.
  (** Every pose a planned motion passes on the grid, and every cell a published pose lies in, keeps the outline clear of the obstacles of the latest message, in its area. *)
  Theorem C86_planned_paths_keep_clear_of_sensed_obstacles robot goal previous escaping continuous find_best fuel O ntask limit found cells path : fair_sched O ->
    makePlan S G P M computed gres ires page_dist cm cm_hyst hyst est local_range C racc tol_range tol_angle escaping continuous find_best fuel O ntask limit robot goal previous
      = Ok (Some (Planned found cells path)) ->
    exists kept new, path = kept ++ new /\ (~ continues S previous -> kept = []) /\ passes M cells new /\
      (forall l1 a b l2 p, cells = l1 ++ a :: b :: l2 -> swept (plan_cache P computed gres ires) (pr_angle P) (map3 M cm) a b p -> surveyed k m (vec_cell p) -> clear_of_sensed M c fp m (vec_cell p)) /\
      (~ continues S previous \/ (2 <= length cells)%nat -> forall q, In q new ->
         exists q0, inside_map M q0 /\ Plan3DProps.touches M q q0 /\ (surveyed k m q0 -> clear_of_sensed M c fp m q0)).
  Proof.
    intros HO E.
    destruct (C81_what_the_planner_answers S G P M computed gres ires page_dist cm cm_hyst hyst est local_range C racc tol_range tol_angle OK Hacc Hran Ht robot goal previous escaping continuous find_best fuel O ntask limit _ HO E)
      as (s & e & Ps & Pe & _ & _ & ss & est0 & kept & new & _ & _ & _ & Ep & _ & Hkept & _ & HLk & _ & _ & Hp & _ & Hq & _).
    exists kept, new. split; [exact Ep|]. split; [exact Hkept|]. split; [exact Hp|]. split.
    - intros l1 a b l2 p Ec Hsw Hsv. rewrite Ec in HLk. apply linked_pair in HLk as (mm & _ & _ & _ & _ & _ & Hfr & _). specialize (Hfr p Hsw).
      destruct Hfr as (F1 & F2 & F3 & F4). cbn [map3 cm_w cm_h cm_a cm_at] in *. apply C86_free_poses_keep_clear_of_sensed_obstacles; [|lia|exact Hsv]. unfold inside_map, vec_cell. cbn [fst snd]. tauto.
    - intros Hcond q Hin. destruct (Hq ltac:(tauto) q Hin) as (q0 & I0 & L0 & T0). exists q0. split; [exact I0|]. split; [exact T0|]. intros Hsv. apply C86_free_poses_keep_clear_of_sensed_obstacles; assumption.
  Qed.
End Clear.

(** *** Example: the walls of [ex_clear] are not on the map but seen by a sensor. *)
Definition free_base : bmsg := Bmsg 4 4 (repeat 0%Z 16) 0.
Definition wall_message : omsg := Omsg (Grid 4 4 corridor 0 0 (fun i => i) true 1) 4 4 0 true.
Definition sensor_layers : list kind := [StaticOut; Foot robot_template; UpdateOut].
Lemma sensor_layers_good : good_conf robot_template 4 sensor_layers.
Proof.
  split; [cbn; lia|lia| |].
  - repeat (constructor; [cbn; first [lia|exact I]|]). constructor.
  - intros [|? [|? [|? [|]]]] post E; try discriminate E. injection E as _ _ <-. reflexivity.
Qed.
(** What the planner receives when it subscribes to the node. *)
Definition received (p : pub) : oevent := match p with PubMap m => EMap (message_of 0 m) | PubUpdate u => EUpdate (update_message 0 u) end.
Definition published (ks : list kind) (a : Z) (es : list event) : list oevent :=
  match Layers.run (new_node robot_template a ks) es with Ok (_, ps) => map received ps | UB => [] end.
Lemma wall_message_ok : msg_ok wall_message.
Proof. split; [|cbn; lia]. split; [cbn; lia|]. split; [reflexivity|]. reflexivity. Qed.
Definition node0 : node := match Layers.run (new_node robot_template 4 sensor_layers) [EvBase free_base] with Ok (n, _) => n | UB => new_node robot_template 4 sensor_layers end.
Definition node1 : node := match Layers.step node0 (EvOverlay 1 wall_message) with Ok (n, _) => n | UB => node0 end.
Definition wall_update : Layers.update := match Layers.step node0 (EvOverlay 1 wall_message) with Ok (_, [PubUpdate u]) => u | _ => Layers.Update 0 0 0 0 0 0 [] end.
Definition free_map : cmap := s_base (n_stack node0).
Example ex_costs_with_sensors : costs_with_sensors map_ex robot_template wall_message 100 walls3.
Proof.
  set (pes := [EMap (message_of 0 free_map)] ++ [EUpdate (update_message 0 wall_update)]).
  destruct (orun 100 false pes) as [[o|]|] eqn:Eo; [|exfalso; vm_compute in Eo; discriminate Eo|exfalso; vm_compute in Eo; discriminate Eo].
  exists robot_template, [StaticOut], [], [], free_base, [EvBase free_base], wall_message, node0, [PubMap free_map], node1, wall_update, 0%Z, [EMap (message_of 0 free_map)], (message_of 0 free_map), None, None, o.
  cbv zeta. split; [exact sensor_layers_good|]. split; [constructor|]. split; [constructor|].
  split. { constructor; [vm_compute; repeat split; discriminate|]. constructor; [|constructor]. split; [exists robot_template; reflexivity|exact wall_message_ok]. }
  split; [reflexivity|]. split; [reflexivity|]. split; [reflexivity|]. split; [reflexivity|]. split; [reflexivity|].
  split; [vm_compute; reflexivity|]. split; [vm_compute; reflexivity|].
  split. { repeat constructor; vm_compute; try reflexivity; try discriminate. }
  split. { intros m u Hm Hu _. destruct Hm as [Hm|[Hm|[]]]; [|discriminate Hm]. destruct Hu as [Hu|[Hu|[]]]; [discriminate Hu|]. injection Hm as <-. injection Hu as <-. vm_compute. discriminate. }
  split; [reflexivity|]. split; [reflexivity|]. split; [reflexivity|]. split; [reflexivity|]. split; [exact Eo|].
  intros q Iq. apply all_cells_in in Iq.
  assert (A : forallb (fun q => match orun 100 false pes with Ok (Some o) => (walls3 q =? o_cm o q)%Z | _ => false end) all_cells = true) by (vm_compute; reflexivity).
  rewrite Eo in A. rewrite forallb_forall in A. apply Z.eqb_eq, A, Iq.
Qed.
(** Every cell of the map is surveyed, plans are found, and every published pose lies in a cell that keeps clear of the walls. *)
Example ex_surveyed q : inside_map map_ex q -> surveyed robot_template wall_message q.
Proof.
  destruct q as [[x y] t]. intros (X & Y & T). cbn in X, Y, T. split; [cbn; lia|]. split; [right|intros _; unfold in_msg; cbn; lia].
  intros (ix & iy & (Ix & Iy) & _ & V). cbn in Ix, Iy.
  assert (A : forallb (fun v => 0 <=? v)%Z corridor = true) by reflexivity. rewrite forallb_forall in A. unfold msg_value in V. cbn [wall_message o_grid gdata gw] in V.
  destruct (Nat.ltb_spec (Z.to_nat (iy * 4 + ix)) (length corridor)) as [Lt|Ge]; [pose proof (A _ (nth_In _ 0%Z Lt)); lia|].
  rewrite nth_overflow in V by exact Ge. lia.
Qed.
Example ex_sensed : sensed map_ex wall_message 0 1 /\ sensed map_ex wall_message 3 2 /\ ~ sensed map_ex wall_message 1 1.
Proof.
  split; [|split].
  - split; [cbn; lia|]. split; [cbn; lia|]. exists 0%Z, 1%Z. split; [split; cbn; lia|]. split; reflexivity.
  - split; [cbn; lia|]. split; [cbn; lia|]. exists 3%Z, 2%Z. split; [split; cbn; lia|]. split; reflexivity.
  - intros (_ & _ & ix & iy & _ & E & V). unfold at_map in E. cbn [wall_message o_grid gsc gox goy] in E. assert (ix = 1 /\ iy = 1)%Z as [-> ->] by (split; congruence || (injection E; lia)). vm_compute in V. discriminate V.
Qed.
Example ex_clear_of_sensed : exists fuel O, fair_sched O /\ exists cells path,
  makePlan (scfg3 false false) gcfg3 prim3 map_ex comp3 (1/10) (1/2) (fun _ _ => 0) walls3 (fun _ => 0%Z) false (fun _ _ => Some 0) 5 cfg_ex 50 0 0
    false false false fuel O 1 0 robot3 goal3 [] = Ok (Some (Planned true cells path)) /\ path <> [] /\
  forall q, In q path -> exists q0, inside_map map_ex q0 /\ Plan3DProps.touches map_ex q q0 /\ clear_of_sensed map_ex robot_params (close robot_shape) wall_message q0.
Proof.
  destruct ex_clear as (fuel & O & HO & cells & path & E & Np & _). exists fuel, O. split; [exact HO|]. exists cells, path. split; [exact E|]. split; [exact Np|].
  assert (NC : ~ continues (scfg3 false false) []) by (intros [H _]; discriminate H).
  destruct (C86_planned_paths_keep_clear_of_sensed_obstacles map_ex robot_params robot_shape _ robot_template wall_message 100 walls3 ex_good_params (proj1 ex_shape) ex_template
    (fun _ => C83_round_templates_fall_off _ _ _ _ ex_good_params (proj2 ex_shape) (proj1 ex_shape) ex_template) eq_refl eq_refl ex_costs_with_sensors
    _ _ _ _ _ (1/2) _ _ false _ 5 cfg_ex 50 0 0 (planner3_ok false false walls3 (fun _ _ => Some 0) walls3_nonneg ltac:(intros ? ? ? H; injection H as <-; lra))
    ltac:(lia) ltac:(lia) ltac:(cbn; lia) _ _ _ _ _ _ _ _ _ _ _ _ _ HO E) as (kept & new & Ep & Hk & _ & _ & Hn).
  rewrite (Hk NC) in Ep. cbn [app] in Ep. subst path. intros q Hq. destruct (Hn (or_introl NC) q Hq) as (q0 & I0 & T0 & C0). exists q0. split; [exact I0|]. split; [exact T0|]. apply C0, ex_surveyed, I0.
Qed.

(** *** Finding: with two sensor layers, obstacles of the lower one get lost on the way to the planner.
    The node's own map still shows them, but the update message only covers the areas of the last two messages, and the planner only keeps the last update message. *)
Definition two_layers : list kind := [StaticOut; Foot robot_template; Foot robot_template; UpdateOut].
Definition one_cell (x y v : Z) : omsg := Omsg (Grid 1 1 [v] x y (fun i => i) true 1) 1 1 0 true.
Definition two_layer_history : list event := [EvBase free_base; EvOverlay 1 (one_cell 0 0 100); EvOverlay 2 (one_cell 3 3 0); EvOverlay 2 (one_cell 3 3 0)].
Theorem C86_obstacles_of_lower_layers_stay_in_the_plan_refuted :
  good_conf robot_template 4 two_layers /\ Forall (LayersRun.good_event two_layers) two_layer_history /\
  exists n ps o, Layers.run (new_node robot_template 4 two_layers) two_layer_history = Ok (n, ps) /\
    latest 1 two_layer_history = Some (one_cell 0 0 100) /\
    (exists l, nth_error (s_layers (n_stack n)) 2 = Some l /\ peek (l_over l) (0, 0, 0)%Z = 100%Z) /\
    orun 100 false (map received ps) = Ok (Some o) /\ o_cm o (0, 0, 0)%Z = 0%Z.
Proof.
  split; [|split].
  - split; [cbn; lia|lia| |].
    + repeat (constructor; [cbn; first [lia|exact I]|]). constructor.
    + intros [|? [|? [|? [|? [|]]]]] post E; try discriminate E. injection E as _ _ _ <-. reflexivity.
  - assert (Mo : forall x y v, msg_ok (one_cell x y v)) by (intros; split; [split; [cbn; lia|]; split; reflexivity|cbn; lia]).
    constructor; [vm_compute; repeat split; discriminate|]. repeat (constructor; [split; [exists robot_template; reflexivity|apply Mo]|]). constructor.
  - set (x := Layers.run (new_node robot_template 4 two_layers) two_layer_history).
    assert (A : match x with Ok (n, ps) => match nth_error (s_layers (n_stack n)) 2 with Some l => (peek (l_over l) (0, 0, 0) =? 100)%Z | None => false end &&
       match orun 100 false (map received ps) with Ok (Some o) => (o_cm o (0, 0, 0) =? 0)%Z | _ => false end | UB => false end = true) by (vm_compute; reflexivity).
    destruct x as [[n ps]|]; [|discriminate A]. apply andb_true_iff in A as [A B]. destruct (nth_error (s_layers (n_stack n)) 2) as [l|] eqn:El; [|discriminate A].
    destruct (orun 100 false (map received ps)) as [[o|]|] eqn:Eo; [|discriminate B..]. exists n, ps, o. split; [reflexivity|]. split; [reflexivity|]. split; [exists l; split; [exact El|apply Z.eqb_eq; exact A]|].
    split; [exact Eo|apply Z.eqb_eq; exact B].
Qed.

Print Assumptions C86_update_messages_show_the_layer.
Print Assumptions C86_free_poses_keep_clear_of_sensed_obstacles.
Print Assumptions C86_planned_paths_keep_clear_of_sensed_obstacles.
Print Assumptions C86_obstacles_of_lower_layers_stay_in_the_plan_refuted.
