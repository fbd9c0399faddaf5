(** C83: along a planned path the robot keeps clear of the obstacles of the map. *)
From Coq Require Import Reals Lra Lia Psatz ZifyBool.
From Flocq Require Import Core.
From Verif Require Import Common CyclicVec CyclicVecSpec CyclicVecProofs CostAlg CostZ CSpace Inflate InflateProofs InflateProps Layers Overlay OverlaySpec OverlayProps
  Polygon PolygonProofs PolygonProps ClearMap DistMap SearchAvail SearchAvailProps MakePlanSrvProps DummyRobotProps
  GridMetric GridMetricProps Path2D Path2DProps PathGeom PathGeomProps StartPredict StartPredictProps StartPoses StartPosesProps
  Hysteresis HysteresisProps Primitives PrimitivesProps GridMapSpec AStar AStarSpec AStarProofs AStarSearch AStarTerm AStarComplete AStarProps
  MotionCache Cost3D Motion3DSpec Motion3DProofs Cost3DProps MotionReset MotionResetProps Plan3D Plan3DMoves Plan3DProps.
Local Open Scope R_scope.

(** *** Specification *)
Section Spec.
  Variables (M : pmap) (c : params) (fp : list vec2) (data : list Z).
  (** The centre of a cell, and the outline of the robot at a pose of the grid. *)
  Definition centre (x y : Z) : vec2 := V2 (mi_ox (pm_info M) + (IZR x + 1/2) * mi_res (pm_info M)) (mi_oy (pm_info M) + (IZR y + 1/2) * mi_res (pm_info M)).
  Definition outline_at (q : cell3) : list vec2 :=
    Polygon.move (Polygon.vx (centre (fst (fst q)) (snd (fst q)))) (Polygon.vy (centre (fst (fst q)) (snd (fst q)))) (IZR (snd q) * mi_ang (pm_info M)) fp.
  (** An occupied cell of the map of the surroundings. *)
  Definition occupied (x y : Z) : Prop := (0 <= x < pm_w M)%Z /\ (0 <= y < pm_h M)%Z /\ at_base (pm_w M) data x y = 100%Z.
  (** No obstacle is inside the outline, or closer to it than the expansion. *)
  Definition clear_of_obstacles (q : cell3) : Prop := forall x y, occupied x y ->
    Polygon.inside (outline_at q) (centre x y) = Ok false /\ forall p, on_outline (outline_at q) p -> expand c <= vdist (centre x y) p.
  (** The planner's costmap [cm] comes from this map by way of the costmap node ([base]) and any history [es] of maps and updates, the latest map being this one. *)
  Definition costs_of (k : fcfg) (unknown : Z) (cm : cell3 -> Z) : Prop :=
    exists base es stamp cur kept o,
      base_map k (pm_w M) (pm_h M) (pm_a M) data = Ok base /\ Forall good_event es /\
      (forall m u, In (EMap m) es -> In (EUpdate u) es -> OverlaySpec.fits m u = true -> fits_yaw m u) /\
      track es = Some (message_of stamp base, cur, kept) /\ orun unknown false es = Ok (Some o) /\
      (forall q, inside_map M q -> cm q = o_cm o q).
  (** Cells whose occupancy is unknown are not driven through, or there are none. *)
  Definition unknown_avoided (unknown : Z) : Prop :=
      (100 <= i8 unknown \/ forall x y, 0 <= x < pm_w M -> 0 <= y < pm_h M -> 0 <= at_base (pm_w M) data x y)%Z.
End Spec.

(** *** Proofs *)
Lemma shift_shape X Y th dx dy fp : Polygon.move (X + dx) (Y + dy) th fp = map (PolygonProps.shift (V2 dx dy)) (Polygon.move X Y th fp).
Proof. unfold Polygon.move. rewrite map_map. apply map_ext. intros v. unfold Polygon.move1, PolygonProps.shift. cbn [Polygon.vx Polygon.vy]. f_equal; ring. Qed.
Lemma clear_absolute M c fp q x y : lin_res c = mi_res (pm_info M) -> ang_res c = mi_ang (pm_info M) ->
  keeps_clear c fp (fst (fst q)) (snd (fst q)) (snd q) x y ->
  Polygon.inside (outline_at M fp q) (centre M x y) = Ok false /\ forall p, on_outline (outline_at M fp q) p -> expand c <= vdist (centre M x y) p.
Proof.
  intros L A [I O]. destruct q as [[qx qy] qa]. cbn [fst snd] in *. set (d := centre M x y) in *.
  assert (E : outline_at M fp (qx, qy, qa) = map (PolygonProps.shift d) (placed c fp (qx - x) (qy - y) qa)).
  { unfold outline_at, placed. rewrite L, A. unfold d, centre. cbn [fst snd Polygon.vx Polygon.vy]. rewrite <- shift_shape. rewrite !minus_IZR. f_equal; field. }
  rewrite E. split.
  - rewrite <- I. rewrite <- (C32_translation _ d (V2 0 0)). f_equal. unfold PolygonProps.shift. cbn [Polygon.vx Polygon.vy]. destruct d. cbn [Polygon.vx Polygon.vy]. f_equal; ring.
  - intros p (e & He & (t & Ht & ->)). rewrite edges_map in He. apply in_map_iff in He as (e' & <- & He'). cbn [fst snd].
    set (p' := V2 (Polygon.vx (fst e') + t * (Polygon.vx (snd e') - Polygon.vx (fst e'))) (Polygon.vy (fst e') + t * (Polygon.vy (snd e') - Polygon.vy (fst e')))).
    eapply Rle_trans; [apply (O p'); exists e'; split; [exact He'|exists t; split; [exact Ht|reflexivity]]|]. right.
    unfold vdist, PolygonProps.shift, p'. cbn [Polygon.vx Polygon.vy]. f_equal. ring.
Qed.
Lemma linked_pair {A} (R : A -> A -> Prop) l1 a b l2 : linked R (l1 ++ a :: b :: l2) -> R a b.
Proof. induction l1 as [|x l1 IH]; [intros [H _]; exact H|]. intros H. apply IH. destruct l1; apply H. Qed.

Section Clear.
  Variables (S : scfg) (G : ccfg) (P : prim_cfg) (M : pmap) (computed : Z -> vec -> list posef) (gres ires : R) (page_dist : Z -> vec -> R)
    (cm cm_hyst : cell3 -> Z) (hyst : bool) (est : Z -> Z -> option R) (local_range : Z) (C : pcfg) (racc tol_range tol_angle : Z).
  Hypothesis OK : planner_ok S G P M computed gres page_dist cm cm_hyst est.
  Hypothesis Hacc : (racc <= 100)%Z.
  Hypothesis Hran : (0 <= tol_range)%Z.
  Hypothesis Ht : (2 * tol_a S + 1 <> pm_a M)%Z.
  Variables (c : params) (pts fp : list vec2) (k : fcfg) (data : list Z).
  Hypotheses (Hc : good_params c) (Hf : polygon_of pts = Some fp) (Hk : template_of c fp k) (Hfo : falls_off k).
  Hypotheses (Hl : lin_res c = mi_res (pm_info M)) (Hg : ang_res c = mi_ang (pm_info M)) (HL : Z.of_nat (length data) = (pm_w M * pm_h M)%Z).
  Variable unknown : Z.
  Hypotheses (HD : costs_of M data k unknown cm) (HU : unknown_avoided M data unknown).

  Lemma cell_clear q : inside_map M q -> (cm q < 100)%Z -> clear_of_obstacles M c fp data q.
  Proof.
    intros Iq L x y (Hx & Hy & V). destruct HD as (base & es & stamp & cur & kept & o & E1 & E2 & E3 & E4 & E5 & E6). pose proof HU as E7. rewrite (E6 q Iq) in L.
    pose proof (ok_a _ _ _ _ _ _ _ _ _ _ OK) as Ha. pose proof (a_pos S G P M computed gres page_dist cm cm_hyst est OK) as Pa.
    apply clear_absolute; [exact Hl|exact Hg|]. destruct q as [[qx qy] qa]. destruct Iq as (Q1 & Q2 & Q3). cbn [fst snd] in *.
    refine (free_pose_keeps_clear c pts fp k (pm_w M) (pm_h M) (pm_a M) data Hc Hf Hk Hfo _ _ _ HL unknown base es stamp cur kept o qx qy qa x y E1 E2 E3 E4 E5 Q1 Q2 Q3 L _ Hx Hy V); try lia.
    destruct E7 as [E7|E7]; [right; exact E7|left; apply E7; assumption].
  Qed.
  (** Every pose a planned motion passes on the grid, and every cell a published pose lies in, keeps the outline clear of all obstacles. *)
  Theorem C83_planned_paths_keep_clear robot goal previous escaping continuous find_best fuel O ntask limit found cells path : fair_sched O ->
    makePlan S G P M computed gres ires page_dist cm cm_hyst hyst est local_range C racc tol_range tol_angle escaping continuous find_best fuel O ntask limit robot goal previous
      = Ok (Some (Planned found cells path)) ->
    exists kept new, path = kept ++ new /\ (~ continues S previous -> kept = []) /\ passes M cells new /\
      (forall l1 a b l2 p, cells = l1 ++ a :: b :: l2 -> swept (plan_cache P computed gres ires) (pr_angle P) (map3 M cm) a b p -> clear_of_obstacles M c fp data (vec_cell p)) /\
      (~ continues S previous \/ (2 <= length cells)%nat -> forall q, In q new -> exists q0, inside_map M q0 /\ Plan3DProps.touches M q q0 /\ clear_of_obstacles M c fp data q0).
  Proof.
    intros HO E.
    destruct (C81_what_the_planner_answers S G P M computed gres ires page_dist cm cm_hyst hyst est local_range C racc tol_range tol_angle OK Hacc Hran Ht robot goal previous escaping continuous find_best fuel O ntask limit _ HO E)
      as (s & e & Ps & Pe & _ & _ & ss & est0 & kept & new & _ & _ & _ & Ep & _ & Hkept & _ & HLk & _ & _ & Hp & _ & Hq & _).
    exists kept, new. split; [exact Ep|]. split; [exact Hkept|]. split; [exact Hp|]. split.
    - intros l1 a b l2 p Ec Hsw. rewrite Ec in HLk. apply linked_pair in HLk as (m & _ & _ & _ & _ & _ & Hfr & _). specialize (Hfr p Hsw).
      destruct Hfr as (F1 & F2 & F3 & F4). cbn [map3 cm_w cm_h cm_a cm_at] in *. apply cell_clear; [|lia]. unfold inside_map, vec_cell. cbn [fst snd]. tauto.
    - intros Hcond q Hin. destruct (Hq ltac:(tauto) q Hin) as (q0 & I0 & L0 & T0). exists q0. split; [exact I0|]. split; [exact T0|]. apply cell_clear; assumption.
  Qed.
  (** A round robot: every published pose is at least the expansion minus one diagonal of a cell away from every point of an occupied cell. *)
  Theorem C83_round_robots_keep_their_distance robot goal previous escaping continuous find_best fuel O ntask limit found cells path : fair_sched O -> point_shaped pts ->
    makePlan S G P M computed gres ires page_dist cm cm_hyst hyst est local_range C racc tol_range tol_angle escaping continuous find_best fuel O ntask limit robot goal previous
      = Ok (Some (Planned found cells path)) ->
    ~ continues S previous ->
    forall q, In q path -> forall x y px py, occupied M data x y ->
      Rabs (px - Polygon.vx (centre M x y)) <= mi_res (pm_info M) / 2 -> Rabs (py - Polygon.vy (centre M x y)) <= mi_res (pm_info M) / 2 ->
      expand c - sqrt 2 * mi_res (pm_info M) <= sqrt ((p_x q - px) * (p_x q - px) + (p_y q - py) * (p_y q - py)).
  Proof.
    intros HO Hr E Nc q Hq x y px py Hxy Hpx Hpy.
    destruct (C83_planned_paths_keep_clear _ _ _ _ _ _ _ _ _ _ _ _ _ HO E) as (kept & new & Ep & Hkept & _ & _ & Hnew). rewrite (Hkept Nc) in Ep. cbn [app] in Ep. subst path.
    destruct (Hnew (or_introl Nc) q Hq) as (q0 & _ & (T1 & T2 & _) & Cl). destruct (Cl x y Hxy) as [_ O1].
    set (r := mi_res (pm_info M)) in *. pose proof (res_pos S G P M computed gres page_dist cm cm_hyst est OK) as R0. fold r in R0.
    set (c0 := centre M (fst (fst q0)) (snd (fst q0))). set (c1 := centre M x y) in *.
    assert (On : on_outline (outline_at M fp q0) c0).
    { destruct (round_placed c pts fp 0 0 (snd q0) Hr Hf) as (_ & Pl & (e0 & He0) & _).
      assert (Eo : outline_at M fp q0 = map (PolygonProps.shift c0) (placed c fp 0 0 (snd q0))).
      { unfold outline_at, placed. fold c0. rewrite Hg. rewrite <- (Rplus_0_l (Polygon.vx c0)) at 1. rewrite <- (Rplus_0_l (Polygon.vy c0)) at 1. rewrite shift_shape. destruct c0. cbn [Polygon.vx Polygon.vy]. rewrite Rmult_0_l. reflexivity. }
      rewrite Eo. exists (PolygonProps.shift c0 (fst e0), PolygonProps.shift c0 (snd e0)). split; [rewrite edges_map; apply (List.in_map (fun e => (PolygonProps.shift c0 (fst e), PolygonProps.shift c0 (snd e)))); exact He0|].
      rewrite (edges_same _ _ Pl e0 He0). cbn [fst snd]. exists 0. split; [lra|]. unfold PolygonProps.shift. cbn [Polygon.vx Polygon.vy]. rewrite !Rmult_0_l. destruct c0. cbn [Polygon.vx Polygon.vy]. f_equal; ring. }
    specialize (O1 c0 On).
    assert (Half : forall u v, Rabs u <= r / 2 -> Rabs v <= r / 2 -> sqrt (u * u + v * v) <= sqrt 2 / 2 * r).
    { intros u v Hu Hv. apply Rsqr_incr_0_var; [|apply Rmult_le_pos; [pose proof (sqrt_pos 2); lra|lra]]. rewrite Rsqr_sqrt by nra. unfold Rsqr.
      assert (S2 : sqrt 2 * sqrt 2 = 2) by (apply sqrt_sqrt; lra). replace (sqrt 2 / 2 * r * (sqrt 2 / 2 * r)) with (sqrt 2 * sqrt 2 * (r * r) / 4) by field. rewrite S2.
      apply Rabs_le_inv in Hu, Hv. nra. }
    pose proof (Half _ _ T1 T2) as H1. fold r in T1, T2. change (mi_ox (pm_info M) + (IZR (fst (fst q0)) + 1 / 2) * r) with (Polygon.vx c0) in H1. change (mi_oy (pm_info M) + (IZR (snd (fst q0)) + 1 / 2) * r) with (Polygon.vy c0) in H1.
    pose proof (Half _ _ Hpx Hpy) as H2.
    unfold vdist in O1. 
    pose proof (norm_triangle (Polygon.vx c1 - px) (Polygon.vy c1 - py) (px - Polygon.vx c0) (py - Polygon.vy c0)) as T3.
    pose proof (norm_triangle (px - p_x q) (py - p_y q) (p_x q - Polygon.vx c0) (p_y q - Polygon.vy c0)) as T4.
    replace (Polygon.vx c1 - px + (px - Polygon.vx c0)) with (Polygon.vx c1 - Polygon.vx c0) in T3 by ring. replace (Polygon.vy c1 - py + (py - Polygon.vy c0)) with (Polygon.vy c1 - Polygon.vy c0) in T3 by ring.
    replace (px - p_x q + (p_x q - Polygon.vx c0)) with (px - Polygon.vx c0) in T4 by ring. replace (py - p_y q + (p_y q - Polygon.vy c0)) with (py - Polygon.vy c0) in T4 by ring.
    replace ((px - p_x q) * (px - p_x q) + (py - p_y q) * (py - p_y q)) with ((p_x q - px) * (p_x q - px) + (p_y q - py) * (p_y q - py)) in T4 by ring.
    replace ((Polygon.vx c1 - px) * (Polygon.vx c1 - px) + (Polygon.vy c1 - py) * (Polygon.vy c1 - py)) with ((px - Polygon.vx c1) * (px - Polygon.vx c1) + (py - Polygon.vy c1) * (py - Polygon.vy c1)) in T3 by ring.
    lra.
  Qed.
End Clear.

(** *** Example: the corridor of [ex_way_is_found], drawn by a round robot of radius 1/2. *)
Definition robot_shape : list vec2 := [V2 0 0; V2 0 0; V2 0 0].
Definition robot_params : params := Params (1/2) 0 0 1 (PI/2).
Definition robot_template : fcfg := Fcfg (fun x y _ => if ((x =? 0) && (y =? 0))%Z then 100%Z else 0%Z) 1 true false.
Definition corridor : list Z := [100; 0; 0; 100; 100; 0; 0; 100; 100; 0; 0; 100; 100; 0; 0; 100]%Z.
Definition corridor_base : cmap := match base_map robot_template 4 4 4 corridor with Ok m => m | UB => Cmap 0 0 0 [] end.
Definition all_cells : list cell3 := flat_map (fun x => flat_map (fun y => map (fun t => ((x, y), t)) [0; 1; 2; 3]%Z) [0; 1; 2; 3]%Z) [0; 1; 2; 3]%Z.
Lemma all_cells_in q : inside_map map_ex q -> In q all_cells.
Proof.
  destruct q as [[x y] t]. intros (X & Y & T). cbn in X, Y, T.
  assert (Hx : x = 0%Z \/ x = 1%Z \/ x = 2%Z \/ x = 3%Z) by lia. assert (Hy : y = 0%Z \/ y = 1%Z \/ y = 2%Z \/ y = 3%Z) by lia. assert (Ht : t = 0%Z \/ t = 1%Z \/ t = 2%Z \/ t = 3%Z) by lia.
  destruct Hx as [->|[->|[->| ->]]], Hy as [->|[->|[->| ->]]], Ht as [->|[->|[->| ->]]]; cbv; tauto.
Qed.
Lemma FLT_MAX_big : 2 <= FLT_MAX.
Proof. unfold FLT_MAX. apply IZR_le. lia. Qed.
Example ex_good_params : good_params robot_params.
Proof. unfold good_params, robot_params. cbn [expand spread min_cost lin_res]. repeat split; try lra; try lia. pose proof FLT_MAX_big. lra. Qed.
Example ex_shape : polygon_of robot_shape = Some (close robot_shape) /\ point_shaped robot_shape.
Proof. split; [reflexivity|]. unfold point_shaped, robot_shape. repeat constructor. Qed.
Example ex_template : template_of robot_params (close robot_shape) robot_template.
Proof.
  destruct ex_shape as [F R]. split.
  - destruct (round_placed robot_params _ _ 0 0 0 R F) as (R0 & _). unfold range_max. rewrite R0. cbn [robot_template f_r robot_params expand spread lin_res].
    unfold ceil. replace (- ((0 + 1 / 2 + 0) / 1)) with (-(1/2)) by field. destruct (base_Int_part (-(1/2))) as [B1 B2]. set (i := Int_part _) in *. assert (i < 0)%Z by (apply lt_IZR; lra). assert (-2 < i)%Z by (apply lt_IZR; lra). lia.
  - intros x y a. rewrite (round_template _ _ _ x y a R F). f_equal. cbn [robot_template f_tmpl]. destruct ((x =? 0) && (y =? 0))%Z eqn:Z0; [reflexivity|].
    assert (N : (1 <= x * x + y * y)%Z). { apply andb_false_iff in Z0 as [Z0|Z0]; apply Z.eqb_neq in Z0; nia. }
    assert (D : 1 <= Rmin FLT_MAX (vdist (V2 0 0) (V2 (IZR x * lin_res robot_params) (IZR y * lin_res robot_params)))).
    { apply Rmin_glb; [pose proof FLT_MAX_big; lra|]. unfold vdist. cbn [Polygon.vx Polygon.vy robot_params lin_res]. apply Rle_trans with (sqrt 1); [rewrite sqrt_1; lra|]. apply sqrt_le_1_alt.
      apply IZR_le in N. rewrite plus_IZR, !mult_IZR in N. eapply Rle_trans; [exact N|right; ring]. }
    set (d := Rmin _ _) in *. clearbody d. unfold cost_at, robot_params. cbn [expand spread lin_res min_cost].
    repeat match goal with |- context [Rltb ?u ?v] => destruct (Rltb_spec u v) as [[-> ?]|[-> ?]] end; try reflexivity; exfalso; try lra; try (match goal with H : Rabs _ < _ |- _ => rewrite Rabs_left in H by lra; lra end).
Qed.
Example ex_costs_of : costs_of map_ex corridor robot_template 100 walls3.
Proof.
  destruct (orun 100 false [EMap (message_of 0 corridor_base)]) as [[o|]|] eqn:Eo; [|exfalso; vm_compute in Eo; discriminate Eo|exfalso; vm_compute in Eo; discriminate Eo].
  exists corridor_base, [EMap (message_of 0 corridor_base)], 0%Z, None, None, o.
  split; [vm_compute; reflexivity|]. split; [repeat constructor; vm_compute; try reflexivity; try discriminate|]. split; [intros m u _ [H|[]]; discriminate H|]. split; [reflexivity|]. split; [exact Eo|].
  intros q Iq. apply all_cells_in in Iq.
  assert (A : forallb (fun q => match orun 100 false [EMap (message_of 0 corridor_base)] with Ok (Some o) => (walls3 q =? o_cm o q)%Z | _ => false end) all_cells = true) by (vm_compute; reflexivity).
  rewrite Eo in A. rewrite forallb_forall in A. apply Z.eqb_eq, A, Iq.
Qed.
(** The conclusion is not empty: plans are found, and every published pose keeps its distance from the walls. *)
Example ex_clear : exists fuel O, fair_sched O /\ exists cells path,
  makePlan (scfg3 false false) gcfg3 prim3 map_ex comp3 (1/10) (1/2) (fun _ _ => 0) walls3 (fun _ => 0%Z) false (fun _ _ => Some 0) 5 cfg_ex 50 0 0
    false false false fuel O 1 0 robot3 goal3 [] = Ok (Some (Planned true cells path)) /\ path <> [] /\
  forall q, In q path -> exists q0, inside_map map_ex q0 /\ Plan3DProps.touches map_ex q q0 /\ clear_of_obstacles map_ex robot_params (close robot_shape) corridor q0.
Proof.
  destruct ex_way_is_found as [fuel0 Hf]. exists fuel0, fifo_oracle. split; [exact fifo_oracle_fair|].
  destruct (Hf false false false fuel0 fifo_oracle 1%nat (le_n _) fifo_oracle_fair (le_n _) (fun _ => eq_refl)) as (cells & path & E). exists cells, path. split; [exact E|].
  assert (NC : ~ continues (scfg3 false false) []) by (intros [H _]; discriminate H).
  destruct (C83_planned_paths_keep_clear _ _ _ _ _ _ (1/2) _ _ _ false _ 5 cfg_ex 50 0 0 (planner3_ok false false walls3 (fun _ _ => Some 0) walls3_nonneg ltac:(intros ? ? ? H; injection H as <-; lra))
    ltac:(lia) ltac:(lia) ltac:(cbn; lia) robot_params robot_shape _ robot_template corridor ex_good_params (proj1 ex_shape) ex_template
    (C83_round_templates_fall_off _ _ _ _ ex_good_params (proj2 ex_shape) (proj1 ex_shape) ex_template) eq_refl eq_refl eq_refl 100%Z ex_costs_of ltac:(left; vm_compute; discriminate)
    _ _ _ _ _ _ _ _ _ _ _ _ _ fifo_oracle_fair E) as (kept & new & Ep & Hk & _ & _ & Hn).
  rewrite (Hk NC) in Ep. cbn [app] in Ep. subst path. split; [|apply Hn; left; exact NC].
  destruct (C81_what_the_planner_answers _ _ _ _ _ _ (1/2) _ _ _ false _ 5 cfg_ex 50 0 0 (planner3_ok false false walls3 (fun _ _ => Some 0) walls3_nonneg ltac:(intros ? ? ? H; injection H as <-; lra))
    ltac:(lia) ltac:(lia) ltac:(cbn; lia) _ _ _ _ _ _ _ _ _ _ _ fifo_oracle_fair E) as (s & e & _ & _ & _ & _ & ss & est0 & kept' & new' & _ & _ & _ & Ep' & _ & _ & _ & _ & _ & _ & _ & (n' & q & -> & _) & _).
  rewrite Ep'. intros H. apply app_eq_nil in H as [_ H]. apply app_eq_nil in H as [_ H]. discriminate H.
Qed.

(** *** Without [unknown_avoided] it fails: the cost of an obstacle is not drawn on cells of unknown occupancy, so a robot may be sent through an unknown cell beside an
    obstacle that its outline covers. *)
Definition wide_params : params := Params (3/2) 0 0 1 (PI/2).
Definition wide_template : fcfg := Fcfg (fun x y _ => if (x * x + y * y <=? 2)%Z then 100%Z else 0%Z) 2 true false.
Definition pair_map : pmap := PMap (mkMI 1 (PI/2) 0 0) 2 1 1.
Definition pair_base : cmap := match base_map wide_template 2 1 1 [100; -1]%Z with Ok m => m | UB => Cmap 0 0 0 [] end.
Lemma wide_template_of : template_of wide_params (close robot_shape) wide_template.
Proof.
  destruct ex_shape as [F R]. split.
  - destruct (round_placed wide_params _ _ 0 0 0 R F) as (R0 & _). unfold range_max. rewrite R0. cbn [wide_template f_r wide_params expand spread lin_res].
    unfold ceil. replace (- ((0 + 3 / 2 + 0) / 1)) with (-(3/2)) by field. destruct (base_Int_part (-(3/2))) as [B1 B2]. set (i := Int_part _) in *. assert (i < -1)%Z by (apply lt_IZR; lra). assert (-3 < i)%Z by (apply lt_IZR; lra). lia.
  - intros x y a. rewrite (round_template _ _ _ x y a R F). f_equal. cbn [wide_template f_tmpl]. destruct ((x =? 0) && (y =? 0))%Z eqn:Z0; [assert (x = 0 /\ y = 0)%Z as [-> ->] by lia; reflexivity|]. clear Z0.
    unfold vdist. cbn [Polygon.vx Polygon.vy wide_params lin_res].
    replace ((0 - IZR x * 1) * (0 - IZR x * 1) + (0 - IZR y * 1) * (0 - IZR y * 1)) with (IZR (x * x + y * y)) by (rewrite plus_IZR, !mult_IZR; ring).
    set (n := (x * x + y * y)%Z). assert (N0 : (0 <= n)%Z) by (unfold n; nia). clearbody n.
    assert (Sq : sqrt (8/5 * (8/5)) = 8/5) by (apply sqrt_square; lra). assert (Sq' : sqrt (29/20 * (29/20)) = 29/20) by (apply sqrt_square; lra). pose proof FLT_MAX_big.
    destruct (n <=? 2)%Z eqn:N2.
    + assert (D : Rmin FLT_MAX (sqrt (IZR n)) <= 29/20). { eapply Rle_trans; [apply Rmin_r|]. rewrite <- Sq'. apply sqrt_le_1_alt. assert (IZR n <= 2) by (apply IZR_le; lia). lra. }
      set (d := Rmin _ _) in *. clearbody d. unfold cost_at, wide_params. cbn [expand]. destruct (Rltb_spec d (3/2)) as [[-> _]|[_ B]]; [reflexivity|lra].
    + assert (D : 8/5 <= Rmin FLT_MAX (sqrt (IZR n))). { apply Rmin_glb; [lra|]. rewrite <- Sq. apply sqrt_le_1_alt. assert (3 <= IZR n) by (apply IZR_le; lia). lra. }
      set (d := Rmin _ _) in *. clearbody d. unfold cost_at, wide_params. cbn [expand spread lin_res min_cost].
      repeat match goal with |- context [Rltb ?u ?v] => destruct (Rltb_spec u v) as [[-> ?]|[-> ?]] end; try reflexivity; exfalso; try lra; try (match goal with H : Rabs _ < _ |- _ => rewrite Rabs_left in H by lra; lra end).
Qed.
Theorem C83_unknown_cells_keep_clear_refuted : exists M c pts fp k data unknown cm q,
  good_params c /\ polygon_of pts = Some fp /\ template_of c fp k /\ falls_off k /\ lin_res c = mi_res (pm_info M) /\ ang_res c = mi_ang (pm_info M) /\
  Z.of_nat (length data) = (pm_w M * pm_h M)%Z /\ costs_of M data k unknown cm /\ inside_map M q /\ (cm q < 100)%Z /\ ~ clear_of_obstacles M c fp data q.
Proof.
  assert (Gp : good_params wide_params). { unfold good_params, wide_params. cbn [expand spread min_cost lin_res]. repeat split; try lra; try lia. assert (5/2 <= FLT_MAX); [|lra]. unfold FLT_MAX. apply Rle_trans with 3; [lra|]. apply IZR_le. lia. }
  destruct ex_shape as [F R].
  destruct (orun 50 false [EMap (message_of 0 pair_base)]) as [[o|]|] eqn:Eo; [|exfalso; vm_compute in Eo; discriminate Eo|exfalso; vm_compute in Eo; discriminate Eo].
  exists pair_map, wide_params, robot_shape, (close robot_shape), wide_template, [100; -1]%Z, 50%Z, (o_cm o), ((1, 0), 0)%Z.
  split; [exact Gp|]. split; [exact F|]. split; [exact wide_template_of|]. split; [exact (C83_round_templates_fall_off _ _ _ _ Gp R F wide_template_of)|].
  split; [reflexivity|]. split; [reflexivity|]. split; [reflexivity|]. split; [|split; [|split]].
  - exists pair_base, [EMap (message_of 0 pair_base)], 0%Z, None, None, o. split; [vm_compute; reflexivity|]. split; [repeat constructor; vm_compute; try reflexivity; try discriminate|].
    split; [intros m u _ [H|[]]; discriminate H|]. split; [reflexivity|]. split; [exact Eo|]. reflexivity.
  - unfold inside_map, pair_map. cbn. lia.
  - assert (A : match orun 50 false [EMap (message_of 0 pair_base)] with Ok (Some o) => (o_cm o ((1, 0), 0)%Z <? 100)%Z | _ => false end = true) by (vm_compute; reflexivity).
    rewrite Eo in A. lia.
  - intros H. destruct (H 0%Z 0%Z) as [_ O]; [unfold occupied, pair_map; cbn; repeat split; lia|].
    assert (On : on_outline (outline_at pair_map (close robot_shape) ((1, 0), 0)%Z) (centre pair_map 1 0)).
    { unfold outline_at, robot_shape, close, Polygon.move. cbn [fst snd map app]. eexists. split; [left; reflexivity|]. cbn [fst snd]. exists 0. split; [lra|].
      unfold Polygon.move1. cbn [Polygon.vx Polygon.vy]. unfold centre. cbn [Polygon.vx Polygon.vy]. f_equal; ring. }
    specialize (O _ On). cbn [wide_params expand] in O. unfold vdist, centre, pair_map in O. cbn [Polygon.vx Polygon.vy pm_info mi_ox mi_oy mi_res] in O.
    replace ((0 + (0 + 1 / 2) * 1 - (0 + (1 + 1 / 2) * 1)) * (0 + (0 + 1 / 2) * 1 - (0 + (1 + 1 / 2) * 1)) + (0 + (0 + 1 / 2) * 1 - (0 + (0 + 1 / 2) * 1)) * (0 + (0 + 1 / 2) * 1 - (0 + (0 + 1 / 2) * 1))) with 1 in O by field.
    rewrite sqrt_1 in O. lra.
Qed.

Print Assumptions C83_round_templates_fall_off.
Print Assumptions C83_the_costmap_is_published.
Print Assumptions C83_planned_paths_keep_clear.
Print Assumptions C83_round_robots_keep_their_distance.
Print Assumptions C83_unknown_cells_keep_clear_refuted.
