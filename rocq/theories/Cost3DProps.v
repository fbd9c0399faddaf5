(** Properties C09 and C19. *)
From Coq Require Import QArith Qabs ZifyBool.
From Verif Require Import Common CyclicVec CyclicVecSpec CyclicVecProofs CostAlg CostZ CostF32 AStar AStarSpec AStarProofs AStarSearch AStarComplete AStarProps GridMapSpec GridMapProofs.
From Verif Require Import MotionCache Cost3D Motion3DSpec Motion3DProofs.
Local Open Scope Z_scope.

(** ** C09 *)

(** A motion whose cost is accepted (not negative) passes only free cells. *)
Theorem C09_accepted_motion_is_collision_free {F} (K : cost_ops F) (L : cost_laws K)
    cm cm_hyst hyst thr C page_size range min_b max_b N cur next c :
  length cur = 3%nat -> length next = 3%nat -> 0 < page_size ->
  cost3 K cm cm_hyst hyst thr C page_size range min_b max_b N cur next = Ok c ->
  fltb K c (fzero K) = false ->
  forall p, swept C page_size cm cur next p -> free cm p.
Proof. apply cost3_free. exact L. Qed.

(** Evaluating a motion between two cells of the map reads no cell outside it. *)
Theorem C09_cost_reads_inside_the_map {F} (K : cost_ops F)
    cm cm_hyst hyst thr C page_size range min_b max_b (N : @numeric F) (tried : Z -> vec -> Prop) cur next :
  cm_w cm_hyst = cm_w cm -> cm_h cm_hyst = cm_h cm -> cm_a cm_hyst = cm_a cm ->
  length cur = 3%nat -> 0 < page_size -> page_size = cm_a cm ->
  vx max_b = cm_w cm - vx min_b -> vy max_b = cm_h cm - vy min_b ->
  cache_ok tried C (cm_a cm) page_size min_b -> tried (vt cur) [vx next - vx cur; vy next - vy cur; vt next] ->
  cm_inside cm cur = true -> cm_inside cm next = true ->
  Z.abs (vx next - vx cur) <= range -> Z.abs (vy next - vy cur) <= range ->
  exists c, cost3 K cm cm_hyst hyst thr C page_size range min_b max_b N cur next = Ok c.
Proof. apply cost3_defined. Qed.

(** The straight pages the code builds meet [cache_ok]'s condition. *)
Theorem C09_straight_motion_stays_in_box angle istep syaw d total m : 0 <= syaw < angle -> 0 < total ->
  In m (pg_motion (build_page angle istep d (straight_samples syaw d total))) ->
  vt m = syaw /\ (0 <= vx m <= vx d \/ vx d <= vx m <= 0) /\ (0 <= vy m <= vy d \/ vy d <= vy m <= 0).
Proof. apply straight_page_ok. Qed.

(** The planner: the search of AStar.v run on this cost function, any heuristic
    and any offered displacements within [range] (grid_astar_model_3dof.cpp:323-339).
    A cost evaluation with undefined behaviour would be accepted as cost 0. *)
Definition planner_model {F} (K : cost_ops F) cm cm_hyst hyst thr C page_size range min_b max_b N
    (estim : vec -> vec -> F) (grids : vec -> list (vec * F) -> vec -> list vec) : smodel :=
  mkModel (fun cur next _ _ => match cost3 K cm cm_hyst hyst thr C page_size range min_b max_b N cur next with
                               | Ok c => c | UB => fzero K end)
          estim grids.

Lemma search_starts_valid {F} (K : cost_ops F) nc size M fuel O ntask limit cl sts en rb ok ab path :
  well_typed nc size M sts en ->
  search K nc size M fuel O ntask limit cl sts en rb = SDone ok ab path -> (ok = true \/ path <> []) ->
  exists ss, wrapped_starts nc size sts ss /\ forall s c, In (s, c) ss -> valid size s.
Proof.
  intros (Hnc & Hsz & Len & HT & Hmod) E Hok. unfold search in E.
  destruct sts as [|st0 sts']; [injection E as <- <- <-; destruct Hok as [?|H]; [discriminate|destruct (H eq_refl)]|].
  set (sts := st0 :: sts') in *.
  destruct (cycleUnsigned nc en size) as [e|] eqn:Ee; [|discriminate].
  destruct (init_starts K nc size M sts en e [] (fun _ => fmax K) [] None []) as [[[[[ssn g] open] better]|]|] eqn:Ei;
    [| injection E as <- <- <-; destruct Hok as [?|H]; [discriminate|destruct (H eq_refl)] | discriminate].
  destruct (init_starts_spec K nc size M en e sts [] _ [] None [] ssn g open better Hnc Hsz HT Ei)
    as (ss & E1 & E2 & E3 & _). eauto.
Qed.

Lemma linked_impl {A} (R S : A -> A -> Prop) (P : A -> Prop) : forall l,
  (forall a b, P a -> R a b -> S a b /\ P b) -> (forall a, hd_error l = Some a -> P a) -> linked R l -> linked S l.
Proof.
  induction l as [|a l IH]; intros H H0 HL; [exact I|]. destruct l as [|b l]; [exact I|].
  destruct HL as [H1 H2]. destruct (H a b (H0 a eq_refl) H1) as [H3 H4]. split; [exact H3|].
  apply IH; [exact H| |exact H2]. intros x Hx. injection Hx as <-. exact H4.
Qed.

Lemma linked_pts {A} (R : A -> A -> Prop) (P : A -> Prop) : forall l,
  (forall a b, P a -> R a b -> P b) -> (forall a, hd_error l = Some a -> P a) -> linked R l -> Forall P l.
Proof.
  induction l as [|a l IH]; intros H H0 HL; constructor; [apply H0; reflexivity|].
  destruct l as [|b l]; [constructor|]. destruct HL as [H1 H2]. apply IH; [exact H| |exact H2].
  intros x Hx. injection Hx as <-. eapply H; [apply H0; reflexivity|exact H1].
Qed.

Lemma linked_app {A} (R : A -> A -> Prop) : forall pre a b post, linked R (pre ++ a :: b :: post) -> R a b.
Proof.
  induction pre as [|x pre IH]; intros a b post H; [exact (proj1 H)|].
  destruct pre as [|y pre]; [exact (IH _ _ _ (proj2 H))|]. apply IH with (post := post). exact (proj2 H).
Qed.

Lemma linked_split {A} (R : A -> A -> Prop) l pre a b post : l = pre ++ a :: b :: post -> linked R l -> R a b.
Proof. intros ->. apply linked_app. Qed.

Lemma linked_all {A} (R : A -> A -> Prop) (P : A -> Prop) : forall l, (forall a b, R a b -> P a /\ P b) ->
  (2 <= length l)%nat -> linked R l -> Forall P l.
Proof.
  intros l H. induction l as [|a l IH]; intros Hl HL; [constructor|].
  destruct l as [|b l]; [simpl in Hl; lia|]. destruct HL as [H1 H2]. constructor; [exact (proj1 (H _ _ H1))|].
  destruct l as [|c l]; [constructor; [exact (proj2 (H _ _ H1))|constructor]|]. apply IH; [simpl; lia|exact H2].
Qed.

Lemma valid3 w h a p : valid [w; h; a] p -> length p = 3%nat /\ 0 <= vx p < w /\ 0 <= vy p < h /\ 0 <= vt p < a.
Proof.
  intros H. inversion H as [|? x ? l1 H1 H2]; subst. inversion H2 as [|? y ? l2 H3 H4]; subst.
  inversion H4 as [|? t ? l3 H5 H6]; subst. inversion H6; subst. cbn. auto.
Qed.

(** The displacements the planner tries from a heading, given the offered moves: the last component is the heading at the end. *)
Definition tried_by {F} (angle : Z) (grids : vec -> list (vec * F) -> vec -> list vec) (yaw : Z) (d : vec) : Prop :=
  exists p ss e m, In m (grids p ss e) /\ vt p = yaw /\ d = [vx m; vy m; (yaw + vt m) mod angle].

(** Each step of a path the planner returns sweeps only free cells, and every
    cell of the path is in the map. *)
Theorem C09_planned_path_sweeps_free_cells {F} (K : cost_ops F) (L : cost_laws K)
    cm cm_hyst hyst thr C page_size range min_b max_b N estim grids
    fuel O ntask limit cl sts en rb ok ab path :
  let M := planner_model K cm cm_hyst hyst thr C page_size range min_b max_b N estim grids in
  let size := [cm_w cm; cm_h cm; cm_a cm] in
  well_typed 2 size M sts en -> fair_sched O ->
  Forall (fun s => fleb K (fzero K) (snd s) = true) sts ->
  (forall p ss e d, In d (grids p ss e) -> Z.abs (vx d) <= range /\ Z.abs (vy d) <= range) ->
  cm_w cm_hyst = cm_w cm -> cm_h cm_hyst = cm_h cm -> cm_a cm_hyst = cm_a cm ->
  page_size = cm_a cm -> vx max_b = cm_w cm - vx min_b -> vy max_b = cm_h cm - vy min_b ->
  cache_ok (tried_by (cm_a cm) grids) C (cm_a cm) page_size min_b ->
  search K 2 size M fuel O ntask limit cl sts en rb = SDone ok ab path ->
  (ok = true \/ rb = true /\ path <> []) ->
  linked (fun a b => forall p, swept C page_size cm a b p -> free cm p) path /\
  Forall (valid size) path.
Proof.
  intros M size HT HO H0 HG Hw Hh Ha Hps Hbx Hby HC E Hok.
  assert (HS : exists ss e, wrapped_starts 2 size sts ss /\
    (exists s c, In (s, c) ss /\ hd_error path = Some s) /\ linked (move K 2 size M ss e) path).
  { destruct Hok as [->|[-> Hp]].
    - destruct (C06_success_returns_a_real_path K L 2 size M fuel O ntask limit cl sts en rb ab path HT HO H0 E)
        as (ss & e & A & _ & B & D & _). eauto 8.
    - destruct ok.
      + destruct (C06_success_returns_a_real_path K L 2 size M fuel O ntask limit cl sts en true ab path HT HO H0 E)
          as (ss & e & A & _ & B & D & _). eauto 8.
      + destruct (C06_partial_result_is_a_real_path K L 2 size M fuel O ntask limit cl sts en ab path HT HO H0 E Hp)
          as (ss & e & A & _ & B & D & _). eauto 8. }
  destruct HS as (ss & e & HW & (s & c & Hin & Hhd) & HL).
  assert (Hstart : forall a, hd_error path = Some a -> valid size a).
  { intros a Ha'. rewrite Hhd in Ha'. injection Ha' as <-.
    destruct (search_starts_valid K 2 size M fuel O ntask limit cl sts en rb ok ab path HT E) as (ss' & HW' & HV);
      [tauto|].
    assert (ss' = ss) as ->.
    { destruct HT as (_ & HTs & _ & HTl & _). eapply wrapped_unique; [|exact HTl|exact HW'|exact HW].
      intros i r _ Hn. apply (Forall_nth _ _ _ _ HTs) in Hn. lia. }
    exact (HV s c Hin). }
  assert (Hstep : forall a b, valid size a -> move K 2 size M ss e a b ->
            (forall p, swept C page_size cm a b p -> free cm p) /\ valid size b).
  { intros a b Va ((d & Hd & Hcan) & Vb & _ & (Hneg & _)). split; [|exact Vb].
    destruct (valid3 _ _ _ _ Va) as (La & Xa & Ya & Ta). destruct (valid3 _ _ _ _ Vb) as (Lb & Xb & Yb & Tb).
    destruct (HG _ _ _ _ Hd) as [Gx Gy].
    destruct HT as (_ & _ & _ & _ & HTd). destruct (HTd _ _ _ _ Hd) as [Ld _]. cbn in Ld.
    destruct a as [|ax [|ay [|at' [|]]]]; try discriminate. destruct b as [|bx [|bY [|bt [|]]]]; try discriminate.
    destruct d as [|dx [|dy [|dt [|]]]]; try discriminate.
    destruct Hcan as [_ Hcan].
    pose proof (Hcan 0%nat _ _ _ eq_refl eq_refl eq_refl) as Ex. pose proof (Hcan 1%nat _ _ _ eq_refl eq_refl eq_refl) as Ey.
    pose proof (Hcan 2%nat _ _ _ eq_refl eq_refl eq_refl) as Et.
    cbn in Ex, Ey, Et. cbn [vx vy vt nth] in *.
    assert (HTr : tried_by (cm_a cm) grids at' [bx - ax; bY - ay; bt]).
    { exists [ax; ay; at'], ss, e, [dx; dy; dt]. split; [exact Hd|]. split; [reflexivity|]. cbn [vx vy vt nth].
      destruct Et as [[j Hj] Hr']. unfold unsigned_range in Hr'. repeat f_equal; try lia.
      apply (Z.mod_unique (at' + dt) (cm_a cm) (- j) bt); lia. }
    destruct (cost3_defined K cm cm_hyst hyst thr C page_size range min_b max_b N (tried_by (cm_a cm) grids) [ax; ay; at'] [bx; bY; bt]) as [v Hv];
      try assumption; try reflexivity; unfold cm_inside; cbn [vx vy vt nth]; try assumption; try lia.
    unfold M, planner_model in Hneg. cbn [m_cost] in Hneg. rewrite Hv in Hneg.
    apply (cost3_free K L cm cm_hyst hyst thr C page_size range min_b max_b N _ _ v); try reflexivity; try assumption. lia. }
  split.
  - eapply linked_impl; [exact Hstep|exact Hstart|exact HL].
  - eapply linked_pts; [|exact Hstart|exact HL]. intros a b Va Hm. exact (proj2 (Hstep a b Va Hm)).
Qed.

(** Every pose of the interpolated (published) path lies in a free cell. *)
Theorem C09_published_poses_lie_in_free_cells C cm path r :
  0 < cm_a cm -> cache_covered C (cm_a cm) ->
  linked (fun a b => forall p, swept C (cm_a cm) cm a b p -> free cm p) path ->
  Forall (valid [cm_w cm; cm_h cm; cm_a cm]) path ->
  (2 <= length path)%nat ->
  interpolatePath C (cm_a cm) path = Ok r ->
  forall p, In p r -> exists c, free cm c /\ in_cell (cm_a cm) p c.
Proof.
  intros Ha HC HL HV Hlen E p Hp. destruct path as [|v [|v' rest]]; try (exfalso; simpl in Hlen; lia).
  cbn [interpolatePath] in E.
  assert (HF : Forall (fun v => length v = 3%nat /\ 0 <= vt v < cm_a cm) (v :: v' :: rest)).
  { eapply Forall_impl; [|exact HV]. intros a Va. apply valid3 in Va. tauto. }
  assert (Hfree : forall w, In w (v :: v' :: rest) -> free cm w).
  { apply Forall_forall. eapply linked_all; [|exact Hlen|exact HL].
    intros a b H. split; apply H; [apply sw_start|apply sw_end]. }
  destruct (interp_in_swept C (cm_a cm) cm Ha eq_refl HC (v' :: rest) v r HF E p Hp)
    as [(w & Hw & Hc)|(pre & a & b & post & E1 & c & Hc & Hcell)].
  - exists w. split; [apply Hfree; exact Hw|exact Hc].
  - exists c. split; [|exact Hcell]. exact (linked_split _ _ _ _ _ _ E1 HL c Hc).
Qed.

(** The pages built from any samples satisfy [cache_covered]'s condition. *)
Theorem C09_page_cells_cover_samples angle istep d samples p :
  In p (pg_interp (build_page angle istep d samples)) ->
  exists c, In c (d :: pg_motion (build_page angle istep d samples)) /\ in_cell angle p c.
Proof.
  intros H. destruct (page_interp_covered angle istep d samples p H) as (c & Hc & ->).
  eexists. split; [exact Hc|apply to_cell_in_cell].
Qed.

(** ** C19 *)

(** Looking up a motion depends on the start yaw only up to whole turns. *)
Theorem C19_lookup_periodic C page_size yaw k goal : 0 < page_size ->
  find_yaw C page_size (yaw + k * page_size) goal = find_yaw C page_size yaw goal.
Proof. intros H. rewrite !find_yaw_spec by exact H. rewrite Z.mod_add by lia. reflexivity. Qed.

(** Lookup is total and finds exactly the page stored for the canonical yaw. *)
Theorem C19_lookup_exact C page_size yaw goal : 0 < page_size ->
  exists i, unsigned_range page_size i /\ same_direction page_size i yaw /\
    find_yaw C page_size yaw goal = Ok (assoc goal (C i)).
Proof.
  intros H. exists (yaw mod page_size). split; [apply Z.mod_pos_bound; exact H|]. split.
  - exists (- (yaw / page_size)). pose proof (Z.div_mod yaw page_size). lia.
  - apply find_yaw_spec. exact H.
Qed.

(** Interpolation is total, visits every way-point in order and ends at the last. *)
Theorem C19_interpolation_keeps_waypoints C page_size path : 0 < page_size -> starts_at_origin C ->
  Forall (fun v => 0 <= vt v < page_size) path ->
  exists r, interpolatePath C page_size path = Ok r /\ visits path r.
Proof.
  intros H HC HF. destruct path as [|v rest]; [exists []; split; [reflexivity|constructor]|].
  destruct (interp_total C page_size H rest v) as [r Hr]. exists r. split; [exact Hr|].
  eapply interp_visits; eauto.
Qed.
Theorem C19_interpolation_ends_at_last C page_size v rest r :
  interpolatePath C page_size (v :: rest) = Ok r -> exists r', r = r' ++ [lift (last (v :: rest) v)].
Proof. apply interp_ends. Qed.

(** The straight pages the code builds start at the origin with the start yaw,
    whenever the motion has at least one sample. *)
Theorem C19_straight_page_starts_at_origin angle istep syaw d total : 0 < total -> 0 < istep ->
  exists p rest, pg_interp (build_page angle istep d (straight_samples syaw d total)) = p :: rest /\
    px p == 0 /\ py p == 0 /\ pt p == inject_Z syaw.
Proof.
  intros Ht Hi. unfold straight_samples, range_excl, range_incl.
  replace (Z.to_nat (total - 1 - 0 + 1)) with (S (Z.to_nat (total - 1))) by lia.
  cbn [seq map]. unfold build_page. cbn [build_loop]. rewrite Z.rem_0_l by lia. cbn [Z.eqb app].
  match goal with |- context [build_loop _ _ _ ?a ?b ?c ?e ?f] =>
    destruct (build_loop_head angle istep d a b c e f) as [t ->] end.
  eexists. eexists. split; [reflexivity|]. cbn [px py pt].
  split; [|split; [|reflexivity]]; unfold Qeq; simpl; lia.
Qed.

(** A motion without samples (its length divided by the enumeration resolution
    rounds to zero) has an empty page: the way-point it starts from is missing
    from the interpolated path. *)
Theorem C19_empty_motion_drops_waypoint_refuted :
  exists C path r, interpolatePath C 4 path = Ok r /\
    Forall (fun v => 0 <= vt v < 4) path /\
    (forall yaw, C yaw = [([1; 0; 0], build_page 4 1 [1; 0; 0] (straight_samples yaw [1; 0; 0] 0))]) /\
    ~ visits path r.
Proof.
  exists (fun yaw => [([1; 0; 0], build_page 4 1 [1; 0; 0] (straight_samples yaw [1; 0; 0] 0))]), [[0; 0; 0]; [1; 0; 0]].
  eexists. split; [vm_compute; reflexivity|]. split; [repeat constructor; cbn; lia|]. split; [reflexivity|].
  intros H. inversion H as [|? ? ? ? _ H2|? ? ? H2]; subst; inversion H2.
Qed.

(** *** Non-vacuity: a 4-yaw cache with straight motions of length 4 and one curve. *)
Definition ex_cache : cache := fun yaw =>
  if yaw =? 0 then
    [ ([4; 0; 0], build_page 4 1 [4; 0; 0] (straight_samples 0 [4; 0; 0] 8));
      ([2; 2; 1], build_page 4 1 [2; 2; 1]
         [mkPosef 0 0 0; mkPosef (11 # 10) (2 # 10) (3 # 10); mkPosef (18 # 10) (9 # 10) (6 # 10)]) ]
  else [].
Definition ex_map (blocked : vec) : costmap :=
  mkCostmap 12 12 4 (fun p => if veq p blocked then 100 else 10).
Definition ex_num : @numeric (option Z) :=
  mkNumeric (fun _ s => Some (1 + s)) (fun _ _ s _ _ => Some (4 + s)) (fun _ _ s _ _ _ => Some (5 + s)).
Definition ex_cost blocked := cost3 KZ (ex_map blocked) (ex_map blocked) true 50 ex_cache 4 6 [4; 4; 0] [8; 8; 4] ex_num.

Example C09_ex_free : ex_cost [11; 11; 3] [5; 5; 0] [9; 5; 0] = Ok (Some 44).
Proof. reflexivity. Qed.
Example C09_ex_blocked : ex_cost [7; 5; 0] [5; 5; 0] [9; 5; 0] = Ok (Some (-1)).
Proof. reflexivity. Qed.
Example C09_ex_curve : ex_cost [11; 11; 3] [5; 5; 0] [7; 7; 1] = Ok (Some 35).
Proof. reflexivity. Qed.
Example C09_ex_curve_blocked : ex_cost [6; 5; 0] [5; 5; 0] [7; 7; 1] = Ok (Some (-1)).
Proof. reflexivity. Qed.
Example C09_ex_turn_blocked : ex_cost [5; 5; 3] [5; 5; 0] [5; 5; 2] = Ok (Some (-1)).
Proof. reflexivity. Qed.
Example C09_ex_turn : ex_cost [5; 5; 1] [5; 5; 0] [5; 5; 2] = Ok (Some 1).
Proof. reflexivity. Qed.
Example C09_ex_swept : swept ex_cache 4 (ex_map [7; 5; 0]) [5; 5; 0] [9; 5; 0] [7; 5; 0].
Proof.
  change (swept ex_cache 4 (ex_map [7; 5; 0]) [5; 5; 0] [9; 5; 0]
            [vx [5; 5; 0] + vx [2; 0; 0]; vy [5; 5; 0] + vy [2; 0; 0]; vt [2; 0; 0]]).
  apply (sw_move _ _ _ _ _ (build_page 4 1 [4; 0; 0] (straight_samples 0 [4; 0; 0] 8)) [2; 0; 0]);
    [cbn; lia|reflexivity|vm_compute; tauto].
Qed.

Lemma ex_assoc yaw d pg : assoc d (ex_cache yaw) = Some pg ->
  yaw = 0 /\ ((d = [4; 0; 0] /\ pg = build_page 4 1 [4; 0; 0] (straight_samples 0 [4; 0; 0] 8)) \/
             (d = [2; 2; 1] /\ pg = build_page 4 1 [2; 2; 1]
                [mkPosef 0 0 0; mkPosef (11 # 10) (2 # 10) (3 # 10); mkPosef (18 # 10) (9 # 10) (6 # 10)])).
Proof.
  unfold ex_cache. destruct (Z.eqb_spec yaw 0) as [->|]; [|discriminate]. cbn [assoc]. split; [reflexivity|].
  destruct (veq [4; 0; 0] d) eqn:E1; [apply veq_true in E1; injection H as <-; auto|].
  destruct (veq [2; 2; 1] d) eqn:E2; [apply veq_true in E2; injection H as <-; auto|discriminate].
Qed.
Example ex_cache_ok : forall tried, cache_ok tried ex_cache 4 4 [4; 4; 0].
Proof.
  intros tried yaw d pg m _ _ Ha Hm. apply ex_assoc in Ha. destruct Ha as (-> & [[-> ->]|[-> ->]]).
  - vm_compute in Hm. destruct Hm as [<-|[<-|[<-|[<-|[]]]]]; unfold vx, vy, vt; cbn [nth]; lia.
  - vm_compute in Hm. destruct Hm as [<-|[<-|[<-|[]]]]; unfold vx, vy, vt; cbn [nth]; lia.
Qed.
Example ex_cache_covered : cache_covered ex_cache 4.
Proof.
  intros yaw d pg p Ha Hp. apply ex_assoc in Ha. destruct Ha as (-> & [[-> ->]|[-> ->]]);
    apply C09_page_cells_cover_samples in Hp; exact Hp.
Qed.
Example ex_starts_at_origin : starts_at_origin ex_cache.
Proof.
  intros yaw d pg Ha. apply ex_assoc in Ha. destruct Ha as (-> & [[-> ->]|[-> ->]]).
  - apply C19_straight_page_starts_at_origin; lia.
  - eexists. eexists. vm_compute. repeat split; reflexivity.
Qed.
Example C19_ex : exists r, interpolatePath ex_cache 4 [[5; 5; 0]; [9; 5; 0]; [11; 7; 1]; [11; 7; 2]] = Ok r /\ length r = 13%nat.
Proof. eexists. split; [vm_compute; reflexivity|reflexivity]. Qed.

(** A complete run of the search on this cost function: the straight way is
    blocked, so the path turns on the spot first ... and each hypothesis of the
    end-to-end theorem holds. *)
Definition ex_grids : vec -> list (vec * option Z) -> vec -> list vec :=
  fun _ _ _ => [[4; 0; 0]; [2; 2; 1]; [0; 0; 1]; [0; 0; 3]].
Definition ex_planner blocked :=
  planner_model KZ (ex_map blocked) (ex_map blocked) true 50 ex_cache 4 6 [4; 4; 0] [8; 8; 4] ex_num (fun _ _ => Some 0) ex_grids.
Definition ex_search blocked en :=
  search KZ 2 [12; 12; 4] (ex_planner blocked) 100 heap_oracle 1 0 (Some 0) [([5; 5; 0], Some 0)] en false.

Example C09_ex_search : ex_search [11; 11; 3] [9; 5; 0] = SDone true false [[5; 5; 0]; [9; 5; 0]].
Proof. vm_compute. reflexivity. Qed.
Example C09_ex_search_blocked : ex_search [7; 5; 0] [9; 5; 0] = SDone false false [].
Proof. vm_compute. reflexivity. Qed.
Example C09_ex_search_curve : ex_search [7; 5; 0] [7; 7; 2] = SDone true false [[5; 5; 0]; [7; 7; 1]; [7; 7; 2]].
Proof. vm_compute. reflexivity. Qed.
Example C09_ex_hypotheses : forall blocked,
  well_typed 2 [12; 12; 4] (ex_planner blocked) [([5; 5; 0], Some 0)] [7; 7; 2] /\
  (forall p ss e d, In d (ex_grids p ss e) -> Z.abs (vx d) <= 6 /\ Z.abs (vy d) <= 6).
Proof.
  intros b. split.
  - split; [simpl; lia|]. split; [repeat constructor; lia|]. split; [reflexivity|].
    split; [repeat constructor|]. intros p ss e d [<-|[<-|[<-|[<-|[]]]]]; (split; [reflexivity|repeat constructor; simpl; lia]).
  - intros p ss e d [<-|[<-|[<-|[<-|[]]]]]; cbn; lia.
Qed.

Print Assumptions C09_accepted_motion_is_collision_free.
Print Assumptions C09_cost_reads_inside_the_map.
Print Assumptions C09_straight_motion_stays_in_box.
Print Assumptions C09_planned_path_sweeps_free_cells.
Print Assumptions C09_published_poses_lie_in_free_cells.
Print Assumptions C09_page_cells_cover_samples.
Print Assumptions C19_lookup_periodic.
Print Assumptions C19_lookup_exact.
Print Assumptions C19_interpolation_keeps_waypoints.
Print Assumptions C19_interpolation_ends_at_last.
Print Assumptions C19_straight_page_starts_at_origin.
Print Assumptions C19_empty_motion_drops_waypoint_refuted.
