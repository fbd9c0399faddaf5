(** Model of when planner_3d makes its distance map and when it uses it: planner_cspace/src/planner_3d.cpp, createCostEstimCache (557-653), setGoal (455-495),
    applyCostmapUpdate (777-957), cbMapUpdate (966-987), cbMap (988-1108), updateStart (1135-1160), cbParameter (1400-1499), planPath (1557-1732), makePlan (1896-1957),
    updateTemporaryEscapeGoal (2098-2329) and cbTemporaryEscape (262-270).  fast_map_update is off, as by default; with it the map is patched (update of DistMap.v, C11).
    The distance map itself is that of DistMap.v, the copy of the costs that of Overlay.v.  The remembered costs (CostmapBBF, see Bbf.v) are a value of any type.
    What does not matter for the distance map is an input: how a planning cycle goes on, what the search for a temporary goal finds, when a goal ends. *)
From Verif Require Import Common CostAlg DistMap Overlay SearchAvail.
Import ListNotations.
Local Open Scope Z_scope.

(** Results of a run: undefined behaviour, out of fuel, or a value. *)
Definition ran (A : Type) := outcome (option A).
Definition ret {A} (a : A) : ran A := Ok (Some a).
Definition andthen {A B} (x : ran A) (f : A -> ran B) : ran B := match x with UB => UB | Ok None => Ok None | Ok (Some a) => f a end.
Notation "'let^' x := e 'in' f" := (andthen e (fun x => f)) (at level 200, x name, e at level 100, f at level 200).

Section Node.
  Context {F : Type} (K : cost_ops F) {cfg mem info pose : Type}.
  (** The present costs: map_info_.width, height, angle, cm_, cm_rough_. *)
  Record costs := Costs { v_w : Z; v_h : Z; v_a : Z; v_cm : cell3 -> Z; v_rough : cell -> Z }.
  Definition view (o : ov) : costs := Costs (o_w o) (o_h o) (o_a o) (o_cm o) (o_rough o).

  Variable envof : cfg -> mem -> costs -> @env F.             (* what a filling reads: parameters (1035-1045, 1453, 1463-1473), remembered costs, cm_rough_ *)
  Variable cell_of : info -> pose -> cell3.                   (* metric2Grid, 306-315, with map_info_ *)
  Variable pose_of : info -> cell3 -> pose.                   (* grid2MetricPose, 316-325 *)
  Variable range : cfg -> Z.                                  (* range_ *)
  Variable find_free : cfg -> costs -> cell3 -> option cell3. (* searchAvailablePos of the relocation, see SearchAvail.v *)
  Variable remember : cfg -> (cell -> Z) -> cell3 -> mem -> mem.  (* 903-916: remember (cm_updates_) and updateCostmap, or nothing if remember_updates_ is off *)
  Variable forgotten : mem.                                   (* bbf_costmap_->clear() *)
  Variable unknown_cost : Z.                               (* unknown_cost_ *)
  Variable overwrite : cfg -> bool.                        (* overwrite_cost_ *)

  (** goal_raw_, goal_, goal_original_ and isEscaping(escape_status_), while has_goal_. *)
  Record goals := Goals { g_raw : pose; g_cur : pose; g_orig : pose; g_esc : bool }.
  (** What makePlan looks at when it consults the distance map: the costs, the pose of the robot, the goal and the distances. *)
  Record use := Use { w_cfg : cfg; w_mem : mem; w_info : info; w_costs : costs; w_robot : pose; w_goal : pose; w_dist : @dmap F }.
  (** The members: configuration, remembered costs, the costs (None: has_map_ is false), start_ (None: has_start_ is false), the goals (None: has_goal_ is false),
      cost_estim_cache_created_, cost_estim_cache_; and the uses so far. *)
  Record node := Node { n_cfg : cfg; n_mem : mem; n_map : option (info * ov); n_start : option pose; n_goal : option goals; n_created : bool; n_dist : @dmap F; n_uses : list use }.
  Definition set_cfg c n := Node c (n_mem n) (n_map n) (n_start n) (n_goal n) (n_created n) (n_dist n) (n_uses n).
  Definition set_mem x n := Node (n_cfg n) x (n_map n) (n_start n) (n_goal n) (n_created n) (n_dist n) (n_uses n).
  Definition set_map x n := Node (n_cfg n) (n_mem n) (Some x) (n_start n) (n_goal n) (n_created n) (n_dist n) (n_uses n).
  Definition set_start x n := Node (n_cfg n) (n_mem n) (n_map n) x (n_goal n) (n_created n) (n_dist n) (n_uses n).
  Definition set_goal x n := Node (n_cfg n) (n_mem n) (n_map n) (n_start n) x (n_created n) (n_dist n) (n_uses n).
  Definition set_dist b d n := Node (n_cfg n) (n_mem n) (n_map n) (n_start n) (n_goal n) b d (n_uses n).
  Definition add_use u n := Node (n_cfg n) (n_mem n) (n_map n) (n_start n) (n_goal n) (n_created n) (n_dist n) (n_uses n ++ [u]).
  (** Constructor, 1162-1363. *)
  Definition new_node (c : cfg) : node := Node c forgotten None None None false (init K) [].

  (** relocateDiscretePoseIfNeeded, 272-304. *)
  Definition reloc (c : cfg) (o : costs) (p : cell3) : pose_status * cell3 :=
    if negb (validate3 (v_w o) (v_h o) (v_a o) (range c) p) then (POutOfMap, p)
    else if v_cm o p =? 100 then match find_free c o p with Some q => (PRelocated, q) | None => (PInRock, p) end
    else (POk, p).

  (** One filling of the distance map: fuel and schedule. *)
  Definition filling := (nat * @oracle F)%type.
  (** createCostEstimCache, 557-653; [escape_now] is the call in 614 (nothing unless temporary_escape_ and enable_crowd_mode_). *)
  Definition create_body (escape_now : node -> ran node) (x : filling) (n : node) : ran (bool * node) :=
    match n_goal n, n_map n, n_start n with
    | Some g, Some (i, o), Some p =>
        let n0 := set_dist false (n_dist n) n in
        let s := reloc (n_cfg n) (view o) (cell_of i p) in
        let e := reloc (n_cfg n) (view o) (cell_of i (g_raw g)) in
        match fst s with
        | POutOfMap => ret (false, n0)
        | PInRock => ret (true, n0)
        | _ =>
            let build cur :=
              match create K (fst x) (snd x) (envof (n_cfg n) (n_mem n) (view o)) (n_dist n) (fst (snd s)) (fst (snd e)) with
              | Done d => ret (true, set_dist true d (set_goal (Some (Goals (g_raw g) cur (g_orig g) (g_esc g))) n))
              | OutOfFuel => Ok None
              | Undefined => UB
              end in
            match fst e with
            | POutOfMap => ret (false, n0)
            | PInRock => if g_esc g then ret (true, set_goal (Some (Goals (g_orig g) (g_orig g) (g_orig g) false)) n0)
                         else let^ n1 := escape_now n0 in ret (true, n1)
            | PRelocated => build (pose_of i (snd e))
            | POk => build (g_raw g)
            end
        end
    | _, _, _ => ret (true, n)
    end.
  (** updateTemporaryEscapeGoal, 2098-2329; [found] is what its search gives (TempEscape.v); a skipped update (2108) finds nothing. *)
  Inductive found := FNone | FBack | FTo (c : cell3).
  Definition escape_goal (f : found) (inner : node -> ran (bool * node)) (n : node) : ran node :=
    match n_goal n, n_map n, n_start n with
    | Some g, Some (i, _), Some _ =>
        match f with
        | FNone => ret n
        | FBack => let^ r := inner (set_goal (Some (Goals (g_orig g) (g_orig g) (g_orig g) false)) n) in ret (snd r)
        | FTo c => let^ r := inner (set_goal (Some (Goals (pose_of i c) (pose_of i c) (g_orig g) true)) n) in ret (snd r)
        end
    | _, _, _ => ret n
    end.
  (** A call of createCostEstimCache: its filling, what an escape search in it finds, and the filling of that.  The inner call runs while escaping or with the original goal free
      (2243), so it does not come back to 614. *)
  Record call := Call { k_fill : filling; k_found : found; k_inner : filling }.
  Definition inner_create (x : filling) : node -> ran (bool * node) := create_body ret x.
  Definition createCache (k : call) : node -> ran (bool * node) := create_body (escape_goal (k_found k) (inner_create (k_inner k))) (k_fill k).

  (** setGoal, 455-495, for a goal in the frame of the map with a proper orientation. *)
  Definition setGoal (p : pose) (k : call) (n : node) : ran node :=
    let^ r := createCache k (set_goal (Some (Goals p p p false)) n) in
    ret (if fst r then snd r else set_goal None (snd r)).

  (** cbMap, 988-1100: the new costs; the distance map is cleared, the remembered costs too. *)
  Definition cbMap (i : info) (m : mmsg) (k : call) (n : node) : ran node :=
    match load_map unknown_cost (match n_map n with Some (_, o) => o_kept o | None => None end) m with
    | UB => UB
    | Ok o => let^ r := createCache k (set_dist (n_created n) (init K) (set_mem forgotten (set_map (i, o) n))) in ret (snd r)
    end.
  (** applyCostmapUpdate, 777-923: after the costs are updated. *)
  Definition updated (k : call) (n : node) : ran node :=
    match n_map n, n_start n with
    | Some (i, o), Some p =>
        let n := set_mem (remember (n_cfg n) (o_upd o) (cell_of i p) (n_mem n)) n in
        match n_goal n with
        | None => ret n
        | Some _ => let^ r := createCache k n in ret (snd r)
        end
    | _, _ => ret n
    end.
  Definition applyUpdate (u : umsg) (k : call) (n : node) : ran node :=
    match n_map n with
    | None => ret n
    | Some (i, o) =>
        match apply_update (overwrite (n_cfg n)) o u with
        | UB => UB
        | Ok o' => if too_large o u then ret (set_map (i, o') n) else updated k (set_map (i, o') n)
        end
    end.
  (** 1102-1107: the update kept from before the map; [newer]: it is not older than the map. *)
  Definition applyKept (newer : bool) (k : call) (n : node) : ran node :=
    match n_map n with
    | None => ret n
    | Some (_, o) =>
        match o_kept o with
        | Some u => let^ n1 := (if newer then applyUpdate u k n else ret n) in
                    ret (match n_map n1 with Some (i, o1) => set_map (i, keep o1 None) n1 | None => n1 end)
        | None => ret n
        end
    end.
  (** cbParameter, 1400-1477: the distance map is cleared as soon as there is a map. *)
  Definition cbParameter (c : cfg) (n : node) : node :=
    let n := set_cfg c n in
    match n_map n with Some _ => set_dist (n_created n) (init K) n | None => n end.

  (** How a planning cycle goes on once the flags are checked: it does not come to the distance map (old costmap, finishing, start occupied, ...), it ends the goal, it
      finds that the temporary goal is reached (1910-1917), or it consults the distance map (1941) and possibly looks for a temporary goal (1951). *)
  Inductive course := CNothing | CEnd | CEscaped (k : call) | CConsult (f : found) (x : filling).
  (** planPath, 1557-1732, and makePlan, 1896-1957. *)
  Definition planPath (k : call) (y : course) (n : node) : ran node :=
    let^ r := match n_map n, n_created n, n_goal n with Some _, false, Some _ => createCache k n | _, _, _ => ret (true, n) end in
    let n := snd r in
    match n_map n, n_goal n, n_start n with
    | Some (i, o), Some g, Some p =>
        match y with
        | CNothing => ret n
        | CEnd => ret (set_goal None n)
        | CEscaped k' =>
            if n_created n && g_esc g then let^ r := createCache k' (set_goal (Some (Goals (g_orig g) (g_orig g) (g_orig g) false)) n) in ret (snd r) else ret n
        | CConsult f x =>
            if n_created n then escape_goal f (inner_create x) (add_use (Use (n_cfg n) (n_mem n) i (view o) p (g_cur g) (n_dist n)) n) else ret n
        end
    | _, _, _ => ret n
    end.

  (** Everything that happens to the node.  With trigger_plan_by_costmap_update an update is the sequence EStart, EUpdate, ECycle (966-983).  A map is the sequence EMap, EKept
      (in trigger mode with EStart before and ECycle after EKept). *)
  Inductive event :=
  | EConfig (c : cfg) | EMap (i : info) (m : mmsg) (k : call) | EKept (newer : bool) (k : call) | EUpdate (u : umsg) (k : call)
  | EStart (p : option pose) | EGoal (p : pose) (k : call) | EEnd | EEscape (f : found) (x : filling) | EJump | ECycle (k : call) (y : course).
  Definition step (n : node) (e : event) : ran node :=
    match e with
    | EConfig c => ret (cbParameter c n)
    | EMap i m k => cbMap i m k n
    | EKept b k => applyKept b k n
    | EUpdate u k => applyUpdate u k n
    | EStart p => ret (match n_map n with Some _ => set_start p n | None => n end)   (* 1520-1524, 973 *)
    | EGoal p k => setGoal p k n
    | EEnd => ret (set_goal None n)                                                  (* cbPreempt 441-453, 488-493 *)
    | EEscape f x => escape_goal f (inner_create x) n                                (* 262-270 *)
    | EJump => ret (set_mem forgotten n)                                             (* 1526-1531, 1740-1743; also the service forget_planning_cost, cbForget 252-261 *)
    | ECycle k y => planPath k y n
    end.
  Fixpoint run (n : node) (es : list event) : ran node :=
    match es with [] => ret n | e :: es' => let^ n1 := step n e in run n1 es' end.
End Node.
