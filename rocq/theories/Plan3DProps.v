(** C81: one planning cycle of the 3D planner. *)
From Coq Require Import QArith Qabs Qreals Reals Lra Lia Psatz ZifyBool.
From Flocq Require Import Core.
From Verif Require Import Common CyclicVec CyclicVecSpec CyclicVecProofs CostAlg CostZ DistMap Overlay SearchAvail SearchAvailProps MakePlanSrvProps
  GridMetric GridMetricProps Path2D Path2DProps PathGeom PathGeomProps StartPredict StartPredictProps StartPoses StartPosesProps
  Hysteresis HysteresisProps Primitives PrimitivesProps GridMapSpec AStar AStarSpec AStarProofs AStarSearch AStarTerm AStarComplete AStarProps
  MotionCache Cost3D Motion3DSpec Motion3DProofs Cost3DProps MotionReset MotionResetProps Plan3D Plan3DMoves.
Local Open Scope R_scope.

(** *** Specification *)
Section Spec.
  Variables (S : scfg) (G : ccfg) (P : prim_cfg) (M : pmap) (cm : cell3 -> Z) (est : Z -> Z -> option R) (C : pcfg) (racc tol_range tol_angle : Z).
  Variables (robot : pose2) (previous : list pose2).
  (** The previous path is continued. *)
  Definition continues : Prop := StartPoses.keep S = true /\ previous <> [].
  (** A nearest free cell around an occupied one (C14). *)
  Definition nearest_free (s q : cell3) : Prop :=
    let near_pose limit q := nearest_pose KR (fun d => Some (sqrt (IZR (fst (fst d) * fst (fst d) + snd (fst d) * snd (fst d))) * ec0 S + Rabs (ec2 G * IZR (snd d))))
      (pm_w M) (pm_h M) (pm_a M) (margin S) cm s tol_range tol_angle 0 limit q in
    let none limit := no_pose (pm_w M) (pm_h M) (pm_a M) (margin S) cm s tol_range tol_angle 0 limit in
    near_pose racc q \/ (racc <> 100%Z /\ none racc /\ near_pose 100%Z q).
  (** The cells the plan may start from, the robot being in the cell [s] (C62, C63). *)
  Definition starts_from (s : cell3) (ss : list vec) : Prop :=
    in_margin M (margin S) s /\
    ((continues /\ exists r, process C M cm robot previous = Ok (Some r) /\ ss = [cell_vec (st_cell r)]) \/
     (~ continues /\ (exists c, startable S M cm robot s c) /\ forall v, In v ss <-> exists c, startable S M cm robot s c /\ v = cell_vec c) \/
     (~ continues /\ (forall c, ~ startable S M cm robot s c) /\ exists q, nearest_free s q /\ ss = [cell_vec q])).
  (** Within the goal tolerance. *)
  Definition finishing (s : cell3) (ss : list vec) (e : cell3) : Prop :=
    (continues /\ close_to (pm_a M) (tol_l S) (tol_a S) s e) \/
    (~ continues /\ exists c, In (cell_vec c) ss /\ close_to (pm_a M) (tol_l S) (tol_a S) c e).
  (** The poses kept of the previous path: a stretch of it (C62) without obstacles, which ends in front of the cell [v]. *)
  Definition kept_of (v : vec) (kept : list pose2) : Prop :=
    exists passed p rest c, cut C M robot (fromMsg eps6 previous) passed kept p rest /\ pose_in_cell M p c /\ v = cell_vec c /\
      forall q, In q kept -> exists c', pose_in_cell M q c' /\ inside_map M c' /\ cm c' <> 100%Z.
  (** A pose at the centre of a cell; a pose in a cell or on its border. *)
  Definition centred (q : pose2) (v : vec) : Prop :=
    p_x q = mi_ox (pm_info M) + (IZR (vx v) + 1/2) * mi_res (pm_info M) /\ p_y q = mi_oy (pm_info M) + (IZR (vy v) + 1/2) * mi_res (pm_info M) /\
    p_yaw q = IZR (vt v) * mi_ang (pm_info M).
  Definition touches (q : pose2) (c : cell3) : Prop :=
    Rabs (p_x q - (mi_ox (pm_info M) + (IZR (fst (fst c)) + 1/2) * mi_res (pm_info M))) <= mi_res (pm_info M) / 2 /\
    Rabs (p_y q - (mi_oy (pm_info M) + (IZR (snd (fst c)) + 1/2) * mi_res (pm_info M))) <= mi_res (pm_info M) / 2 /\
    exists k, in_sector (pm_info M) (snd c + k * pm_a M) (p_yaw q).
  (** A path passes the centres of the cells in order. *)
  Inductive passes : list vec -> list pose2 -> Prop :=
  | p_done l : passes [] l
  | p_take v q vs l : centred q v -> passes vs l -> passes (v :: vs) (q :: l)
  | p_skip q vs l : passes vs l -> passes vs (q :: l).
  (** Estimated cost from a cell to the goal: the distance map and the angle to turn. *)
  Definition estimate (v e : vec) (h : R) : Prop :=
    exists c t, est (vx v) (vy v) = Some c /\ same_direction (pr_angle P) t (vt v - vt e) /\ (2 * Z.abs t <= pr_angle P)%Z /\ h = c + ec2 G * IZR (Z.abs t).
End Spec.
(** A way from one of the cells [ss] to [e] by the steps. *)
Definition way (step : vec -> vec -> Prop) (ss : list vec) (e : vec) (l : list vec) : Prop :=
  (exists s, In s ss /\ hd_error l = Some s /\ last l s = e) /\ linked step l.

(** *** Proofs: the search *)
Lemma findPath_nonempty {F} (ss : list (vec * F)) : forall fuel n parents path b l, findPath_loop fuel ss n parents path = Some (b, l) -> l <> [].
Proof.
  induction fuel as [|fuel IH]; intros n parents path b l; cbn [findPath_loop]; [discriminate|].
  destruct (existsb _ _); [intros E; injection E as <- <-; discriminate|]. destruct (lookup n parents); [apply IH|]. intros E. injection E as <- <-. discriminate.
Qed.
Lemma init_none {F} (K : cost_ops F) nc size M en e : forall sts ssn g open best better,
  init_starts K nc size M sts en e ssn g open best better = Ok None -> exists c, In (en, c) sts.
Proof.
  induction sts as [|[v c] sts IH]; intros ssn g open best better; cbn [init_starts]; [discriminate|].
  destruct (vec_dec v en) as [->|]; [intros _; exists c; left; reflexivity|].
  destruct (cycleUnsigned nc v size) as [s|]; cbn [bind]; [|discriminate]. destruct (negb _); [discriminate|].
  destruct (ftrunc K _) as [ce|]; cbn [bind]; [|discriminate]. intros E. apply IH in E as [c' E]. exists c'. right. exact E.
Qed.
Lemma search_nonempty {F} (K : cost_ops F) nc size M fuel O ntask limit cl sts en ok ab path : sts <> [] -> (forall c, ~ In (en, c) sts) ->
  search K nc size M fuel O ntask limit cl sts en true = SDone ok ab path -> path <> [].
Proof.
  intros N0 Ne. unfold search. destruct sts as [|s0 sts']; [congruence|]. destruct (cycleUnsigned nc en size) as [e|]; [|discriminate].
  destruct (init_starts _ _ _ _ _ _ _ _ _ _ _ _) as [[[[[ssn g] open] better]|]|] eqn:Ei; [| |discriminate].
  - destruct (main_loop _ _ _ _ _ _ _ _ _ _ _ _ _) as [e' s|ab' s| |]; try discriminate.
    + destruct (findPath ssn e' (st_parents s)) as [[b l]|] eqn:Ef; [|discriminate]. intros E. injection E as <- <- <-. eapply findPath_nonempty. exact Ef.
    + destruct (findPath ssn (st_better s) (st_parents s)) as [[b l]|] eqn:Ef; [|discriminate]. intros E. injection E as <- <- <-. eapply findPath_nonempty. exact Ef.
  - apply init_none in Ei as [c Ei]. destruct (Ne c Ei).
Qed.
Lemma try_cells_nodup S M cm gx gy s : forall ds acc r, foldM (try_cell S M cm gx gy s) ds acc = Ok r ->
  exists l, r = acc ++ l /\ (forall c, In c (map fst l) -> In c (map (shifted s) ds)) /\ (NoDup (map (shifted s) ds) -> NoDup (map fst l)).
Proof.
  induction ds as [|d ds IH]; intros acc r E; cbn [foldM] in E.
  - injection E as <-. exists []. rewrite app_nil_r. split; [reflexivity|]. split; [intros c []|constructor].
  - destruct (try_cell S M cm gx gy s acc d) as [acc'|] eqn:Et; [|discriminate]. cbn [bind] in E. apply IH in E as (l & -> & H1 & H2).
    assert (T : acc' = acc \/ exists k, acc' = acc ++ [(shifted s d, k)]).
    { unfold try_cell in Et. destruct (negb _); [injection Et as <-; auto|]. destruct (Rlt_dec _ _); [injection Et as <-; auto|].
      destruct (read_cm M cm _) as [c|]; [|discriminate]. cbn [bind] in Et. destruct (99 <? c)%Z; injection Et as <-; eauto. }
    destruct T as [->|[k ->]].
    + exists l. split; [reflexivity|]. cbn [map]. split; [intros c Hc; right; apply H1; exact Hc|]. intros N. inversion N; subst. auto.
    + exists ((shifted s d, k) :: l). rewrite <- app_assoc. split; [reflexivity|]. cbn [map fst]. split.
      * intros c [<-|Hc]; [left; reflexivity|right; apply H1; exact Hc].
      * intros N. inversion N as [|? ? N1 N2]; subst. constructor; [|auto]. intros Hc. apply N1, H1. exact Hc.
Qed.
Lemma starts_nodup S C M cm sp robot goal previous st l : buildStartPoses S C M cm sp robot goal previous = Ok (st, l) -> NoDup (map fst l).
Proof.
  unfold buildStartPoses. destruct (metric2GridF _ _ _ _ _ _) as [[gx gy] gt]. destruct (pose_cell M robot) as [s|]; [|discriminate]. cbn [bind].
  destruct (pose_cell M goal) as [e|]; [|discriminate]. cbn [bind]. destruct (negb _); [intros E; injection E as <- <-; constructor|].
  destruct (_ && _)%bool.
  - destruct (process _ _ _ _ _) as [[r|]|]; [|intros E; cbn [bind] in E; injection E as <- <-; constructor|discriminate]. cbn [bind].
    destruct (isPathFinishing _ _ _ _ _); [|discriminate]. cbn [bind]. intros E. injection E as <- <-. repeat (apply NoDup_cons || apply NoDup_nil). intros [].
  - destruct (candidates S M cm gx gy s) as [cs|] eqn:Ec; [|discriminate]. cbn [bind]. destruct cs as [|c0 cs].
    + destruct (sp s) as [[q|]|]; [|intros E; cbn [bind] in E; injection E as <- <-; constructor|discriminate]. cbn [bind].
      destruct (any_finishing _ _ _ _); [|discriminate]. cbn [bind]. intros E. injection E as <- <-. repeat (apply NoDup_cons || apply NoDup_nil). intros [].
    + destruct (any_finishing _ _ _ _); [|discriminate]. cbn [bind]. intros E. injection E as <- <-. unfold candidates in Ec. destruct (antialias S).
      * cbv zeta in Ec. apply try_cells_nodup in Ec as (l & -> & _ & H). cbn [app]. apply H. unfold shifted. cbn [map fst snd].
        assert (sx : (side gx (fst (fst s)) <> 0)%Z) by (unfold side; destruct (Rlt_dec _ _); lia). assert (sy : (side gy (snd (fst s)) <> 0)%Z) by (unfold side; destruct (Rlt_dec _ _); lia).
        repeat (apply NoDup_cons || apply NoDup_nil); cbn [In]; intros H'; repeat (destruct H' as [H'|H']; [pose proof (f_equal (fun c : cell3 => fst (fst c)) H'); pose proof (f_equal (fun c : cell3 => snd (fst c)) H'); cbn [fst snd] in *; lia|]); exact H'.
      * destruct (read_cm M cm s) as [c|]; [|discriminate]. cbn [bind] in Ec. destruct (c <? 100)%Z; [injection Ec as <- <-|discriminate]. apply NoDup_cons; [intros []|apply NoDup_nil].
Qed.

Section Cycle.
  Variables (S : scfg) (G : ccfg) (P : prim_cfg) (M : pmap) (computed : Z -> vec -> list posef) (gres ires : R) (page_dist : Z -> vec -> R)
    (cm cm_hyst : cell3 -> Z) (hyst : bool) (est : Z -> Z -> option R) (local_range : Z) (C : pcfg) (racc tol_range tol_angle : Z).
  Hypothesis OK : planner_ok S G P M computed gres page_dist cm cm_hyst est.
  Hypothesis Hacc : (racc <= 100)%Z.
  Hypothesis Hran : (0 <= tol_range)%Z.
  Hypothesis Ht : (2 * tol_a S + 1 <> pm_a M)%Z.
  Variables (robot goal : pose2) (previous : list pose2).
  Notation cache := (plan_cache P computed gres ires).
  Notation size := [pm_w M; pm_h M; pm_a M].
  Notation model := (model3 S G P M computed gres ires page_dist cm cm_hyst hyst est local_range).
  Notation legal := (legal P M computed gres ires cm est local_range).
  Notation starts_from := (starts_from S G M cm C racc tol_range tol_angle robot previous).
  Notation continues := (continues S previous).
  Notation finishing := (finishing S M previous).
  Notation search_pos := (search_pos S G M cm racc tol_range tol_angle).
  Notation build := (buildStartPoses S C M cm search_pos robot goal previous).
  Notation estimate := (estimate G P est).

  Lemma res_pos : 0 < mi_res (pm_info M).
  Proof. rewrite (ok_res _ _ _ _ _ _ _ _ _ _ OK). apply (ok_prim _ _ _ _ _ _ _ _ _ _ OK). Qed.
  Lemma info_ang_pos : 0 < mi_ang (pm_info M).
  Proof. rewrite (ok_ang _ _ _ _ _ _ _ _ _ _ OK). exact (ang_pos _ _ _ _ _ _ _ _ _ _ OK). Qed.
  Lemma a_pos : (0 < pm_a M)%Z.
  Proof. rewrite (ok_a _ _ _ _ _ _ _ _ _ _ OK). pose proof (ok_angle _ _ _ _ _ _ _ _ _ _ OK). lia. Qed.
  Lemma margin_nonneg : (0 <= margin S)%Z.
  Proof. rewrite (ok_margin _ _ _ _ _ _ _ _ _ _ OK). apply (ok_prim _ _ _ _ _ _ _ _ _ _ OK). Qed.
  Lemma ec0_nonneg : 0 <= ec0 S.
  Proof. pose proof (ok_ec0 _ _ _ _ _ _ _ _ _ _ OK). lra. Qed.

  Lemma search_pos_spec s : exists r, search_pos s = Ok r /\ match r with Some q => nearest_free S G M cm racc tol_range tol_angle s q | None => forall q, ~ nearest_free S G M cm racc tol_range tol_angle s q end.
  Proof.
    unfold Plan3D.search_pos.
    destruct (C14_search_finds_a_nearest_pose KR (fun d : cell3 => Some (euclid3 S G (cell_vec d))) (pm_w M) (pm_h M) (pm_a M) (margin S) racc cm s tol_range tol_angle (-1) 0) as (f & q & -> & H);
      [exact KR_order|exact a_pos|exact Hran|reflexivity|]. cbn [bind fst snd]. cbv zeta in H. change (-1 =? -1)%Z with true in H. cbv iota in H. eexists. split; [reflexivity|]. destruct f.
    - exact H.
    - destruct H as (_ & H1 & H2). intros q' [(d & H & _)|(N & _ & (d & H & _))]; [exact (H1 _ _ H)|exact (H2 N _ _ H)].
  Qed.
  Lemma nearest_free_in s q : nearest_free S G M cm racc tol_range tol_angle s q -> in_margin M (margin S) q /\ (cm q < 100)%Z.
  Proof.
    assert (A : forall limit d q, (limit <= 100)%Z -> acceptable_pose (pm_w M) (pm_h M) (pm_a M) (margin S) cm s tol_range tol_angle 0 limit d q -> in_margin M (margin S) q /\ (cm q < 100)%Z).
    { intros limit [[dx dy] dt] [[x y] t] L H. unfold acceptable_pose in H. unfold in_margin. cbn [fst snd]. lia. }
    intros [(d & H & _)|(_ & _ & (d & H & _))]; eapply A; [|exact H| |exact H]; lia.
  Qed.
  (** Every start has a heading of the map, an admissible cost, and lies in a free cell unless the previous path is continued. *)
  Lemma build_starts s e st l : pose_cell M robot = Ok s -> pose_cell M goal = Ok e -> build = Ok (st, l) ->
    NoDup (map fst l) /\ (forall c k, In (c, k) l -> (0 <= snd c < pm_a M)%Z /\ 0 <= k) /\
    (~ continues -> forall c k, In (c, k) l -> in_margin M (margin S) c /\ (cm c < 100)%Z) /\
    match st with
    | START_OCCUPIED => l = [] /\ forall ss, ~ starts_from s ss
    | FINISHING => starts_from s (map (fun c => cell_vec (fst c)) l) /\ finishing s (map (fun c => cell_vec (fst c)) l) e
    | NORMAL => starts_from s (map (fun c => cell_vec (fst c)) l) /\ ~ finishing s (map (fun c => cell_vec (fst c)) l) e
    end.
  Proof.
    intros Es Ee E. split; [eapply starts_nodup; exact E|].
    pose proof (start_poses_at S C M cm search_pos robot goal previous res_pos info_ang_pos a_pos margin_nonneg ec0_nonneg Ht st l s e Es Ee E) as B. cbv zeta in B.
    pose proof (pose_cell_ok M robot s res_pos info_ang_pos a_pos Es) as Ps.
    assert (Inj : forall c c', cell_vec c = cell_vec c' -> c = c') by (intros [[x y] t] [[x' y'] t'] H; unfold cell_vec in H; cbn [fst snd] in H; injection H as -> -> ->; reflexivity).
    assert (SC : forall c, startable S M cm robot s c -> in_margin M (margin S) s -> in_margin M (margin S) c /\ (cm c < 100)%Z).
    { intros c H Hm. unfold startable in H. destruct (antialias S); [destruct H as (A & _ & _ & B'); split; [exact A|lia]|destruct H as [-> H]; auto]. }
    assert (Co : forall c, 0 <= start_cost S M cm robot c).
    { intros c. unfold start_cost. destruct (antialias S); [|lra]. pose proof (sqrt_pos (off_x M robot c ^ 2 + off_y M robot c ^ 2)). pose proof ec0_nonneg. pose proof (ok_weight _ _ _ _ _ _ _ _ _ _ OK).
      pose proof (IZR_le _ _ (ok_cm _ _ _ _ _ _ _ _ _ _ OK c)). assert (0 <= ec0 S * sqrt (off_x M robot c ^ 2 + off_y M robot c ^ 2)) by (apply Rmult_le_pos; assumption).
      assert (0 <= IZR (cm c) * weight S) by (apply Rmult_le_pos; assumption). lra. }
    destruct B as [(Nm & -> & ->)|(Hm & B)].
    { split; [intros c k []|]. split; [intros _ c k []|]. split; [reflexivity|]. intros ss [H _]. contradiction. }
    destruct B as [(Kc & Ep & -> & ->)|[(Kc & r & Ep & -> & B)|[(Kc & Ex & Hl & B)|[(Kc & Hn & Ep & -> & ->)|(Kc & Hn & q & Ep & -> & B)]]]].
    - split; [intros c k []|]. split; [intros _ c k []|]. split; [reflexivity|]. intros ss [_ [[_ (r & Er & _)]|[[N _]|[N _]]]]; [congruence|contradiction..].
    - assert (Pr : (0 <= snd (st_cell r) < pm_a M)%Z).
      { destruct (C62_preserved_path_is_a_free_stretch_of_the_previous_path C M cm robot res_pos info_ang_pos a_pos previous r Ep) as (_ & p & _ & _ & _ & _ & (_ & T & _)). exact T. }
      split; [intros c k [I|[]]; injection I as <- <-; split; [exact Pr|lra]|]. split; [intros N; contradiction|].
      assert (SF : starts_from s (map (fun c => cell_vec (fst c)) [(st_cell r, 0)])) by (split; [exact Hm|left; split; [exact Kc|exists r; auto]]).
      destruct B as [[Cl ->]|[Cl ->]]; (split; [exact SF|]); [left; auto|]. intros [[_ F]|[N _]]; [contradiction|contradiction].
    - split; [intros c k I; apply Hl in I as [I ->]; split; [apply (SC c I Hm)|apply Co]|]. split; [intros _ c k I; apply Hl in I as [I _]; exact (SC c I Hm)|].
      assert (SF : starts_from s (map (fun c => cell_vec (fst c)) l)).
      { split; [exact Hm|]. right. left. split; [exact Kc|]. split; [exact Ex|]. intros v. rewrite in_map_iff. split.
        - intros ([c k] & <- & I). apply Hl in I as [I _]. exists c. auto.
        - intros (c & Sc & ->). exists (c, start_cost S M cm robot c). split; [reflexivity|]. apply Hl. auto. }
      destruct B as [[(c & Sc & Cl) ->]|[Cl ->]]; (split; [exact SF|]).
      + right. split; [exact Kc|]. exists c. split; [|exact Cl]. apply in_map_iff. exists (c, start_cost S M cm robot c). split; [reflexivity|]. apply Hl. auto.
      + intros [[K _]|(_ & c & I & F)]; [contradiction|]. apply in_map_iff in I as ([c' k] & I & Hc). apply Inj in I. cbn [fst] in I. subst c'. apply Hl in Hc as [Hc _]. exact (Cl c Hc F).
    - split; [intros c k []|]. split; [intros _ c k []|]. split; [reflexivity|]. intros ss [_ [[N _]|[(_ & (c & Sc) & _)|(_ & _ & q & Hq & _)]]]; [contradiction|exact (Hn c Sc)|].
      destruct (search_pos_spec s) as (x & Ex & Hx). rewrite Ep in Ex. injection Ex as <-. exact (Hx q Hq).
    - destruct (search_pos_spec s) as (x & Ex & Hx). rewrite Ep in Ex. injection Ex as <-. destruct (nearest_free_in s q Hx) as [Q1 Q2].
      split; [intros c k [I|[]]; injection I as <- <-; split; [apply Q1|lra]|]. split; [intros _ c k [I|[]]; injection I as <- <-; auto|].
      assert (SF : starts_from s (map (fun c => cell_vec (fst c)) [(q, 0)])) by (split; [exact Hm|right; right; split; [exact Kc|]; split; [exact Hn|]; exists q; auto]).
      destruct B as [[Cl ->]|[Cl ->]]; (split; [exact SF|]).
      + right. split; [exact Kc|]. exists q. split; [left; reflexivity|exact Cl].
      + intros [[K _]|(_ & c & [I|[]] & F)]; [contradiction|]. apply Inj in I. cbn [fst] in I. subst c. exact (Cl F).
  Qed.

  Notation sts_of := (map (fun c : cell3 * R => (cell_vec (fst c), Some (snd c)))).
  Notation cells_of := (map (fun c : cell3 * R => cell_vec (fst c))).
  Lemma a_angle : pm_a M = pr_angle P.
  Proof. exact (ok_a _ _ _ _ _ _ _ _ _ _ OK). Qed.
  Lemma fst_sts (l : list (cell3 * R)) : map fst (sts_of l) = cells_of l.
  Proof. rewrite map_map. reflexivity. Qed.
  Lemma typed l e : well_typed 2 size model (sts_of l) (cell_vec e).
  Proof.
    split; [cbn; lia|]. split; [|split; [reflexivity|split]].
    - pose proof (ok_w _ _ _ _ _ _ _ _ _ _ OK). pose proof (ok_h _ _ _ _ _ _ _ _ _ _ OK). pose proof (ok_angle _ _ _ _ _ _ _ _ _ _ OK). rewrite a_angle. repeat constructor; lia.
    - apply Forall_forall. intros s Hs. apply in_map_iff in Hs as (c & <- & _). reflexivity.
    - intros p ss e' d Hd. cbn [model3 planner_model m_searchGrids] in Hd. destruct (grids_range _ _ _ _ _ _ _ _ _ _ local_range OK p ss e' d Hd) as (q & -> & [Q1 Q2] & _).
      split; [reflexivity|]. pose proof (ok_range _ _ _ _ _ _ _ _ _ _ OK). pose proof (ok_angle _ _ _ _ _ _ _ _ _ _ OK). assert (0 <= pr_range P)%Z by apply (ok_prim _ _ _ _ _ _ _ _ _ _ OK). repeat constructor; nia.
  Qed.
  Lemma canon_cell c w : (0 <= snd c < pm_a M)%Z -> canon unsigned_range 2 (cell_vec c) size w <-> w = cell_vec c.
  Proof. intros Hc. unfold cell_vec. rewrite canon3 by exact a_pos. rewrite Z.mod_small by exact Hc. reflexivity. Qed.
  Lemma wrapped_same l : (forall c k, In (c, k) l -> (0 <= snd c < pm_a M)%Z) -> forall ss, wrapped_starts 2 size (sts_of l) ss <-> ss = sts_of l.
  Proof.
    induction l as [|[c k] l IH]; intros Hl ss; cbn [map].
    - split; [intros H; inversion H; reflexivity|intros ->; constructor].
    - assert (Hl' : forall c k, In (c, k) l -> (0 <= snd c < pm_a M)%Z) by (intros c' k' H; apply (Hl c' k'); right; exact H). assert (Hc : (0 <= snd c < pm_a M)%Z) by (apply (Hl c k); left; reflexivity). split.
      + intros H. inversion H as [|? [v x] ? ss' [H1 H2] H3]; subst. cbn [fst snd] in H1, H2. apply (canon_cell c v Hc) in H1. apply (IH Hl') in H3. subst. reflexivity.
      + intros ->. constructor; [split; [apply canon_cell; [exact Hc|reflexivity]|reflexivity]|]. apply (IH Hl'). reflexivity.
  Qed.
  Lemma last_in {A} (l : list A) d : l <> [] -> In (last l d) l.
  Proof. induction l as [|a [|b l] IH]; intros H; [congruence|left; reflexivity|right; apply IH; discriminate]. Qed.
  Lemma linked_legal ss e l : (exists s, hd_error l = Some s /\ valid size s) -> linked (move KR 2 size model ss e) l <-> linked (legal (map fst ss)) l.
  Proof.
    intros (s & Hs & Vs). split.
    - apply (linked_impl _ _ (valid size)).
      + intros a b Va Hm. split; [|apply Hm]. apply (C81_moves_are_the_legal_steps S G P M computed gres ires page_dist cm cm_hyst hyst est local_range OK ss e a b Va). exact Hm.
      + intros a Ha. congruence.
    - apply (linked_impl _ _ (valid size)).
      + intros a b Va Hm. apply (C81_moves_are_the_legal_steps S G P M computed gres ires page_dist cm cm_hyst hyst est local_range OK ss e a b Va) in Hm. split; [exact Hm|apply Hm].
      + intros a Ha. congruence.
  Qed.
  Lemma legal_free ss a b : legal ss a b -> forall p, swept cache (pr_angle P) (map3 M cm) a b p -> free (map3 M cm) p.
  Proof. intros (m & _ & _ & _ & _ & _ & H & _). exact H. Qed.

  (** The published poses. *)
  Lemma metric_centred v p : peq p (lift v) -> centred M (metric_pose M p) v.
  Proof.
    intros (X & Y & T). unfold metric_pose, grid2MetricF, exact, centred. cbn [p_x p_y p_yaw]. unfold lift in *. cbn [px py pt] in X, Y, T.
    rewrite (Qeq_eqR _ _ X), (Qeq_eqR _ _ Y), (Qeq_eqR _ _ T). unfold Q2R, inject_Z. cbn [Qnum Qden].
    assert (E : forall z, IZR z * / IZR (Zpos 1) = IZR z) by (intros; field). rewrite !E. repeat split; ring.
  Qed.
  Lemma visits_passes vs r : visits vs r -> passes M vs (map (metric_pose M) r).
  Proof. induction 1; cbn [map]; [constructor|apply p_take; [apply metric_centred; assumption|assumption]|apply p_skip; assumption]. Qed.
  Lemma half_cell x z : (Qabs (x - inject_Z z) <= 1 # 2)%Q -> Rabs (Q2R x - IZR z) <= 1 / 2.
  Proof.
    intros H. apply Qabs_Qle_condition in H as [H1 H2]. apply Qle_Rle in H1, H2. rewrite Q2R_minus in H1, H2. rewrite Q2R_opp in H1.
    assert (E : Q2R (inject_Z z) = IZR z) by (unfold Q2R, inject_Z; cbn [Qnum Qden]; field). assert (E2 : Q2R (1 # 2) = 1 / 2) by (unfold Q2R; cbn [Qnum Qden]; lra). rewrite E in H1, H2. rewrite E2 in H1, H2. apply Rabs_le. lra.
  Qed.
  Lemma metric_touches p v : (0 <= vt v < pm_a M)%Z -> Motion3DSpec.in_cell (pm_a M) p v -> touches M (metric_pose M p) (vec_cell v).
  Proof.
    intros Hv (X & Y & n & T & En). apply half_cell in X, Y, T. pose proof res_pos as Rp. pose proof info_ang_pos as Ap. unfold metric_pose, grid2MetricF, exact, touches, vec_cell, in_sector. cbn [p_x p_y p_yaw fst snd].
    assert (F : forall g z o r, 0 < r -> Rabs (g - IZR z) <= 1 / 2 -> Rabs ((g + 1 / 2) * r + o - (o + (IZR z + 1 / 2) * r)) <= r / 2).
    { intros g z o r Hr H. replace ((g + 1 / 2) * r + o - (o + (IZR z + 1 / 2) * r)) with ((g - IZR z) * r) by ring. rewrite Rabs_mult, (Rabs_pos_eq r) by lra. nra. }
    split; [apply F; assumption|]. split; [apply F; assumption|]. exists (n / pm_a M)%Z.
    replace (vt v + n / pm_a M * pm_a M)%Z with n by (rewrite En; pose proof (Z.div_mod n (pm_a M) ltac:(lia)); lia).
    replace (Q2R (pt p) * mi_ang (pm_info M) - IZR n * mi_ang (pm_info M)) with ((Q2R (pt p) - IZR n) * mi_ang (pm_info M)) by ring. rewrite Rabs_mult, (Rabs_pos_eq (mi_ang _)) by lra. nra.
  Qed.
  Lemma published ss cells found kept res : publish P M computed gres ires found kept cells = Ok res ->
    cells <> [] -> Forall (valid size) cells -> linked (legal ss) cells ->
    exists new, res = Some (Planned found cells (kept ++ new)) /\ passes M cells new /\ (exists new' q, new = new' ++ [q] /\ centred M q (last cells [])) /\
      ((2 <= length cells)%nat \/ (forall v, cells = [v] -> (cm (vec_cell v) < 100)%Z) -> forall q, In q new -> exists c, inside_map M c /\ (cm c < 100)%Z /\ touches M q c).
  Proof.
    intros E Hn HV HL. unfold publish in E. destruct (interpolatePath cache (pr_angle P) cells) as [r|] eqn:Er; [|discriminate]. cbn [bind] in E. injection E as <-.
    exists (map (metric_pose M) r). split; [reflexivity|]. pose proof (ok_prim _ _ _ _ _ _ _ _ _ _ OK) as Sn. pose proof (ok_gres _ _ _ _ _ _ _ _ _ _ OK) as Gr. pose proof (ok_samples _ _ _ _ _ _ _ _ _ _ OK) as Fa.
    pose proof a_angle as EA. pose proof a_pos as Ap.
    split; [|split].
    - destruct (C19_interpolation_keeps_waypoints cache (pr_angle P) cells) as (r' & Er' & V); [lia|apply (C19_cache_starts_at_origin P Sn gres ires Gr computed Fa)| |].
      + eapply Forall_impl; [|exact HV]. intros v Hv. apply valid3 in Hv. rewrite EA in Hv. tauto.
      + rewrite Er in Er'. injection Er' as <-. apply visits_passes. exact V.
    - destruct cells as [|v rest]; [congruence|]. destruct (C19_interpolation_ends_at_last _ _ _ _ _ Er) as [r' ->]. rewrite map_app. cbn [map]. exists (map (metric_pose M) r'), (metric_pose M (lift (last (v :: rest) v))).
      split; [reflexivity|]. replace (last (v :: rest) []) with (last (v :: rest) v); [apply metric_centred; repeat split; reflexivity|].
      clear. revert v. generalize (@nil Z) as d. induction rest as [|w rest IH]; intros d v; [reflexivity|]. cbn [last]. destruct rest; [reflexivity|]. specialize (IH d v). cbn [last] in IH. exact IH.
    - intros Hc q Hq. apply in_map_iff in Hq as (p & <- & Hp).
      destruct cells as [|v [|w rest]]; [congruence| |].
      + cbn [interpolatePath interp_loop] in Er. injection Er as <-. destruct Hp as [<-|[]]. inversion HV as [|? ? Vv _]; subst. apply valid3 in Vv as (_ & X & Y & T).
        destruct Hc as [Hc|Hc]; [cbn in Hc; lia|]. exists (vec_cell v). split; [unfold inside_map, vec_cell; cbn [fst snd]; auto|]. split; [apply Hc; reflexivity|].
        apply metric_touches; [exact T|]. unfold Motion3DSpec.in_cell, lift. cbn [px py pt].
        assert (Z0 : forall z, (Qabs (inject_Z z - inject_Z z) <= 1 # 2)%Q) by (intros z; setoid_replace (inject_Z z - inject_Z z)%Q with 0%Q by ring; discriminate).
        split; [apply Z0|]. split; [apply Z0|]. exists (vt v). split; [apply Z0|]. symmetry. apply Z.mod_small. exact T.
      + destruct (C09_published_poses_lie_in_free_cells cache (map3 M cm) (v :: w :: rest) r) with (p := p) as (c & (X & Y & T & F) & Ic); cbn [map3 cm_a cm_w cm_h].
        * exact Ap.
        * rewrite EA. apply (C09_cache_covers_its_poses P gres ires computed).
        * rewrite EA. eapply (linked_impl _ _ (fun _ => True)); [|auto|exact HL]. intros a b _ H. split; [|exact I]. intros p0 Hp0. eapply legal_free; [exact H|]. exact Hp0.
        * exact HV.
        * cbn [length]. lia.
        * rewrite EA. exact Er.
        * exact Hp.
        * cbn [map3 cm_w cm_h cm_a cm_at] in *. exists (vec_cell c). split; [unfold inside_map, vec_cell; cbn [fst snd]; auto|]. split; [lia|]. apply metric_touches; assumption.
  Qed.

  Lemma vec_cell_vec c : vec_cell (cell_vec c) = c.
  Proof. destruct c as [[x y] t]. reflexivity. Qed.
  Lemma estim_estimate v e h : (0 <= vt v < pr_angle P)%Z -> (0 <= vt e < pr_angle P)%Z -> estim3 G P est v e = Some h -> estimate v e h.
  Proof.
    intros Hv He. unfold estim3. destruct (est (vx v) (vy v)) as [c|] eqn:Ec; [|discriminate]. intros E. apply (f_equal (fun o => match o with Some x => x | None => 0 end)) in E. subst h.
    exists c, (yaw_diff P (vt v) (vt e)). split; [exact Ec|]. unfold yaw_diff. destruct (pr_angle P / 2 <? vt v - vt e)%Z eqn:E1; [|destruct (vt v - vt e <? - (pr_angle P / 2))%Z eqn:E2].
    - split; [exists (-1)%Z; lia|]. split; [lia|reflexivity].
    - split; [exists 1%Z; lia|]. split; [lia|reflexivity].
    - split; [exists 0%Z; lia|]. split; [lia|reflexivity].
  Qed.
  Lemma stop_estimate cl ss e v : (0 <= vt v < pr_angle P)%Z -> (0 <= vt e < pr_angle P)%Z -> stop_ok KR model (Some cl) ss e v ->
    v = e \/ exists h, estimate v e h /\ (h < cl \/ In v (map fst ss) /\ h < cl + 1).
  Proof.
    intros Hv He [H|[(c & H)|(c & ce & Hi & Hce & H)]]; [left; exact H|right..]; cbn [model3 planner_model m_costEstim] in *.
    - destruct (estim3 G P est v e) as [h|] eqn:Eh; [|destruct c; discriminate H]. destruct c as [c|]; [|discriminate H]. exists h. split; [apply estim_estimate; assumption|]. left.
      cbn [KR fltb fsub fadd radd rsub rltb] in H. unfold rb in H. destruct (Rlt_dec _ _); [lra|discriminate].
    - destruct (estim3 G P est v e) as [h|] eqn:Eh; [|discriminate Hce]. exists h. split; [apply estim_estimate; assumption|]. right. split; [apply in_map_iff; exists (v, c); auto|].
      cbn [KR ftrunc rtrunc] in Hce. destruct (_ && _)%bool; [|discriminate Hce]. injection Hce as <-. destruct c as [c|]; [|discriminate H].
      cbn [KR fltb fsub fadd radd rsub rltb] in H. unfold rb in H. destruct (Rlt_dec _ _) as [L|]; [|discriminate]. clear H.
      unfold rtruncZ in L. destruct (Rle_dec 0 h) as [Hh|Hh].
      + destruct (base_Int_part h) as [_ B]. lra.
      + destruct (base_Int_part (- h)) as [B _]. rewrite opp_IZR in L. lra.
  Qed.

  (** The planner is defined and ends: the robot is in range, the goal in the map, the previous path in the map (C62), and the cells the plan may start from
      are in the map and have an estimate that fits an int. *)
  Definition answerable : Prop :=
    (exists x y, int32 x /\ int32 y /\ GridMetricProps.in_cell (pm_info M) x y (p_x robot) (p_y robot)) /\
    (exists x y, (0 <= x < pm_w M)%Z /\ (0 <= y < pm_h M)%Z /\ GridMetricProps.in_cell (pm_info M) x y (p_x goal) (p_y goal)) /\
    (StartPoses.keep S = false \/ previous = [] \/ exists r, process C M cm robot previous = Ok r) /\
    (forall s ss v, pose_in_cell M robot s -> starts_from s ss -> In v ss -> valid size v /\ exists c, est (vx v) (vy v) = Some c /\ c + ec2 G * IZR (pr_angle P) < IZR (2 ^ 31)).
  Theorem C81_the_planner_answers : answerable ->
    exists fuel0, forall escaping continuous find_best fuel O ntask limit, (fuel0 <= fuel)%nat -> fair_sched O ->
      exists r, makePlan S G P M computed gres ires page_dist cm cm_hyst hyst est local_range C racc tol_range tol_angle escaping continuous find_best fuel O ntask limit robot goal previous = Ok (Some r).
  Proof.
    intros ((rx & ry & R1 & R2 & R3) & (gx & gy & G1 & G2 & G3) & Hp & Hs).
    pose proof (ok_w _ _ _ _ _ _ _ _ _ _ OK) as Bw. pose proof (ok_h _ _ _ _ _ _ _ _ _ _ OK) as Bh.
    assert (I1 : int32 gx) by (unfold int32; lia). assert (I2 : int32 gy) by (unfold int32; lia).
    destruct (pose_cell_def M robot ((rx, ry), 0)%Z res_pos a_pos R1 R2 R3) as (ts & Es & _). destruct (pose_cell_def M goal ((gx, gy), 0)%Z res_pos a_pos I1 I2 G3) as (te & Ee & Te).
    cbn [fst snd] in Es, Ee. set (s := ((rx, ry), ts)) in *. set (e := ((gx, gy), te)) in *.
    pose proof (pose_cell_ok M robot s res_pos info_ang_pos a_pos Es) as Ps.
    destruct (C63_defined S C M cm search_pos robot goal previous res_pos info_ang_pos a_pos margin_nonneg ec0_nonneg Ht rx ry gx gy R1 R2 I1 I2 R3 G3 Hp) as [[st l] Eb].
    { intros s'. destruct (search_pos_spec s') as (q & Eq & _). eauto. }
    destruct (build_starts s e st l Es Ee Eb) as (Nd & Hl & _ & B).
    assert (Hle : forall c k, In (c, k) l -> (0 <= snd c < pm_a M)%Z) by (intros c k H; apply (Hl c k H)).
    assert (Hneg : Forall (fun s => fleb KR (fzero KR) (snd s) = true) (sts_of l)).
    { apply Forall_forall. intros x Hx. apply in_map_iff in Hx as ([c k] & <- & Hc). cbn [snd KR fleb fzero rleb]. unfold rb. destruct (Rle_dec 0 k); [reflexivity|]. destruct (Hl c k Hc). lra. }
    assert (Hest : forall c k, In (c, k) l -> valid size (cell_vec c) /\ exists x, est (vx (cell_vec c)) (vy (cell_vec c)) = Some x /\ x + ec2 G * IZR (pr_angle P) < IZR (2 ^ 31)).
    { intros c k H. destruct st; [destruct B as [-> _]; destruct H|..]; (apply (Hs s (cells_of l)); [exact Ps|apply B|apply in_map_iff; exists (c, k); auto]). }
    destruct (C08_search_terminates KR KR_laws 2 size model (sts_of l) (cell_vec e) (typed l e) Hneg) as [fuel0 HF].
    { intros ss Hss. apply (wrapped_same l Hle) in Hss. subst ss. rewrite fst_sts. rewrite <- (map_map fst cell_vec). apply FinFun.Injective_map_NoDup; [|exact Nd].
      intros [[x y] t] [[x' y'] t'] H. unfold cell_vec in H. cbn [fst snd] in H. injection H as -> -> ->. reflexivity. }
    exists fuel0. intros escaping continuous find_best fuel O ntask limit Hfu HO. unfold makePlan. rewrite Es. cbn [bind]. rewrite Ee. cbn [bind]. rewrite Eb. cbn [bind].
    assert (Pub : forall ok kept cells, exists r, publish P M computed gres ires ok kept cells = Ok (Some r)).
    { intros ok kept cells. unfold publish. assert (X : exists r, interpolatePath cache (pr_angle P) cells = Ok r).
      { destruct cells as [|v rest]; [eexists; reflexivity|]. apply interp_total. rewrite <- a_angle. exact a_pos. }
      destruct X as [r ->]. cbn [bind]. eexists. reflexivity. }
    assert (Core : exists r,
       match est (fst (fst s)) (snd (fst s)) with
       | None => Ok (Some Unreachable)
       | Some est0 =>
           do ce <- read_cm M cm e;
           if (100 <=? ce)%Z then Ok (Some Unreachable)
           else
             do kept <- preserved S M cm C robot previous;
             if existsb (fun c : cell3 * R => if vec_dec (cell_vec (fst c)) (cell_vec e) then true else false) l
             then publish P M computed gres ires true kept [cell_vec e]
             else
               match search KR 2 size model fuel O ntask limit (Some (est0 - IZR (local_range + margin S) * ec0 S)) (sts_of l) (cell_vec e) find_best with
               | SUB => UB
               | SFuel => Ok None
               | SDone ok ab cells => if ok || find_best then publish P M computed gres ires ok kept cells else Ok (Some (NotFound ab))
               end
       end = Ok (Some r)).
    { destruct (est (fst (fst s)) (snd (fst s))) as [est0|]; [|eexists; reflexivity]. unfold read_cm. replace (cell_inside M e) with true by (unfold cell_inside, e; cbn [fst snd]; lia). cbn [bind].
      destruct (100 <=? cm e)%Z; [eexists; reflexivity|].
      assert (Kp : exists kept, preserved S M cm C robot previous = Ok kept).
      { unfold preserved. destruct (StartPoses.keep S) eqn:Ek; [|eexists; reflexivity]. destruct previous as [|p pv]; [eexists; reflexivity|]. cbn [andb negb].
        destruct Hp as [Hp|[Hp|[r Hp]]]; [discriminate|discriminate|]. rewrite Hp. eexists. reflexivity. }
      destruct Kp as [kept ->]. cbn [bind]. destruct (existsb _ l); [apply Pub|].
      set (cl := Some (est0 - _)). specialize (HF fuel O ntask limit cl find_best Hfu HO).
      assert (NU : search KR 2 size model fuel O ntask limit cl (sts_of l) (cell_vec e) find_best <> SUB).
      { apply (C06_no_undefined_behaviour KR KR_laws 2 size model fuel O ntask limit cl (sts_of l) (cell_vec e) find_best (typed l e) HO Hneg).
        intros x s' e' Hx Hc He'. apply in_map_iff in Hx as ([c k] & <- & Hi). cbn [fst] in Hc. apply (canon_cell c s' (Hle c k Hi)) in Hc. subst s'.
        assert (Te' : (0 <= snd e < pm_a M)%Z) by (unfold e; cbn [snd]; lia). apply (canon_cell e e' Te') in He'. subst e'. destruct (Hest c k Hi) as [V (h & Eh & Hh)]. split; [exact V|].
        cbn [model3 planner_model m_costEstim KR ftrunc]. unfold estim3. rewrite Eh. cbn [rtrunc].
        assert (Y1 : (Z.abs (yaw_diff P (vt (cell_vec c)) (vt (cell_vec e))) <= pr_angle P)%Z).
        { apply valid3 in V as (_ & _ & _ & V). rewrite a_angle in V, Te'. change (vt (cell_vec e)) with (snd e). unfold yaw_diff. cbv zeta. destruct (_ <? _)%Z eqn:D1; [lia|]. destruct (_ <? - _)%Z eqn:D2; lia. }
        pose proof (ok_est _ _ _ _ _ _ _ _ _ _ OK _ _ _ Eh) as H0. pose proof (ok_ec2 _ _ _ _ _ _ _ _ _ _ OK) as H2. apply IZR_le in Y1. assert (Y0 : 0 <= IZR (Z.abs (yaw_diff P (vt (cell_vec c)) (vt (cell_vec e))))) by (apply IZR_le; lia).
        set (x := h + _). assert (X0 : 0 <= x < IZR (2 ^ 31)).
        { unfold x. assert (0 <= ec2 G * IZR (Z.abs (yaw_diff P (vt (cell_vec c)) (vt (cell_vec e)))) <= ec2 G * IZR (pr_angle P)) by (split; [apply Rmult_le_pos; assumption|apply Rmult_le_compat_l; assumption]). lra. }
        assert (TZ : (0 <= rtruncZ x < 2 ^ 31)%Z).
        { unfold rtruncZ. destruct (Rle_dec 0 x); [|lra]. destruct (base_Int_part x) as [A1 A2]. split; [|apply lt_IZR; lra]. assert (-1 < IZR (Int_part x)) by lra. apply lt_IZR in H. lia. }
        replace ((- 2 ^ 31 <=? rtruncZ x) && (rtruncZ x <? 2 ^ 31))%Z%bool with true by lia. eexists. reflexivity. }
      destruct (search _ _ _ _ _ _ _ _ _ _ _ _) as [ok ab cells| |]; [|congruence|congruence].
      destruct (ok || find_best)%bool; [apply Pub|eexists; reflexivity]. }
    destruct st; [eexists; reflexivity| |]; cbn [andb]; [|exact Core]. destruct escaping; [eexists; reflexivity|]. destruct continuous; cbn [negb]; [exact Core|eexists; reflexivity].
  Qed.

  Variables (escaping continuous find_best : bool) (fuel : nat) (O : @oracle (option R)) (ntask limit : nat).
  Notation plan := (makePlan S G P M computed gres ires page_dist cm cm_hyst hyst est local_range C racc tol_range tol_angle escaping continuous find_best fuel O ntask limit robot goal previous).
  Definition unlimited : Prop := limit = 0%nat /\ (1 <= ntask)%nat /\ forall n, o_abort O n = false.

  (** C81: what each answer of the planner means. *)
  Theorem C81_what_the_planner_answers r : fair_sched O -> plan = Ok (Some r) ->
    exists s e, pose_in_cell M robot s /\ pose_in_cell M goal e /\
      match r with
      | InRock => forall ss, ~ starts_from s ss
      | Escaped => escaping = true /\ exists ss, starts_from s ss /\ finishing s ss e
      | Finishing => escaping = false /\ continuous = false /\ exists ss, starts_from s ss /\ finishing s ss e
      | Unreachable => est (fst (fst s)) (snd (fst s)) = None \/ (100 <= cm e)%Z
      | NotFound ab => find_best = false /\ exists ss, starts_from s ss /\ (finishing s ss e -> escaping = false /\ continuous = true) /\
          (unlimited -> forall l, ~ way (legal ss) ss (cell_vec e) l)
      | Planned found cells path => inside_map M e /\ (cm e < 100)%Z /\
          exists ss est0 kept new, est (fst (fst s)) (snd (fst s)) = Some est0 /\
            starts_from s ss /\ (finishing s ss e -> escaping = false /\ continuous = true) /\
            path = kept ++ new /\ (continues -> exists v, ss = [v] /\ kept_of M cm C robot previous v kept) /\ (~ continues -> kept = []) /\
            (exists v, In v ss /\ hd_error cells = Some v) /\ linked (legal ss) cells /\ NoDup cells /\ Forall (valid size) cells /\
            passes M cells new /\ (exists new' q, new = new' ++ [q] /\ centred M q (last cells [])) /\
            (~ continues \/ (2 <= length cells)%nat \/ cells = [cell_vec e] -> forall q, In q new -> exists c, inside_map M c /\ (cm c < 100)%Z /\ touches M q c) /\
            if found then
              last cells [] = cell_vec e \/
              exists h, estimate (last cells []) (cell_vec e) h /\
                (h < est0 - IZR (local_range + pr_range P) * ec0 S \/ In (last cells []) ss /\ h < est0 - IZR (local_range + pr_range P) * ec0 S + 1)
            else find_best = true /\ (unlimited -> forall l, ~ way (legal ss) ss (cell_vec e) l)
      end.
  Proof.
    intros HO E. unfold makePlan in E. destruct (pose_cell M robot) as [s|] eqn:Es; [|discriminate]. cbn [bind] in E.
    destruct (pose_cell M goal) as [e|] eqn:Ee; [|discriminate]. cbn [bind] in E.
    pose proof (pose_cell_ok M robot s res_pos info_ang_pos a_pos Es) as Ps. pose proof (pose_cell_ok M goal e res_pos info_ang_pos a_pos Ee) as Pe.
    exists s, e. split; [exact Ps|]. split; [exact Pe|]. pose proof Pe as (_ & Te & _).
    destruct (buildStartPoses S C M cm search_pos robot goal previous) as [[st l]|] eqn:Eb; [|discriminate]. cbn [bind] in E.
    destruct (build_starts s e st l Es Ee Eb) as (Nd & Hl & Hfree & B).
    assert (E' : (st = START_OCCUPIED /\ r = InRock) \/ (st = FINISHING /\ escaping = true /\ r = Escaped) \/ (st = FINISHING /\ escaping = false /\ continuous = false /\ r = Finishing) \/
      (st <> START_OCCUPIED /\ (st = FINISHING -> escaping = false /\ continuous = true) /\
       match est (fst (fst s)) (snd (fst s)) with
       | None => Ok (Some Unreachable)
       | Some est0 =>
           do ce <- read_cm M cm e;
           if (100 <=? ce)%Z then Ok (Some Unreachable)
           else
             do kept <- preserved S M cm C robot previous;
             if existsb (fun c : cell3 * R => if vec_dec (cell_vec (fst c)) (cell_vec e) then true else false) l
             then publish P M computed gres ires true kept [cell_vec e]
             else
               match search KR 2 size model fuel O ntask limit (Some (est0 - IZR (local_range + margin S) * ec0 S)) (sts_of l) (cell_vec e) find_best with
               | SUB => UB
               | SFuel => Ok None
               | SDone ok ab cells => if ok || find_best then publish P M computed gres ires ok kept cells else Ok (Some (NotFound ab))
               end
       end = Ok (Some r))).
    { destruct st; [left; injection E as <-; auto| |].
      - right. cbn [andb] in E. destruct escaping; [left; injection E as <-; auto|]. cbn [andb] in E. destruct continuous; cbn [negb] in E; [|right; left; injection E as <-; auto].
        right. right. split; [discriminate|]. split; [auto|]. exact E.
      - right. right. right. cbn [andb] in E. split; [discriminate|]. split; [discriminate|]. exact E. }
    clear E. destruct E' as [(-> & ->)|[(-> & He1 & ->)|[(-> & He1 & He2 & ->)|(Hst & Hfin & E)]]].
    { apply B. } { split; [exact He1|]. eexists. exact B. } { split; [exact He1|]. split; [exact He2|]. eexists. exact B. }
    set (ss := cells_of l) in *.
    assert (SF : starts_from s ss) by (destruct st; [congruence|apply B..]).
    assert (FI : finishing s ss e -> escaping = false /\ continuous = true) by (destruct st; [congruence|intros _; apply Hfin; reflexivity|intros F; destruct B as [_ B]; contradiction]).
    clear B Hfin. destruct (est (fst (fst s)) (snd (fst s))) as [est0|] eqn:Eest; [|injection E as <-; left; reflexivity].
    unfold read_cm in E. destruct (cell_inside M e) eqn:Ei; [|discriminate]. cbn [bind] in E.
    assert (Ie : inside_map M e) by (unfold cell_inside in Ei; unfold inside_map; lia).
    destruct (100 <=? cm e)%Z eqn:Ec; [injection E as <-; right; lia|].
    destruct (preserved S M cm C robot previous) as [kept|] eqn:Ek; [|discriminate]. cbn [bind] in E.
    assert (Kc : (continues -> exists v, ss = [v] /\ kept_of M cm C robot previous v kept) /\ (~ continues -> kept = [])).
    { destruct SF as [_ SF]. unfold preserved in Ek. split.
      - intros Hc. destruct SF as [[_ (r0 & Er & Ess)]|[[N _]|[N _]]]; [|contradiction..]. pose proof Hc as [Hk Hp]. rewrite Hk in Ek. destruct previous as [|p0 pv] eqn:Epv; [congruence|].
        cbn [andb negb] in Ek. rewrite Er in Ek. cbn [bind] in Ek. injection Ek as <-. rewrite Ess. eexists. split; [reflexivity|].
        destruct (C62_preserved_path_is_a_free_stretch_of_the_previous_path C M cm robot res_pos info_ang_pos a_pos _ r0 Er) as (passed & p & rest & H1 & H2 & _ & H3).
        exists passed, p, rest, (st_cell r0). auto.
      - intros Hc. unfold Plan3DProps.continues in Hc. destruct (StartPoses.keep S); cbn [andb] in Ek; [|injection Ek as <-; reflexivity]. destruct previous; cbn [negb] in Ek; [injection Ek as <-; reflexivity|].
        exfalso. apply Hc. split; [reflexivity|discriminate]. }
    assert (Hle : forall c k, In (c, k) l -> (0 <= snd c < pm_a M)%Z) by (intros c k H; apply (Hl c k H)).
    assert (Hneg : Forall (fun s => fleb KR (fzero KR) (snd s) = true) (sts_of l)).
    { apply Forall_forall. intros x Hx. apply in_map_iff in Hx as ([c k] & <- & Hc). cbn [snd KR fleb fzero rleb]. unfold rb. destruct (Rle_dec 0 k); [reflexivity|]. destruct (Hl c k Hc). lra. }
    assert (Ne0 : l <> []).
    { intros Z0. destruct SF as [_ SF]. unfold ss in SF. rewrite Z0 in SF. destruct SF as [[_ (r0 & _ & Q)]|[(_ & (c & Sc) & Q)|(_ & _ & q & _ & Q)]]; [discriminate Q| |discriminate Q]. assert (I0 : In (cell_vec c) (map (fun c : cell3 * R => cell_vec (fst c)) [])) by (apply Q; eauto). destruct I0. }
    assert (Ve : valid size (cell_vec e)) by (apply valid_vec; unfold inside_map in Ie; tauto).
    destruct (existsb _ l) eqn:Ex.
    { apply existsb_exists in Ex as ([c k] & Hc & Hv). cbn [fst] in Hv. destruct (vec_dec _ _) as [Hv'|]; [|discriminate]. clear Hv.
      destruct (published ss [cell_vec e] true kept _ E) as (new & Er & H1 & H2 & H3); [discriminate|constructor; [exact Ve|constructor]|exact I|].
      apply (f_equal (fun o => match o with Some x => x | None => InRock end)) in Er. subst r. split; [exact Ie|]. split; [lia|]. exists ss, est0, kept, new. split; [reflexivity|]. split; [exact SF|]. split; [exact FI|]. split; [reflexivity|]. split; [apply Kc|]. split; [apply Kc|].
      split. { exists (cell_vec e). split; [|reflexivity]. unfold ss. rewrite <- Hv'. apply in_map_iff. exists (c, k). auto. }
      split; [exact I|]. split; [apply NoDup_cons; [intros []|apply NoDup_nil]|]. split; [constructor; [exact Ve|constructor]|]. split; [exact H1|]. split; [exact H2|]. split.
      { intros _. apply H3. right. intros v Hv. injection Hv as <-. rewrite vec_cell_vec. lia. }
      left. reflexivity. }
    assert (Nes : forall x, ~ In (cell_vec e, x) (sts_of l)).
    { intros x Hx. apply in_map_iff in Hx as ([c k] & Hc & Hi). apply (f_equal fst) in Hc. cbn [fst] in Hc. assert (T : existsb (fun c : cell3 * R => if vec_dec (cell_vec (fst c)) (cell_vec e) then true else false) l = true).
      { apply existsb_exists. exists (c, k). split; [exact Hi|]. cbn [fst]. destruct (vec_dec _ _) as [_|N]; [reflexivity|]. destruct (N Hc). } congruence. }
    destruct (search _ _ _ _ _ _ _ _ _ _ _ _) as [ok ab cells| |] eqn:Esr; [|discriminate|discriminate].
    (* no way, when the search fails *)
    assert (NW : ok = false -> unlimited -> forall way_, ~ way (legal ss) ss (cell_vec e) way_).
    { intros -> (L0 & Nt & Na) w [(v & Hv & Hh & Hla) HL]. rewrite L0 in Esr.
      apply in_map_iff in Hv as ([c k] & Hv & Hi).
      assert (IS : In (v, Some k) (sts_of l)) by (apply in_map_iff; exists (c, k); cbn [fst snd] in *; subst v; auto).
      apply (C08_failure_means_unreachable KR KR_laws KR_exact 2 size model (sts_of l) (cell_vec e) fuel O ntask (Some (est0 - IZR (local_range + margin S) * ec0 S)) find_best ab cells (typed l e) HO Nt Na) with (ss := sts_of l) (e := cell_vec e) (s := v) (c := Some k) (l := w).
      - apply Forall_forall. intros x Hx. split; [exact (proj1 (Forall_forall _ _) Hneg x Hx)|]. apply in_map_iff in Hx as ([c' k'] & <- & _). reflexivity.
      - apply Forall_forall. intros [x y] Hx Hxe. cbn [fst] in Hxe. subst x. exact (Nes y Hx).
      - exact Esr.
      - apply wrapped_same; [exact Hle|reflexivity].
      - apply canon_cell; [exact Te|reflexivity].
      - split; [exact IS|]. split; [exact Hh|]. split; [exact Hla|].
        (* the first cell is in the map: it is free or the goal *)
        destruct w as [|v' w]; [discriminate Hh|]. injection Hh as ->. destruct w as [|v2 w]; [exact I|].
        apply linked_legal; [|rewrite fst_sts; exact HL]. exists v. split; [reflexivity|]. destruct HL as [HL _]. pose proof (legal_free _ _ _ HL _ (sw_start _ _ _ _ _)) as (X & Y & T & _).
        cbn [fst] in Hv. subst v. apply valid_vec. exact (conj X (conj Y T)). }
    destruct (ok || find_best)%bool eqn:Eof.
    2:{ injection E as <-. apply Bool.orb_false_iff in Eof as [-> Hfb]. split; [exact Hfb|]. exists ss. split; [exact SF|]. split; [exact FI|]. exact (NW eq_refl). }
    assert (Hok : ok = true \/ find_best = true /\ cells <> []).
    { destruct ok; [left; reflexivity|right]. cbn [orb] in Eof. split; [exact Eof|]. rewrite Eof in Esr. eapply search_nonempty; [|exact Nes|exact Esr]. destruct l; [congruence|discriminate]. }
    assert (Hok' : ok = true \/ cells <> []) by tauto.
    destruct (search_sound KR 2 size model KR_laws _ _ _ _ _ _ _ _ _ _ _ (typed l e) HO Hneg Esr Hok') as (ss' & e' & W1 & W2 & ((v & k & W3 & W4) & W5 & W6) & W7).
    destruct (search_starts_valid KR 2 size model _ _ _ _ _ _ _ _ _ _ _ (typed l e) Esr Hok') as (ss2 & V1 & V2).
    apply (wrapped_same l Hle) in W1. apply (wrapped_same l Hle) in V1. subst ss' ss2. apply (canon_cell e e' Te) in W2. subst e'.
    assert (Vv : valid size v) by (eapply V2; exact W3).
    assert (W5' : linked (legal ss) cells) by (unfold ss; rewrite <- (fst_sts l); eapply linked_legal; [|exact W5]; exists v; split; [exact W4|exact Vv]).
    assert (HV : Forall (valid size) cells).
    { eapply linked_pts; [|intros x Hx; pose proof (eq_trans (eq_sym W4) Hx) as Q; injection Q as <-; exact Vv|exact W5]. intros a b _ Hm. apply Hm. }
    assert (Nc : cells <> []) by (destruct cells; [discriminate W4|discriminate]).
    destruct (published ss cells ok kept _ E Nc HV W5') as (new & Er & H1 & H2 & H3).
    apply (f_equal (fun o => match o with Some x => x | None => InRock end)) in Er. subst r. split; [exact Ie|]. split; [lia|].
    exists ss, est0, kept, new. split; [reflexivity|]. split; [exact SF|]. split; [exact FI|]. split; [reflexivity|]. split; [apply Kc|]. split; [apply Kc|].
    assert (Iv : In v ss) by (unfold ss; rewrite <- (fst_sts l); apply in_map_iff; exists (v, k); auto).
    split; [exists v; auto|]. split; [exact W5'|]. split; [exact W6|]. split; [exact HV|]. split; [exact H1|]. split; [exact H2|]. split.
    { intros Hc. apply H3. destruct Hc as [Hc|[Hc|Hc]]; [right|left; exact Hc|right].
      - intros x Hx. rewrite Hx in W4. injection W4 as ->. apply in_map_iff in Iv as ([c k'] & <- & Hi). destruct (Hfree Hc c k' Hi) as [_ F]. cbn [fst]. rewrite vec_cell_vec. exact F.
      - intros x Hx. rewrite Hc in Hx. injection Hx as <-. rewrite vec_cell_vec. lia. }
    destruct ok; [|split; [exact Eof|exact (NW eq_refl)]].
    specialize (W7 eq_refl). assert (El : last cells (cell_vec e) = last cells []).
    { revert Nc. clear. induction cells as [|a [|b cells] IH]; intros N; [congruence|reflexivity|]. cbn [last] in *. apply IH. discriminate. }
    rewrite El in W7. assert (Vl : valid size (last cells [])) by (apply (proj1 (Forall_forall _ _) HV), last_in; exact Nc).
    rewrite (ok_margin _ _ _ _ _ _ _ _ _ _ OK) in W7. apply stop_estimate in W7; [|apply valid3 in Vl; rewrite a_angle in Vl; tauto|apply valid3 in Ve; rewrite a_angle in Ve; tauto].
    unfold ss. rewrite <- (fst_sts l). exact W7.
  Qed.

  (** Finding: only the cell of the robot is looked up in the distance map before the search, not the cells the plan starts from: with a start from which the
      goal is not reachable the estimate (FLT_MAX) is converted to an int. *)
  Lemma init_some {F} (K : cost_ops F) nc sz m en e : forall sts ssn g open best better x,
    init_starts K nc sz m sts en e ssn g open best better = Ok (Some x) ->
    forall v c, In (v, c) sts -> exists s' ce, cycleUnsigned nc v sz = Ok s' /\ ftrunc K (m_costEstim m s' e) = Ok ce.
  Proof.
    induction sts as [|[v c] sts IH]; intros ssn g open best better x; cbn [init_starts]; [intros _ v c []|].
    destruct (vec_dec v en); [discriminate|]. destruct (cycleUnsigned nc v sz) as [s'|] eqn:Ec; cbn [bind]; [|discriminate]. destruct (negb _); [discriminate|].
    destruct (ftrunc K _) as [ce|] eqn:Et; cbn [bind]; [|discriminate]. intros E v' c' [H|H]; [|eapply IH; [exact E|exact H]].
    injection H as <- <-. eauto.
  Qed.
  Theorem C81_start_without_estimate_is_undefined :
    (exists x y, int32 x /\ int32 y /\ GridMetricProps.in_cell (pm_info M) x y (p_x robot) (p_y robot)) ->
    (forall s, pose_in_cell M robot s -> exists ss, starts_from s ss) ->
    (forall s e ss, pose_in_cell M robot s -> pose_in_cell M goal e -> starts_from s ss ->
       est (fst (fst s)) (snd (fst s)) <> None /\ (cm e < 100)%Z /\ ~ finishing s ss e /\ ~ In (cell_vec e) ss /\ exists v, In v ss /\ est (vx v) (vy v) = None) ->
    plan = UB.
  Proof.
    intros (rx & ry & R1 & R2 & R3) H1 H2. destruct (pose_cell_def M robot ((rx, ry), 0)%Z res_pos a_pos R1 R2 R3) as (ts & Es & _). cbn [fst snd] in Es.
    assert (Es' : exists s : cell3, pose_cell M robot = Ok s) by (eexists; exact Es). clear Es ts. destruct Es' as [s Es].
    unfold makePlan. rewrite Es. cbn [bind]. destruct (pose_cell M goal) as [e|] eqn:Ee; [|reflexivity]. cbn [bind].
    pose proof (pose_cell_ok M robot s res_pos info_ang_pos a_pos Es) as Ps. pose proof (pose_cell_ok M goal e res_pos info_ang_pos a_pos Ee) as Pe. pose proof Pe as (_ & Te & _).
    destruct (buildStartPoses S C M cm search_pos robot goal previous) as [[st l]|] eqn:Eb; [|reflexivity]. cbn [bind].
    destruct (build_starts s e st l Es Ee Eb) as (_ & Hl & _ & B).
    destruct st.
    { exfalso. destruct (H1 s Ps) as [ss Hss]. exact (proj2 B ss Hss). }
    { exfalso. destruct B as [B F]. destruct (H2 s e _ Ps Pe B) as (_ & _ & N & _). exact (N F). }
    cbn [andb]. destruct B as [SF _]. destruct (H2 s e _ Ps Pe SF) as (N1 & N2 & _ & N3 & v & Hv & Ev).
    destruct (est (fst (fst s)) (snd (fst s))) as [est0|]; [|exact (False_ind _ (N1 eq_refl))]. unfold read_cm. destruct (cell_inside M e) eqn:Ei; [|reflexivity]. cbn [bind].
    replace (100 <=? cm e)%Z with false by lia. destruct (preserved S M cm C robot previous) as [kept|]; [|reflexivity]. cbn [bind].
    destruct (existsb _ l) eqn:Ex.
    { exfalso. apply existsb_exists in Ex as ([c k] & Hc & Hv'). destruct (vec_dec _ _) as [Q|]; [|discriminate]. apply N3. rewrite <- Q. apply (List.in_map (fun c => cell_vec (fst c)) l (c, k)). exact Hc. }
    apply in_map_iff in Hv as ([c k] & <- & Hc). cbn [fst] in Ev.
    assert (Cyc : forall c w, (0 <= snd c < pm_a M)%Z -> cycleUnsigned 2 (cell_vec c) size = Ok w -> w = cell_vec c).
    { intros c' w Hc' E. apply (canon_cell c' w Hc'). apply cycleUnsigned_iff; [reflexivity| |exact E]. intros i r Hi. destruct i as [|[|[|i]]]; [lia|lia| |]; cbn [nth_error]; intros Q; [|destruct i; discriminate Q].
      injection Q as <-. exact a_pos. }
    assert (X : forall x, init_starts KR 2 size model (sts_of l) (cell_vec e) (cell_vec e) [] (fun _ => fmax KR) [] None [] <> Ok x).
    { intros [x|] X.
      - destruct (init_some _ _ _ _ _ _ _ _ _ _ _ _ _ X (cell_vec c) (Some k)) as (s' & ce & E1 & E2); [apply in_map_iff; exists (c, k); auto|].
        apply (Cyc c s' (proj1 (Hl c k Hc))) in E1. subst s'. cbn [m_costEstim model3 planner_model] in E2. unfold estim3 in E2. rewrite Ev in E2. discriminate E2.
      - apply init_none in X as [k' X]. apply in_map_iff in X as ([c' k''] & Q & X). apply (f_equal fst) in Q. cbn [fst] in Q. apply N3. rewrite <- Q. apply (List.in_map (fun c => cell_vec (fst c)) l (c', k'')). exact X. }
    unfold search. destruct (sts_of l) as [|s0 sl] eqn:Esl. { destruct l; [destruct Hc|discriminate Esl]. }
    destruct (cycleUnsigned 2 (cell_vec e) size) as [e'|] eqn:Ce; [|reflexivity]. apply (Cyc e e' Te) in Ce. subst e'.
    destruct (init_starts _ _ _ _ _ _ _ _ _ _ _ _) as [x|]; [exact (False_ind _ (X x eq_refl))|reflexivity].
  Qed.
End Cycle.

(** C81: whenever there is a way by legal steps from the cells the plan may start from, and the goal is neither reached yet nor occupied, a plan is made. *)
Corollary C81_a_way_is_found S G P M computed gres ires page_dist cm cm_hyst hyst est local_range C racc tol_range tol_angle robot goal previous :
  planner_ok S G P M computed gres page_dist cm cm_hyst est -> (racc <= 100)%Z -> (0 <= tol_range)%Z -> (2 * tol_a S + 1 <> pm_a M)%Z ->
  let starts_from := starts_from S G M cm C racc tol_range tol_angle robot previous in
  let legal := legal P M computed gres ires cm est local_range in
  answerable S G P M cm est C racc tol_range tol_angle robot goal previous ->
  (forall s, pose_in_cell M robot s -> est (fst (fst s)) (snd (fst s)) <> None /\ exists ss, starts_from s ss) ->
  (forall s e ss, pose_in_cell M robot s -> pose_in_cell M goal e -> starts_from s ss ->
     (cm e < 100)%Z /\ ~ finishing S M previous s ss e /\ exists l, way (legal ss) ss (cell_vec e) l) ->
  exists fuel0, forall escaping continuous find_best fuel O ntask, (fuel0 <= fuel)%nat -> fair_sched O -> (1 <= ntask)%nat -> (forall n, o_abort O n = false) ->
    exists cells path,
      makePlan S G P M computed gres ires page_dist cm cm_hyst hyst est local_range C racc tol_range tol_angle escaping continuous find_best fuel O ntask 0 robot goal previous
      = Ok (Some (Planned true cells path)).
Proof.
  intros OK Ha Hr Ht starts_from legal An H1 H2.
  destruct (C81_the_planner_answers S G P M computed gres ires page_dist cm cm_hyst hyst est local_range C racc tol_range tol_angle OK Ha Hr Ht robot goal previous An) as [fuel0 HF].
  exists fuel0. intros escaping continuous find_best fuel O ntask Hfu HO Hn Hab. destruct (HF escaping continuous find_best fuel O ntask 0%nat Hfu HO) as [r E].
  destruct (C81_what_the_planner_answers S G P M computed gres ires page_dist cm cm_hyst hyst est local_range C racc tol_range tol_angle OK Ha Hr Ht robot goal previous escaping continuous find_best fuel O ntask 0%nat r HO E)
    as (s & e & Ps & Pe & B). rewrite E. assert (U : unlimited O ntask 0) by (repeat split; assumption).
  destruct r as [| | | |ab|found cells path].
  - exfalso. destruct (H1 s Ps) as [_ [ss Hss]]. exact (B ss Hss).
  - exfalso. destruct B as (_ & ss & Hss & F). destruct (H2 s e ss Ps Pe Hss) as (_ & N & _). contradiction.
  - exfalso. destruct B as (_ & _ & ss & Hss & F). destruct (H2 s e ss Ps Pe Hss) as (_ & N & _). contradiction.
  - exfalso. destruct (H1 s Ps) as [N [ss Hss]]. destruct (H2 s e ss Ps Pe Hss) as (L & _). destruct B as [B|B]; [contradiction|lia].
  - exfalso. destruct B as (_ & ss & Hss & _ & NW). destruct (H2 s e ss Ps Pe Hss) as (_ & _ & l & W). exact (NW U l W).
  - destruct B as (_ & _ & ss & est0 & kept & new & _ & Hss & _ & _ & _ & _ & _ & _ & _ & _ & _ & _ & _ & B). destruct found; [eauto|]. exfalso. destruct B as [_ NW].
    destruct (H2 s e ss Ps Pe Hss) as (_ & _ & l & W). exact (NW U l W).
Qed.

(** *** Examples *)
Definition prim3 : prim_cfg := PrimCfg 1 (2 * PI / IZR 4) 4 1 1 1.
Definition gcfg3 : ccfg := CCfg 1 1 1 1 1 1 1 1 1 0.
Definition scfg3 (k aa : bool) : scfg := SCfg k aa 1 1 1 0 0.
(** Two free columns between walls. *)
Definition walls3 (c : cell3) : Z := if ((1 <=? fst (fst c)) && (fst (fst c) <=? 2))%Z then 0%Z else 100%Z.
Definition comp3 : Z -> vec -> list posef := rounded prim3 (1/10).
Lemma prim3_sane : sane prim3.
Proof. unfold sane, prim3. cbn [pr_lin pr_angle pr_range pr_ang]. split; [lra|]. split; [lia|]. split; [lia|reflexivity]. Qed.
Lemma planner3_ok k aa cm est : (forall c, (0 <= cm c)%Z) -> (forall x y r, est x y = Some r -> 0 <= r) ->
  planner_ok (scfg3 k aa) gcfg3 prim3 map_ex comp3 (1/10) (fun _ _ => 0) cm (fun _ => 0%Z) est.
Proof.
  intros Hc He. split; try (cbn; lra); try (cbn; lia).
  - exact prim3_sane.
  - exists 2%Z. apply (even_parallel prim3 prim3_sane). reflexivity.
  - apply rounded_faithful; [exact prim3_sane|lra].
  - intros. lra.
  - exact He.
Qed.
Lemma walls3_nonneg c : (0 <= walls3 c)%Z.
Proof. unfold walls3. destruct (_ && _)%bool; lia. Qed.
Definition robot3 : pose2 := mkP2 (3/2) (3/2) 0 None.
Definition goal3 : pose2 := mkP2 (5/2) (3/2) (PI / 2) None.
Lemma robot3_cell x s : 1 <= x < 2 -> pose_in_cell map_ex (mkP2 x (3/2) 0 None) s -> s = ((1, 1), 0)%Z.
Proof.
  intros Hx H. pose proof (heading_ex (mkP2 x (3/2) 0 None) s eq_refl H) as H0. destruct H as (H & _). destruct s as [[x' y'] t]. cbn [fst snd] in *.
  destruct (C18_cells_are_disjoint (pm_info map_ex) x' y' 1 1 x (3/2) (proj1 ex_pos) H) as [-> ->]; [|subst; reflexivity].
  unfold GridMetricProps.in_cell. cbn [map_ex pm_info mi_res mi_ox mi_oy]. lra.
Qed.
Lemma goal3_cell e : pose_in_cell map_ex goal3 e -> e = ((2, 1), 1)%Z.
Proof.
  intros (H & R & k & H2). destruct e as [[x' y'] t]. cbn [fst snd goal3 p_x p_y p_yaw] in *.
  destruct (C18_cells_are_disjoint (pm_info map_ex) x' y' 2 1 (5/2) (3/2) (proj1 ex_pos) H) as [-> ->].
  { unfold GridMetricProps.in_cell. cbn [map_ex pm_info mi_res mi_ox mi_oy]. lra. }
  unfold in_sector in H2. cbn [map_ex pm_info pm_a mi_ang] in *. pose proof PI_RGT_0 as P. apply Rabs_le_inv in H2. set (n := (t + k * 4)%Z) in *.
  assert (A : 0 < IZR n) by nra. assert (B : IZR n < 2) by nra. apply lt_IZR in A, B. assert (t = 1%Z) by lia. subst. reflexivity.
Qed.
(** The hypotheses of [C81_a_way_is_found] hold for a robot that has to drive one cell ahead and turn left: the plan is found, however the search is scheduled. *)
Example ex_way_is_found : exists fuel0, forall escaping continuous find_best fuel O ntask, (fuel0 <= fuel)%nat -> fair_sched O -> (1 <= ntask)%nat -> (forall n, o_abort O n = false) ->
  exists cells path,
    makePlan (scfg3 false false) gcfg3 prim3 map_ex comp3 (1/10) (1/2) (fun _ _ => 0) walls3 (fun _ => 0%Z) false (fun _ _ => Some 0) 5 cfg_ex 50 0 0
      escaping continuous find_best fuel O ntask 0 robot3 goal3 [] = Ok (Some (Planned true cells path)).
Proof.
  pose proof (planner3_ok false false walls3 (fun _ _ => Some 0) walls3_nonneg ltac:(intros ? ? ? H; injection H as <-; lra)) as OK.
  assert (RC : forall s, pose_in_cell map_ex robot3 s -> s = ((1, 1), 0)%Z) by (intros s; apply robot3_cell; lra).
  assert (NC : ~ continues (scfg3 false false) []) by (intros [H _]; discriminate H).
  assert (SS : forall ss, starts_from (scfg3 false false) gcfg3 map_ex walls3 cfg_ex 50 0 0 robot3 [] ((1, 1), 0)%Z ss <-> forall v, In v ss <-> v = [1; 1; 0]%Z).
  { intros ss. split.
    - intros [_ [[H _]|[(_ & _ & H)|(_ & H & _)]]]; [contradiction| |exfalso; apply (H ((1, 1), 0)%Z); split; [reflexivity|cbn; lia]].
      intros v. rewrite (H v). split; [intros (c & [-> _] & ->); reflexivity|]. intros ->. exists ((1, 1), 0)%Z. split; [split; [reflexivity|cbn; lia]|reflexivity].
    - intros H. split; [unfold in_margin; cbn; lia|]. right. left. split; [exact NC|]. split; [exists ((1, 1), 0)%Z; split; [reflexivity|cbn; lia]|].
      intros v. rewrite (H v). split; [intros ->; exists ((1, 1), 0)%Z; split; [split; [reflexivity|cbn; lia]|reflexivity]|]. intros (c & [-> _] & ->). reflexivity. }
  apply C81_a_way_is_found with (1 := OK); [lia|lia|cbn; lia| | |].
  - split; [exists 1%Z, 1%Z; unfold int32, GridMetricProps.in_cell; cbn [robot3 p_x p_y map_ex pm_info mi_res mi_ox mi_oy]; split; [lia|]; split; [lia|lra]|].
    split; [exists 2%Z, 1%Z; unfold GridMetricProps.in_cell; cbn [goal3 p_x p_y map_ex pm_info pm_w pm_h mi_res mi_ox mi_oy]; split; [lia|]; split; [lia|lra]|]. split; [left; reflexivity|].
    intros s ss v Hs. rewrite (RC s Hs). intros H Hv. pose proof (proj1 (proj1 (SS ss) H v) Hv) as ->. split; [apply valid_vec; cbn; lia|]. exists 0. split; [reflexivity|]. cbn [ec2 gcfg3 pr_angle prim3]. lra.
  - intros s Hs. split; [discriminate|]. exists [[1; 1; 0]%Z]. rewrite (RC s Hs). apply (proj2 (SS _)). intros v. cbn [In]. split; [intros [<-|[]]; reflexivity|intros ->; left; reflexivity].
  - intros s e ss Hs He Hss. apply goal3_cell in He. subst e. rewrite (RC s Hs) in *. pose proof (proj1 (SS ss) Hss) as Hs1. clear Hss. rename Hs1 into Hss. split; [cbn; lia|]. split.
    { intros [[H _]|[_ (c & Hc & [H _])]]; [contradiction|]. apply Hss in Hc. destruct c as [[x y] t]. unfold cell_vec in Hc. cbn [fst snd] in Hc, H. injection Hc as -> -> ->. cbn in H. lia. }
    exists [[1; 1; 0]; [2; 1; 0]; [2; 1; 1]]%Z. split; [exists [1; 1; 0]%Z; split; [apply Hss; reflexivity|split; reflexivity]|].
    assert (F : forall x y t, (1 <= x <= 2)%Z -> (0 <= y < 4)%Z -> (0 <= t < 4)%Z -> free (map3 map_ex walls3) [x; y; t]).
    { intros x y t Hx Hy Ht. unfold free, map3. cbn [cm_w cm_h cm_a cm_at map_ex pm_w pm_h pm_a vx vy vt nth vec_cell]. split; [lia|]. split; [lia|]. split; [lia|]. unfold walls3, vec_cell. cbn [fst snd vx vy nth]. destruct (_ && _)%bool eqn:B; lia. }
    cbn [linked]. split; [|split; [|exact I]].
    + exists ((1, 0), 0)%Z. split; [unfold in_range; cbn; lia|]. split; [reflexivity|].
      assert (Ah : ahead prim3 (vt [1; 1; 0]%Z) ((1, 0), 0)%Z = 1).
      { unfold ahead, heading, prim3, vt. cbn [pr_lin pr_angle nth fst snd]. replace (2 * PI * 0 / 4) with 0 by field. rewrite cos_0, sin_0. ring. }
      split.
      { intros _. right. left. unfold straight. rewrite Ah. split; [reflexivity|]. unfold left_of, heading, prim3, vt. cbn [pr_lin pr_angle pr_aspect nth fst snd]. replace (2 * PI * 0 / 4) with 0 by field.
        rewrite cos_0, sin_0, Rabs_R1. replace (1 * (1 * 0 - 0 * 1)) with 0 by ring. rewrite Rabs_R0. lra. }
      split; [intros _; split; [reflexivity|right; rewrite Ah; lra]|]. split; [intros _ H; destruct (H eq_refl)|]. split; [|discriminate].
      intros p Hp. destruct Hp as [| |d k H|pg m N A Hm]; [apply F; lia|apply F; lia|discriminate H|].
      unfold plan_cache in A. change ([vx [2; 1; 0] - vx [1; 1; 0]; vy [2; 1; 0] - vy [1; 1; 0]; vt [2; 1; 0] mod cm_a (map3 map_ex walls3)]%Z) with [1; 0; 0]%Z in A.
      change (vt [1; 1; 0] mod pr_angle prim3)%Z with 0%Z in A. apply assoc_reset in A as (Hi & Hd & ->).
      apply (straight_cells prim3 prim3_sane (1/10) (1/2) ltac:(lra)) in Hm; [|cbn; lia|exact Hd|].
      * cbn [vx vy vt nth] in Hm. destruct Hm as (Hm1 & Hm2 & Hm3). rewrite Hm1. apply F; cbn [vx vy nth] in *; lia.
      * unfold straight_page, motion_of, rotate. cbn [vx vy vt nth]. replace (0 * pr_ang prim3 + - 0 * pr_ang prim3) with 0 by ring. pose proof PI_RGT_0.
        unfold normalize. destruct (Rlt_dec PI 0); [lra|]. destruct (Rlt_dec 0 (- PI)); [lra|]. rewrite sin_0, Rabs_R0. destruct (Rlt_dec 0 (1 / 10)); [reflexivity|lra].
    + exists ((0, 0), 1)%Z. split; [unfold in_range; cbn; lia|]. split; [reflexivity|].
      split; [intros _; left; split; [reflexivity|discriminate]|]. split.
      { intros N. exfalso. apply N. exists [1; 1; 0]%Z. split; [apply Hss; reflexivity|cbn; lia]. }
      split; [intros H; destruct (H eq_refl)|]. split; [|discriminate].
      intros p Hp. destruct Hp as [| |d k H1 H2 H3 H4 H5|pg m N A Hm]; [apply F; lia|apply F; lia| |exfalso; apply N; split; reflexivity].
      cbn [map3 cm_a map_ex pm_a vx vy vt nth]. apply F; [lia|lia|]. apply Z.mod_pos_bound. lia.
Qed.

(** Finding: while a previous path is continued, its next pose is where the plan starts even in an obstacle, and the planner publishes a path there. *)
Definition off3 : pose2 := mkP2 (5/4) (3/2) 0 None.
Lemma last_pose3 cm : exists r, process cfg_ex map_ex cm off3 [off3] = Ok (Some r) /\ fst (st_cell r) = (1, 1)%Z /\ (0 <= snd (st_cell r) < 4)%Z.
Proof.
  destruct ex_pos as (P1 & P2 & P3). unfold process. change (fromMsg eps6 [off3]) with [off3].
  destruct (removed_spec cfg_ex off3 [off3] ltac:(discriminate)) as (k & d & Hk & -> & (q & (j & J & Q) & D) & _). cbn [bind].
  assert (k = 0%nat) as -> by (cbn in Hk; lia). assert (j = 0%nat) as -> by (cbn in J; lia).
  assert (q = pos off3) as ->.
  { destruct Q as (t & _ & X & Y). apply injective_projections; [rewrite X|rewrite Y]; unfold xy, pos, off3; cbn [nth Nat.sub p_x p_y fst snd]; lra. }
  assert (Z : dist2 (pos off3) (pos off3) = 0).
  { unfold dist2. rewrite !Rminus_eq_0. unfold Rsqr. replace (0 * 0 + 0 * 0) with 0 by ring. apply sqrt_0. }
  rewrite Z in D. cbn [cfg_ex dist_stop]. destruct (Rlt_dec 1 d) as [N|_]; [exfalso; unfold eps6 in D; lra|].
  cbn [skipn Path2D.at_ nth_error bind].
  destruct (choose cfg_ex map_ex cm off3 P1 P2 [off3] off3 ltac:(discriminate) eq_refl) as (i & Ei & Hi & _). cbv zeta in Ei. cbv zeta. rewrite Ei. clear Ei.
  assert (i = 0%nat) as -> by (cbn in Hi; lia). unfold buildResults. cbn [firstn isPathColliding bind Path2D.at_ nth_error].
  destruct (pose_cell_def map_ex off3 ((1, 1), 0)%Z P1 P3) as (t & -> & T); cbn [fst snd]; try (unfold int32; lia).
  { unfold GridMetricProps.in_cell, off3. cbn [map_ex pm_info mi_res mi_ox mi_oy p_x p_y]. lra. }
  cbn [bind]. eexists. split; [reflexivity|]. cbn [st_cell fst snd removelast]. split; [reflexivity|exact T].
Qed.
Definition blocked3 (c : cell3) : Z := if ((fst (fst c) =? 1) && (snd (fst c) =? 1))%Z then 100%Z else 0%Z.
Theorem C81_published_poses_are_free_refuted :
  ~ (forall S G P M computed gres ires page_dist cm cm_hyst hyst est local_range C racc tol_range tol_angle escaping continuous find_best fuel O ntask limit robot goal previous found cells path,
       planner_ok S G P M computed gres page_dist cm cm_hyst est -> fair_sched O ->
       makePlan S G P M computed gres ires page_dist cm cm_hyst hyst est local_range C racc tol_range tol_angle escaping continuous find_best fuel O ntask limit robot goal previous
       = Ok (Some (Planned found cells path)) ->
       forall q, In q path -> exists c, inside_map M c /\ (cm c < 100)%Z /\ touches M q c).
Proof.
  intros H.
  assert (OK : planner_ok (scfg3 true false) gcfg3 prim3 map_ex comp3 (1/10) (fun _ _ => 0) blocked3 (fun _ => 0%Z) (fun _ _ => Some 0)).
  { apply planner3_ok; [intros c; unfold blocked3; destruct (_ && _)%bool; lia|]. intros ? ? ? Q. injection Q as <-. lra. }
  destruct (last_pose3 blocked3) as (r0 & Er & Ec & Et).
  assert (KC : continues (scfg3 true false) [off3]) by (split; [reflexivity|discriminate]).
  assert (SS : forall s ss, starts_from (scfg3 true false) gcfg3 map_ex blocked3 cfg_ex 50 0 0 off3 [off3] s ss -> ss = [cell_vec (st_cell r0)]).
  { intros s ss [_ [[_ (r1 & E1 & ->)]|[[N _]|[N _]]]]; [|contradiction..]. rewrite Er in E1. injection E1 as <-. reflexivity. }
  assert (RC : forall s, pose_in_cell map_ex off3 s -> s = ((1, 1), 0)%Z) by (intros s; apply robot3_cell; lra).
  assert (E0 : cell_vec (st_cell r0) = [1; 1; snd (st_cell r0)]%Z) by (unfold cell_vec; rewrite Ec; reflexivity).
  destruct (C81_the_planner_answers (scfg3 true false) gcfg3 prim3 map_ex comp3 (1/10) (1/2) (fun _ _ => 0) blocked3 (fun _ => 0%Z) false (fun _ _ => Some 0) 5 cfg_ex 50 0 0
    OK ltac:(lia) ltac:(lia) ltac:(cbn; lia) off3 goal3 [off3]) as [fuel HF].
  { split; [exists 1%Z, 1%Z; unfold int32, GridMetricProps.in_cell; cbn [off3 p_x p_y map_ex pm_info mi_res mi_ox mi_oy]; split; [lia|]; split; [lia|lra]|].
    split; [exists 2%Z, 1%Z; unfold GridMetricProps.in_cell; cbn [goal3 p_x p_y map_ex pm_info pm_w pm_h mi_res mi_ox mi_oy]; split; [lia|]; split; [lia|lra]|].
    split; [right; right; eexists; exact Er|]. intros s ss v _ Hss Hv. rewrite (SS s ss Hss) in Hv. destruct Hv as [<-|[]]. rewrite E0. split; [apply valid_vec; cbn [map_ex pm_w pm_h pm_a]; lia|].
    exists 0. split; [reflexivity|]. cbn [ec2 gcfg3 pr_angle prim3]. lra. }
  destruct (HF false true true fuel fifo_oracle 1%nat 0%nat (le_n _) fifo_oracle_fair) as [r E]. clear HF.
  destruct (C81_what_the_planner_answers (scfg3 true false) gcfg3 prim3 map_ex comp3 (1/10) (1/2) (fun _ _ => 0) blocked3 (fun _ => 0%Z) false (fun _ _ => Some 0) 5 cfg_ex 50 0 0
    OK ltac:(lia) ltac:(lia) ltac:(cbn; lia) off3 goal3 [off3] false true true fuel fifo_oracle 1%nat 0%nat r fifo_oracle_fair E) as (s & e & Ps & Pe & B).
  apply RC in Ps. apply goal3_cell in Pe. subst s e. destruct r as [| | | |ab|found cells path].
  - apply (B [cell_vec (st_cell r0)]). split; [unfold in_margin; cbn; lia|]. left. split; [exact KC|]. exists r0. auto.
  - destruct B as [B _]. discriminate B.
  - destruct B as (_ & B & _). discriminate B.
  - destruct B as [B|B]; [discriminate B|]. revert B. cbn. lia.
  - destruct B as [B _]. discriminate B.
  - destruct B as (_ & _ & ss & est0 & kept & new & _ & Hss & _ & Ep & _ & _ & (v & Hv & Hh) & HL & _ & _ & _ & (new' & q & En & Hq) & _).
    rewrite (SS _ _ Hss) in Hv, HL. destruct Hv as [<-|[]].
    assert (Eq : cells = [cell_vec (st_cell r0)]).
    { destruct cells as [|a [|b cells]]; [discriminate Hh| |]; injection Hh as ->; [reflexivity|]. exfalso. destruct HL as [HL _]. destruct HL as (m & _ & _ & _ & _ & _ & HL & _).
      specialize (HL _ (sw_start _ _ _ _ _)). destruct HL as (_ & _ & _ & HL). cbn [map3 cm_at] in HL. rewrite vec_cell_vec in HL. unfold blocked3 in HL. rewrite Ec in HL. cbn in HL. lia. }
    rewrite Eq in Hq. cbn [last] in Hq. rewrite E0 in Hq. destruct Hq as (Q1 & Q2 & _).
    destruct (H _ _ _ _ _ _ _ _ _ _ _ _ _ _ _ _ _ _ _ _ _ _ _ _ _ _ _ _ _ _ OK fifo_oracle_fair E q) as (c & _ & Hc & T1 & T2 & _).
    { rewrite Ep, En. apply in_or_app. right. apply in_or_app. right. left. reflexivity. }
    cbn [map_ex pm_info mi_ox mi_oy mi_res vx vy nth] in Q1, Q2, T1, T2. rewrite Q1 in T1. rewrite Q2 in T2. apply Rabs_le_inv in T1, T2.
    assert (X : forall z, - (1 / 2) <= 0 + (1 + 1 / 2) * 1 - (0 + (IZR z + 1 / 2) * 1) <= 1 / 2 -> z = 1%Z).
    { intros z Hz. assert (A1 : 0 < IZR z) by lra. assert (A2 : IZR z < 2) by lra. apply lt_IZR in A1, A2. lia. }
    apply X in T1, T2. unfold blocked3 in Hc. rewrite T1, T2 in Hc. cbn in Hc. lia.
Qed.

(** A case of [C81_start_without_estimate_is_undefined]: nothing is occupied, the goal can be reached from the cell of the robot but not from the cell next to it, which is a start as well. *)
Definition robot3b : pose2 := mkP2 (9/5) (3/2) 0 None.
Definition goal3b : pose2 := mkP2 (3/2) (5/2) 0 None.
Definition est3 (x y : Z) : option R := if (x =? 2)%Z then None else Some 0.
Example ex_start_without_estimate escaping continuous find_best fuel O ntask limit :
  planner_ok (scfg3 false true) gcfg3 prim3 map_ex comp3 (1/10) (fun _ _ => 0) (fun _ => 0%Z) (fun _ => 0%Z) est3 /\
  makePlan (scfg3 false true) gcfg3 prim3 map_ex comp3 (1/10) (1/2) (fun _ _ => 0) (fun _ => 0%Z) (fun _ => 0%Z) false est3 5 cfg_ex 50 0 0
    escaping continuous find_best fuel O ntask limit robot3b goal3b [] = UB.
Proof.
  assert (OK : planner_ok (scfg3 false true) gcfg3 prim3 map_ex comp3 (1/10) (fun _ _ => 0) (fun _ => 0%Z) (fun _ => 0%Z) est3).
  { apply planner3_ok; [intros c; lia|]. unfold est3. intros x y r. destruct (x =? 2)%Z; [discriminate|]. intros Q. injection Q as <-. lra. }
  split; [exact OK|].
  assert (RC : forall s, pose_in_cell map_ex robot3b s -> s = ((1, 1), 0)%Z) by (intros s; apply robot3_cell; lra).
  assert (GC : forall e, pose_in_cell map_ex goal3b e -> fst e = (1, 2)%Z).
  { intros [[x y] t] (He & _). cbn [fst snd goal3b p_x p_y] in *. destruct (C18_cells_are_disjoint (pm_info map_ex) x y 1 2 (3/2) (5/2) (proj1 ex_pos) He) as [-> ->]; [|reflexivity].
    unfold GridMetricProps.in_cell. cbn [map_ex pm_info mi_res mi_ox mi_oy]. lra. }
  assert (NC : ~ continues (scfg3 false true) []) by (intros [H _]; discriminate H).
  assert (ST : forall c, startable (scfg3 false true) map_ex (fun _ => 0%Z) robot3b ((1, 1), 0)%Z c -> (snd (fst c) = 1 /\ (fst (fst c) = 1 \/ fst (fst c) = 2) /\ snd c = 0)%Z).
  { intros [[x y] t] (Hm & Hz & (Hd & N1 & N2) & _). unfold off_x, off_y in *. unfold in_margin in Hm. cbn [robot3b p_x p_y map_ex pm_info pm_w pm_h pm_a mi_ox mi_oy mi_res fst snd margin scfg3] in *.
    split; [|split; [lia|exact Hz]]. assert (Y : (y = 1 \/ y = 2)%Z) by lia. destruct Y as [->| ->]; [reflexivity|exfalso]. assert (A : (x = 1 \/ x = 2)%Z) by lia. destruct A as [->| ->]; lra. }
  assert (S1 : startable (scfg3 false true) map_ex (fun _ => 0%Z) robot3b ((1, 1), 0)%Z ((1, 1), 0)%Z).
  { split; [unfold in_margin; cbn; lia|]. split; [reflexivity|]. split; [|lia]. unfold one_cell_away, off_x, off_y. cbn [robot3b p_x p_y map_ex pm_info mi_ox mi_oy mi_res fst snd]. lra. }
  assert (S2 : startable (scfg3 false true) map_ex (fun _ => 0%Z) robot3b ((1, 1), 0)%Z ((2, 1), 0)%Z).
  { split; [unfold in_margin; cbn; lia|]. split; [reflexivity|]. split; [|lia]. unfold one_cell_away, off_x, off_y. cbn [robot3b p_x p_y map_ex pm_info mi_ox mi_oy mi_res fst snd]. lra. }
  apply C81_start_without_estimate_is_undefined with (1 := OK); [lia|lia|cbn; lia| | |].
  - exists 1%Z, 1%Z. unfold int32, GridMetricProps.in_cell. cbn [robot3b p_x p_y map_ex pm_info mi_res mi_ox mi_oy]. split; [lia|]. split; [lia|lra].
  - intros s Hs. apply RC in Hs. subst s. exists [[1; 1; 0]; [2; 1; 0]]%Z. split; [unfold in_margin; cbn; lia|]. right. left. split; [exact NC|]. split; [eexists; exact S2|].
    intros v. split.
    + intros [<-|[<-|[]]]; [exists ((1, 1), 0)%Z; split; [exact S1|reflexivity]|exists ((2, 1), 0)%Z; split; [exact S2|reflexivity]].
    + intros (c & Hc & ->). apply ST in Hc. destruct c as [[x y] t]. cbn [fst snd] in Hc. destruct Hc as (-> & [->| ->] & ->); [left; reflexivity|right; left; reflexivity].
  - intros s e ss Hs He [_ Hss]. apply RC in Hs. apply GC in He. subst s. destruct Hss as [[N _]|[(_ & _ & Hss)|(_ & N & _)]]; [contradiction| |destruct (N _ S2)].
    split; [discriminate|]. split; [lia|]. split.
    { intros [[N _]|[_ (c & Hc & Cl & _)]]; [contradiction|]. apply Hss in Hc as (c' & Hc & Q). apply ST in Hc. destruct c as [[x y] t], c' as [[x' y'] t']. unfold cell_vec in Q. cbn [fst snd] in *. injection Q as -> -> ->.
      rewrite He in Cl. cbn [fst snd tol_l scfg3] in Cl. lia. }
    split.
    { intros Hc. apply Hss in Hc as (c' & Hc & Q). apply ST in Hc. destruct e as [[x y] t], c' as [[x' y'] t']. unfold cell_vec in Q. cbn [fst snd] in *. injection He as -> ->. injection Q as Q1 Q2 Q3. lia. }
    exists [2; 1; 0]%Z. split; [apply Hss; exists ((2, 1), 0)%Z; split; [exact S2|reflexivity]|reflexivity].
Qed.

Print Assumptions C81_moves_are_the_legal_steps.
Print Assumptions C81_the_planner_answers.
Print Assumptions C81_what_the_planner_answers.
Print Assumptions C81_a_way_is_found.
Print Assumptions C81_start_without_estimate_is_undefined.
Print Assumptions C81_published_poses_are_free_refuted.
