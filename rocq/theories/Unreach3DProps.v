(** C82: the planner reports an unreachable goal only if there is no way. *)
From Coq Require Import QArith Qabs Qreals Permutation Reals Lra Lia Psatz ZifyBool.
From Flocq Require Import Core.
From Verif Require Import Common CyclicVec CyclicVecSpec CyclicVecProofs CostAlg CostZ DistMap DistMapSpec DistMapProofs DistMapNum DistMapProps Overlay SearchAvail SearchAvailProps MakePlanSrvProps
  GridMetric GridMetricProps Path2D Path2DProps PathGeom PathGeomProps StartPredict StartPredictProps StartPoses StartPosesProps
  Hysteresis HysteresisProps Primitives PrimitivesProps GridMapSpec AStar AStarSpec AStarProofs AStarSearch AStarTerm AStarComplete AStarProps
  MotionCache Cost3D Motion3DSpec Motion3DProofs Cost3DProps MotionReset MotionResetProps Plan3D Plan3DMoves Plan3DProps MotionChain.
Local Open Scope R_scope.

(** *** Specification *)
Section Spec.
  Variables (P : prim_cfg) (M : pmap) (computed : Z -> vec -> list posef) (gres ires : R) (cm : cell3 -> Z).
  (** A step that can be driven, whatever the planner knows about the goal: as [legal] of C81, but any motion is allowed everywhere. *)
  Definition passable (a b : vec) : Prop :=
    exists m : prim, in_range P m /\ b = [vx a + fst (fst m); vy a + snd (fst m); (vt a + snd m) mod pr_angle P]%Z /\ (drivable P (vt a) m \/ snd m = 0%Z) /\
      forall p, swept (plan_cache P computed gres ires) (pr_angle P) (map3 M cm) a b p -> free (map3 M cm) p.
  (** The distance map is made for this map: its costs are finite and not negative, and its 2D costmap is nowhere above the costs of the headings (C13). *)
  Definition distances_for (E : @env (option R)) : Prop :=
    e_w E = pm_w M /\ e_h E = pm_h M /\ (forall c, inside_map M c -> (e_cm E (fst c) <= cm c)%Z) /\ (1 <= e_ntask E)%nat /\
    (exists euclid, (forall n, 0 <= euclid n) /\ e_diffs E = search_diffs (fun n => Some (euclid n))) /\
    (forall ds cs, exists r, 0 <= r /\ e_extra E ds cs = Some r) /\
    (exists o, 0 <= o /\ e_over E = Some o) /\ exists g, e_g0 E = Some g.
End Spec.

(** *** Proofs *)
Lemma distances_sane M cm E : distances_for M cm E -> DistMapProps.sane KR anyR E.
Proof.
  intros (_ & _ & _ & N & (eu & H1 & H2) & H3 & (o & H4 & H5) & (g & H6)). unfold DistMapProps.sane, not_below, finite, anyR. split; [exact N|].
  assert (Nn : forall r, 0 <= r -> fltb KR (Some r) (fzero KR) = false). { intros r Hr. cbn. unfold rb. destruct (Rlt_dec r 0); [lra|reflexivity]. }
  split; [exists (fun n => Some (eu n)); split; [exact H2|intros n; split; [exact I|apply Nn, H1]]|].
  split; [intros ds cs; split; [exact I|]; destruct (H3 ds cs) as (r & Hr & ->); apply Nn, Hr|].
  rewrite H5, H6. split; [split; [reflexivity|apply Nn, H4]|split; [exact I|reflexivity]].
Qed.
Lemma near_moves d : (Z.abs (fst d) <= 1)%Z -> (Z.abs (snd d) <= 1)%Z -> d <> (0, 0)%Z -> In d DistMap.moves /\ line_cells d = [(0, 0)%Z].
Proof.
  destruct d as [x y]. cbn [fst snd]. intros Hx Hy N.
  assert (Cx : x = (-1)%Z \/ x = 0%Z \/ x = 1%Z) by lia. assert (Cy : y = (-1)%Z \/ y = 0%Z \/ y = 1%Z) by lia.
  destruct Cx as [-> |[-> | ->]]; destruct Cy as [-> |[-> | ->]]; try congruence; (split; [vm_compute; repeat (first [left; reflexivity | right])|vm_compute; reflexivity]).
Qed.
Section Dist.
  Variables (M : pmap) (cm : cell3 -> Z) (E : @env (option R)).
  Hypothesis HE : distances_for M cm E.
  Definition open_cell (c : cell) : Prop := inmap E c = true /\ (e_cm E c <= 99)%Z.
  Lemma weight_finite u ds : In ds (e_diffs E) -> exists r, DistMapSpec.weight KR E u ds = Some r.
  Proof.
    intros Hd. destruct HE as (_ & _ & _ & _ & (eu & _ & H2) & H3 & _). rewrite H2 in Hd. apply in_map_iff in Hd as (m & <- & _). unfold DistMapSpec.weight. cbn [df_euclid].
    match goal with |- context [e_extra E ?a ?b] => destruct (H3 a b) as (r & _ & ->) end. cbn [fadd KR radd].
    match goal with |- exists r, (if ?b then _ else _) = _ => destruct b end; [exists 0|eexists]; reflexivity.
  Qed.
  Lemma step_route e u v c : DistMapSpec.route KR E e (e_g0 E) u (Some c) -> open_cell u -> adjacent u v -> inmap E v = true -> exists c', DistMapSpec.route KR E e (e_g0 E) v (Some c').
  Proof.
    intros H [U1 U2] [A1 A2] Hv. destruct (cell_dec u v) as [<-|N]; [eauto|]. set (d := (fst v - fst u, snd v - snd u)%Z).
    destruct (near_moves d) as [Md Ld]; [unfold d; cbn [fst]; lia|unfold d; cbn [snd]; lia|unfold d; intros E0; apply N; destruct u, v; cbn [fst snd] in E0; f_equal; [apply (f_equal fst) in E0|apply (f_equal snd) in E0]; cbn in E0; lia|].
    destruct HE as (_ & _ & _ & _ & (eu & _ & H2) & _). set (ds := Diff d (line_cells d) (Some (eu (fst d * fst d + snd d * snd d)%Z))).
    assert (Hd : In ds (e_diffs E)) by (rewrite H2; unfold search_diffs; apply in_map_iff; exists d; split; [reflexivity|exact Md]).
    destruct (weight_finite u ds Hd) as [w Hw]. exists (c + w). change (Some (c + w)) with (fadd KR (Some c) (Some w)). rewrite <- Hw. apply DistMapSpec.route_move; [exact H|].
    split; [exact Hd|]. split; [unfold ds, d, cadd; cbn [df_d fst snd]; destruct v; cbn [fst snd]; f_equal; lia|]. split; [exact Hv|].
    cbn [ds df_pos]. rewrite Ld. intros c0 [<-|[]]. unfold cadd. cbn [fst snd]. rewrite !Z.add_0_r. destruct u. split; assumption.
  Qed.
  Lemma chain_route e v : chain open_cell e v -> exists c, DistMapSpec.route KR E e (e_g0 E) v (Some c).
  Proof.
    induction 1 as [|u v H [c IH] A [V1 V2]].
    - destruct HE as (_ & _ & _ & _ & _ & _ & _ & (g & Hg)). exists g. rewrite <- Hg. constructor.
    - apply (step_route e u v c IH); [apply (chain_ok _ _ _ H)|exact A|exact V1].
  Qed.
  (** Without an estimate, no cell next to the robot's hangs together with the goal. *)
  Lemma no_estimate_no_chain fuel O d0 s e d v : any_schedule O -> inmap E s = true -> inmap E e = true -> create KR fuel O E d0 s e = Done d ->
    dm_g d s = None -> adjacent v s -> ~ chain open_cell e v.
  Proof.
    intros HO Hs He Hc Hn Ha Hch. pose proof (distances_sane M cm E HE) as HS.
    destruct (cell_dec s e) as [->|N].
    - destruct (C10_values_are_shortest KR anyR KR_dist E fuel O d0 e e d HS HO Hs He Hc) as [Z _]. rewrite Hn in Z. discriminate Z.
    - destruct (chain_route e v Hch) as [c Hr]. destruct (step_route e v s c Hr) as [c' Hr']; [apply (chain_ok _ _ _ Hch)|exact Ha|exact Hs|].
      destruct (C10_start_cell_is_exact KR anyR KR_dist E fuel O d0 s e d HS HO Hs He N Hc) as (_ & A & _). specialize (A _ Hr'). rewrite Hn in A. discriminate A.
  Qed.
End Dist.

Section Unreach.
  Variables (S : scfg) (G : ccfg) (P : prim_cfg) (M : pmap) (computed : Z -> vec -> list posef) (gres ires : R) (page_dist : Z -> vec -> R)
    (cm cm_hyst : cell3 -> Z) (hyst : bool) (est : Z -> Z -> option R) (local_range : Z) (C : pcfg) (racc tol_range tol_angle : Z).
  Hypothesis OK : planner_ok S G P M computed gres page_dist cm cm_hyst est.
  Hypothesis Gr : gres <= 1 / 10.
  Hypothesis Sh : sharp P gres computed.
  Variables (E : @env (option R)) (HE : distances_for M cm E).
  Notation passable := (passable P M computed gres ires cm).

  Let Sn : sane P := ok_prim _ _ _ _ _ _ _ _ _ _ OK.
  Lemma free_open p : free (map3 M cm) p -> open_cell E (xy p).
  Proof.
    intros (X & Y & T & F). cbn [map3 cm_w cm_h cm_a cm_at] in *. destruct HE as (Hw & Hh & Hc & _). unfold open_cell, inmap, xy. cbn [fst snd]. rewrite Hw, Hh. split; [lia|].
    specialize (Hc (vec_cell p)). cbn [vec_cell fst] in Hc. specialize (Hc ltac:(unfold inside_map; cbn [fst snd]; tauto)). lia.
  Qed.
  (** A step is a chain of free cells. *)
  Lemma passable_chain a b : passable a b -> chain (open_cell E) (xy a) (xy b).
  Proof.
    intros (m & Hm & -> & Hd & Hf). pose proof (Hf _ (sw_start _ _ _ _ _)) as Fa. pose proof (Hf _ (sw_end _ _ _ _ _)) as Fb.
    assert (Ha : (0 <= vt a < pr_angle P)%Z). { destruct Fa as (_ & _ & T & _). cbn [map3 cm_a] in T. rewrite (ok_a _ _ _ _ _ _ _ _ _ _ OK) in T. exact T. }
    destruct (cell_dec (fst m) (0, 0)%Z) as [Z0|Nz].
    - replace (xy [(vx a + fst (fst m))%Z; (vy a + snd (fst m))%Z; ((vt a + snd m) mod pr_angle P)%Z]) with (xy a) by (unfold xy; cbn [vx vy nth]; rewrite Z0; cbn [fst snd]; unfold vx, vy; rewrite !Z.add_0_r; reflexivity).
      constructor. apply free_open, Fa.
    - replace (xy [(vx a + fst (fst m))%Z; (vy a + snd (fst m))%Z; ((vt a + snd m) mod pr_angle P)%Z]) with (cadd (xy a) (fst m)) by reflexivity.
      apply (page_chain P gres ires computed Sn ltac:(pose proof (ok_gres _ _ _ _ _ _ _ _ _ _ OK); lra) (ok_samples _ _ _ _ _ _ _ _ _ _ OK) Sh (open_cell E) (xy a) (vt a) m Ha Hm Nz Hd).
      assert (Tm : (0 <= (vt a + snd m) mod pr_angle P < pr_angle P)%Z) by (apply Z.mod_pos_bound, Sn).
      assert (Nz' : ~ (fst (fst m) = 0 /\ snd (fst m) = 0)%Z) by (intros [E1 E2]; apply Nz; destruct (fst m); cbn [fst snd] in *; subst; reflexivity).
      intros c [<-|Hc].
      + change (xy (goes P (vt a) m)) with (fst (fst m), snd (fst m)). apply (free_open _ Fb).
      + destruct (has_page S G P M computed gres ires page_dist cm cm_hyst est OK (vt a) (fst (fst m)) (snd (fst m)) ((vt a + snd m) mod pr_angle P)%Z Ha Tm Nz' (proj1 Hm)) as (pg & Hpg & _).
        pose proof (assoc_reset P gres ires computed _ _ _ Hpg) as (_ & _ & Epg). fold (goes P (vt a) m) in Epg. rewrite <- Epg in Hc.
        change (cadd (xy a) (xy c)) with (xy [vx a + vx c; vy a + vy c; vt c]%Z). apply free_open, Hf. apply (sw_move _ _ _ _ _ pg c).
        * cbn [vx vy nth]. unfold vx, vy. lia.
        * cbn [map3 cm_a vx vy vt nth]. rewrite (ok_a _ _ _ _ _ _ _ _ _ _ OK), (Z.mod_small (vt a)), Zmod_mod by exact Ha.
          replace (vx a + fst (fst m) - vx a)%Z with (fst (fst m)) by lia. replace (vy a + snd (fst m) - vy a)%Z with (snd (fst m)) by lia. exact Hpg.
        * exact Hc.
  Qed.
  Lemma way_chain e : open_cell E (xy e) -> forall l s, linked passable l -> hd_error l = Some s -> last l s = e -> chain (open_cell E) (xy s) (xy e).
  Proof.
    intros He. induction l as [|a l IH]; intros s Hl Hh Hla; [discriminate|]. injection Hh as ->. destruct l as [|b l].
    - cbn [last] in Hla. subst. constructor. exact He.
    - destruct Hl as [H1 H2]. apply (chain_trans _ _ (xy b)); [apply passable_chain; exact H1|]. apply IH; [exact H2|reflexivity|].
      rewrite <- Hla. clear. change (last (s :: b :: l) s) with (last (b :: l) s). revert b. induction l as [|c l IHl]; intros b; [reflexivity|]. cbn [last] in *. destruct l; [reflexivity|apply IHl; exact b].
  Qed.

  (** If the planner says that the goal is unreachable, with the distance map made for the robot and the goal, then the goal is occupied or no way leads to it from
      any pose in the robot's cell or in a cell that touches it. *)
  Theorem C82_unreachable_means_no_way escaping continuous find_best fuel O ntask limit robot goal previous :
    makePlan S G P M computed gres ires page_dist cm cm_hyst hyst est local_range C racc tol_range tol_angle escaping continuous find_best fuel O ntask limit robot goal previous = Ok (Some Unreachable) ->
    exists s e, pose_in_cell M robot s /\ pose_in_cell M goal e /\
      (inside_map M s -> inside_map M e -> forall fuelD OD d0 d, any_schedule OD -> create KR fuelD OD E d0 (fst s) (fst e) = Done d -> (forall x y, est x y = dm_g d (x, y)) ->
       (100 <= cm e)%Z \/ forall v l, adjacent (xy v) (fst s) -> ~ way passable [v] (cell_vec e) l).
  Proof.
    intros HP. unfold makePlan in HP. destruct (pose_cell M robot) as [s|] eqn:Es; [|discriminate]. cbn [bind] in HP.
    destruct (pose_cell M goal) as [e|] eqn:Ee; [|discriminate]. cbn [bind] in HP. exists s, e.
    assert (r1 : 0 < mi_res (pm_info M)) by (rewrite (ok_res _ _ _ _ _ _ _ _ _ _ OK); apply (lin_pos P Sn)).
    assert (r2 : 0 < mi_ang (pm_info M)) by (rewrite (ok_ang _ _ _ _ _ _ _ _ _ _ OK); apply (ang_pos S G P M computed gres page_dist cm cm_hyst est OK)).
    assert (r3 : (0 < pm_a M)%Z) by (rewrite (ok_a _ _ _ _ _ _ _ _ _ _ OK); apply Sn).
    split; [apply (pose_cell_ok M robot s r1 r2 r3 Es)|]. split; [apply (pose_cell_ok M goal e r1 r2 r3 Ee)|].
    intros Is Ie fuelD OD d0 d HO Hc Hest. destruct (Z.leb_spec 100 (cm e)) as [L|L]; [left; exact L|right]. intros v l Hv [(v0 & Hv0 & Hh & Hl) Hw].
    destruct Hv0 as [<-|[]].
    assert (Oe : open_cell E (xy (cell_vec e))). { apply free_open. destruct Ie as (I1 & I2 & I3). unfold free, cell_vec. cbn [map3 cm_w cm_h cm_a cm_at vx vy vt nth]. replace (vec_cell _) with e by (destruct e as [[? ?] ?]; reflexivity). repeat split; lia. }
    pose proof (way_chain (cell_vec e) Oe l v Hw Hh Hl) as Ch. apply chain_sym in Ch.
    assert (Ns : dm_g d (fst s) = None).
    { destruct (buildStartPoses S C M cm (search_pos S G M cm racc tol_range tol_angle) robot goal previous) as [[st sts]|]; [|discriminate]. cbn [bind] in HP.
      rewrite Hest in HP. replace (fst (fst s), snd (fst s)) with (fst s) in HP by (destruct s as [[? ?] ?]; reflexivity).
      destruct (dm_g d (fst s)) as [est0|]; [exfalso|reflexivity].
      assert (Q : forall (a b : bool) x, x <> Ok (Some Unreachable) -> (if a then Ok (Some Escaped) else if b then Ok (Some Finishing) else x) <> Ok (Some Unreachable)) by (intros [] [] x Hx; try exact Hx; discriminate).
      destruct st; [discriminate HP| |]; (revert HP; apply Q; unfold read_cm; destruct (cell_inside _ _); [|discriminate]; cbn [bind]; replace (100 <=? cm e)%Z with false by lia;
        destruct (preserved S M cm C robot previous) as [kept|]; [|discriminate]; cbn [bind]; destruct (existsb _ _);
        [unfold publish; destruct (interpolatePath _ _ _); discriminate|];
        destruct (search _ _ _ _ _ _ _ _ _ _ _ _) as [ok ab cells| |]; [|discriminate|discriminate];
        destruct (ok || find_best)%bool; [unfold publish; destruct (interpolatePath _ _ _); discriminate|discriminate]). }
    assert (Bs : inmap E (fst s) = true /\ inmap E (fst e) = true).
    { destruct HE as (Hw' & Hh' & _). unfold inmap. rewrite Hw', Hh'. destruct Is as (I1 & I2 & _). destruct Ie as (I3 & I4 & _). lia. }
    apply (no_estimate_no_chain M cm E HE fuelD OD d0 (fst s) (fst e) d (xy v) HO (proj1 Bs) (proj2 Bs) Hc Ns Hv).
    replace (fst e) with (xy (cell_vec e)) by (destruct e as [[? ?] ?]; reflexivity). exact Ch.
  Qed.

  Lemma legal_passable ss a b : legal P M computed gres ires cm est local_range ss a b -> (0 <= vt a < pr_angle P)%Z -> passable a b.
  Proof.
    intros (m & H1 & H2 & H3 & H4 & _ & H5 & _) Ha. exists m. split; [exact H1|]. split; [exact H2|]. split; [|exact H5].
    assert (D : near local_range ss a \/ ~ near local_range ss a).
    { destruct (near_start local_range (map (fun v => (v, Some 0)) ss) a) eqn:E0; [left|right; intros N]; [apply near_iff in E0|apply not_true_iff_false in E0; apply E0, near_iff].
      - rewrite map_map in E0. cbn [fst] in E0. rewrite map_id in E0. exact E0.
      - rewrite map_map. cbn [fst]. rewrite map_id. exact N. }
    destruct D as [D|D]; [left; apply H3, D|right; apply H4, D].
  Qed.
  (** In particular there is nothing to plan from the cells it may start from, unless the start was moved to another cell or the previous path is continued. *)
  Theorem C82_nothing_to_plan_from_the_starts escaping continuous find_best fuel O ntask limit robot goal previous :
    makePlan S G P M computed gres ires page_dist cm cm_hyst hyst est local_range C racc tol_range tol_angle escaping continuous find_best fuel O ntask limit robot goal previous = Ok (Some Unreachable) ->
    exists s e, pose_in_cell M robot s /\ pose_in_cell M goal e /\
      (inside_map M s -> inside_map M e -> forall fuelD OD d0 d, any_schedule OD -> create KR fuelD OD E d0 (fst s) (fst e) = Done d -> (forall x y, est x y = dm_g d (x, y)) ->
       (100 <= cm e)%Z \/
       forall ss, starts_from S G M cm C racc tol_range tol_angle robot previous s ss -> ~ continues S previous -> (exists c, startable S M cm robot s c) ->
         forall l, ~ way (legal P M computed gres ires cm est local_range ss) ss (cell_vec e) l).
  Proof.
    intros HP. destruct (C82_unreachable_means_no_way _ _ _ _ _ _ _ _ _ _ HP) as (s & e & Ps & Pe & H). exists s, e. split; [exact Ps|]. split; [exact Pe|].
    intros Is Ie fuelD OD d0 d HO Hc Hest. destruct (H Is Ie fuelD OD d0 d HO Hc Hest) as [L|L]; [left; exact L|right]. clear H.
    intros ss [_ [[Hs _]|[(_ & _ & Hs)|(_ & Hs & _)]]] Nc [c0 Hc0] l [(v & Hv & Hh & Hl) Hw]; [contradiction| |exact (Hs c0 Hc0)].
    apply Hs in Hv as (c & Hcs & ->).
    assert (A : adjacent (fst c) (fst s) /\ snd c = snd s).
    { unfold startable in Hcs. destruct (antialias S); [|destruct Hcs as [-> _]; split; [unfold adjacent; lia|reflexivity]].
      destruct Hcs as (_ & Eh & (O1 & _) & _). split; [|exact Eh]. destruct Ps as ((X & Y) & _).
      assert (r1 : 0 < mi_res (pm_info M)) by (rewrite (ok_res _ _ _ _ _ _ _ _ _ _ OK); apply (lin_pos P Sn)). set (h := mi_res (pm_info M)) in *.
      assert (Ox : -1 <= off_x M robot c <= 1) by (split; nra). assert (Oy : -1 <= off_y M robot c <= 1) by (split; nra).
      assert (K : forall o g (z w : Z), o + IZR z * h <= g < o + (IZR z + 1) * h -> -1 <= (g - (o + (IZR w + 1/2) * h)) / h <= 1 -> (Z.abs (w - z) <= 1)%Z).
      { intros o g z w B1 B2. set (q := (g - (o + (IZR w + 1/2) * h)) / h) in *. assert (Eg : g = o + (IZR w + 1/2) * h + q * h) by (unfold q; field; lra). rewrite Eg in B1.
        assert (B3 : IZR z <= IZR w + 1/2 + q < IZR z + 1) by (split; nra). assert (U : IZR (w - z) < 2) by (rewrite minus_IZR; lra). assert (V : -2 < IZR (w - z)) by (rewrite minus_IZR; lra).
        apply lt_IZR in U. apply (lt_IZR (-2)) in V. lia. }
      split; [apply (K _ _ _ _ X Ox)|apply (K _ _ _ _ Y Oy)]. }
    apply (L (cell_vec c) l).
    - replace (xy (cell_vec c)) with (fst c) by (destruct c as [[? ?] ?]; reflexivity). apply A.
    - split; [exists (cell_vec c); split; [left; reflexivity|split; assumption]|].
      clear Hl. revert Hh Hw. assert (Tc : (0 <= vt (cell_vec c) < pr_angle P)%Z). { destruct Is as (_ & _ & T). unfold cell_vec. cbn [vt nth]. rewrite <- (ok_a _ _ _ _ _ _ _ _ _ _ OK). rewrite (proj2 A). exact T. }
      revert Tc. generalize (cell_vec c) as a. induction l as [|x [|y l] IH]; intros a Ta Hh Hw; [discriminate|exact I|]. injection Hh as ->. destruct Hw as [W1 W2].
      split; [apply (legal_passable _ _ _ W1 Ta)|]. apply (IH y); [|reflexivity|exact W2]. destruct W1 as (m & _ & -> & _). cbn [vt nth]. apply Z.mod_pos_bound, Sn.
  Qed.
End Unreach.

(** *** The robot's own cell *)
(** Moves of the distance map pass a cell next to their end. *)
Lemma moves_pass d : In d DistMap.moves -> exists p, In p (line_cells d) /\ adjacent p d /\ p <> d.
Proof.
  assert (H : forallb (fun d => existsb (fun p => (Z.abs (fst p - fst d) <=? 1)%Z && (Z.abs (snd p - snd d) <=? 1)%Z && negb ((fst p =? fst d)%Z && (snd p =? snd d)%Z)) (line_cells d)) DistMap.moves = true) by (vm_compute; reflexivity).
  intros Hd. pose proof (proj1 (forallb_forall _ _) H d Hd) as Hx. apply existsb_exists in Hx as (p & Hp & Hx). exists p. split; [exact Hp|]. unfold adjacent.
  split; [lia|]. intros ->. lia.
Qed.
Lemma enclosed_no_route M cm E e s : distances_for M cm E -> s <> e -> (forall c, adjacent c s -> c <> s -> inmap E c = true -> (100 <= e_cm E c)%Z) ->
  forall c, ~ DistMapSpec.route KR E e (e_g0 E) s c.
Proof.
  intros HE N Hb c H. inversion H as [|u c1 ds v Hr (Hd & Ev & _ & Hf)]; subst; [congruence|].
  destruct HE as (_ & _ & _ & _ & (eu & _ & H2) & _). rewrite H2 in Hd. apply in_map_iff in Hd as (m & <- & Hm). cbn [df_d df_pos] in *.
  destruct (moves_pass m Hm) as (p & Hp & [A1 A2] & Np). destruct (Hf p Hp) as [F1 F2]. specialize (Hb (cadd u p)). unfold cadd in *. cbn [fst snd] in *.
  assert (100 <= e_cm E (fst u + fst p, snd u + snd p))%Z; [|lia]. apply Hb; [unfold adjacent; cbn [fst snd]; lia| |exact F1].
  intros E0. apply Np. destruct p, m. cbn [fst snd] in *. f_equal; [apply (f_equal fst) in E0|apply (f_equal snd) in E0]; cbn [fst snd] in E0; lia.
Qed.
Section Enclosed.
  Variables (S : scfg) (G : ccfg) (P : prim_cfg) (M : pmap) (computed : Z -> vec -> list posef) (gres ires : R) (page_dist : Z -> vec -> R)
    (cm cm_hyst : cell3 -> Z) (hyst : bool) (est : Z -> Z -> option R) (local_range : Z) (C : pcfg) (racc tol_range tol_angle : Z).
  Hypothesis OK : planner_ok S G P M computed gres page_dist cm cm_hyst est.
  Hypothesis Hran : (0 <= tol_range)%Z.
  Hypothesis Ht : (2 * tol_a S + 1 <> pm_a M)%Z.
  Variables (E : @env (option R)) (HE : distances_for M cm E).
  (** A robot whose cell is enclosed by occupied cells never gets a path, even if it may start from another cell: the planner looks up the estimate of the robot's
      own cell. *)
  Theorem C82_enclosed_robot_gets_no_path rx ry gx gy s0 fuelD OD d0 d robot goal previous escaping continuous find_best fuel O ntask limit :
    (0 <= rx < pm_w M)%Z -> (0 <= ry < pm_h M)%Z -> GridMetricProps.in_cell (pm_info M) rx ry (p_x robot) (p_y robot) ->
    (0 <= gx < pm_w M)%Z -> (0 <= gy < pm_h M)%Z -> GridMetricProps.in_cell (pm_info M) gx gy (p_x goal) (p_y goal) -> (rx, ry) <> (gx, gy) ->
    (forall c, adjacent c (rx, ry) -> c <> (rx, ry) -> inmap E c = true -> (100 <= e_cm E c)%Z) ->
    inmap E s0 = true -> any_schedule OD -> create KR fuelD OD E d0 s0 (gx, gy) = Done d -> (forall x y, est x y = dm_g d (x, y)) ->
    (StartPoses.keep S = false \/ previous = [] \/ exists r, process C M cm robot previous = Ok r) ->
    exists r, makePlan S G P M computed gres ires page_dist cm cm_hyst hyst est local_range C racc tol_range tol_angle escaping continuous find_best fuel O ntask limit robot goal previous = Ok (Some r) /\
      (r = InRock \/ r = Escaped \/ r = Finishing \/ r = Unreachable).
  Proof.
    intros R1 R2 R3 G1 G2 G3 Ne Hb Hs0 HO Hc Hest Hp.
    pose proof (ok_w _ _ _ _ _ _ _ _ _ _ OK) as Bw. pose proof (ok_h _ _ _ _ _ _ _ _ _ _ OK) as Bh.
    assert (I1 : int32 rx) by (unfold int32; lia). assert (I2 : int32 ry) by (unfold int32; lia). assert (I3 : int32 gx) by (unfold int32; lia). assert (I4 : int32 gy) by (unfold int32; lia).
    pose proof (res_pos S G P M computed gres page_dist cm cm_hyst est OK) as r1. pose proof (info_ang_pos S G P M computed gres page_dist cm cm_hyst est OK) as r2. pose proof (a_pos S G P M computed gres page_dist cm cm_hyst est OK) as r3.
    destruct (pose_cell_def M robot ((rx, ry), 0)%Z r1 r3 I1 I2 R3) as (ts & Es & _). destruct (pose_cell_def M goal ((gx, gy), 0)%Z r1 r3 I3 I4 G3) as (te & Ee & _).
    destruct (C63_defined S C M cm (search_pos S G M cm racc tol_range tol_angle) robot goal previous r1 r2 r3 (margin_nonneg S G P M computed gres page_dist cm cm_hyst est OK) (ec0_nonneg S G P M computed gres page_dist cm cm_hyst est OK) Ht rx ry gx gy I1 I2 I3 I4 R3 G3 Hp) as [[st l] Eb].
    { intros s'. destruct (search_pos_spec S G P M computed gres page_dist cm cm_hyst est racc tol_range tol_angle OK Hran s') as (q & Eq & _). eauto. }
    assert (Ns : est rx ry = None).
    { rewrite Hest. apply (C10_unreachable_cells_keep_the_unreachable_value KR anyR KR_dist E fuelD OD d0 s0 (gx, gy) d (rx, ry) (distances_sane M cm E HE) HO Hs0); [|exact Hc|exact Ne|].
      - destruct HE as (Hw & Hh & _). unfold inmap. cbn [fst snd]. rewrite Hw, Hh. lia.
      - apply (enclosed_no_route M cm E (gx, gy) (rx, ry) HE Ne Hb). }
    unfold makePlan. rewrite Es, Ee. cbn [bind]. rewrite Eb. cbn [bind fst snd]. rewrite Ns.
    destruct st, escaping, continuous; cbn [andb negb]; eauto 6.
  Qed.
End Enclosed.

(** *** Examples *)
Lemma rounded_sharp C gres : sharp C gres (rounded C gres).
Proof.
  intros i d k p Hi Hd Hs Hk. unfold rounded in Hk. set (T := total_step gres d) in *. rewrite nth_error_map in Hk.
  destruct (nth_error (seq 0 (Z.to_nat T)) k) as [k'|] eqn:Ek; [|discriminate]. cbn [option_map] in Hk.
  assert (k' = k). { assert (Hl : (k < Z.to_nat T)%nat) by (rewrite <- (seq_length (Z.to_nat T) 0); apply nth_error_Some; congruence). apply (nth_error_nth _ _ 0%nat) in Ek. rewrite seq_nth in Ek by exact Hl. lia. } subst k'.
  assert (Near : forall x, Rabs (Q2R (lroundR (2 * x) # 2) - x) <= 1 / 4).
  { intros x. pose proof (lroundR_near (2 * x)) as H. unfold Q2R. cbn [Qnum Qden]. apply Rabs_le_inv in H. apply Rabs_le; lra. }
  destruct (curve_point C i d (INR k / IZR T)) as [x y]. injection Hk as <-. cbn [px py fst snd]. split; apply Near.
Qed.
(** A map of 6 by 5 cells; only the goal's cell (4, 2) is free and, if [b], the robot's cell (2, 2). *)
Definition map4 : pmap := PMap (mkMI 1 (PI / 2) 0 0) 6 5 4.
Definition free4 (b : bool) (c : cell) : Z := if ((fst c =? 4) && (snd c =? 2) || b && (fst c =? 2) && (snd c =? 2))%Z then 0%Z else 100%Z.
Definition cm4 (b : bool) (c : cell3) : Z := free4 b (fst c).
Definition env4 (b : bool) : @env (option R) := Env 6 5 (search_diffs (fun n => Some (sqrt (IZR n)))) (free4 b) (fun _ _ => Some 0) (Some 10) (Some 0) 1.
Definition robot4 : pose2 := mkP2 (5/2) (5/2) 0 None.
Definition goal4 : pose2 := mkP2 (9/2) (5/2) (PI / 2) None.
Lemma env4_for b : distances_for map4 (cm4 b) (env4 b).
Proof.
  unfold distances_for. cbn [env4 e_w e_h e_cm e_ntask e_diffs e_extra e_over e_g0 map4 pm_w pm_h]. split; [reflexivity|]. split; [reflexivity|]. split; [intros c _; unfold cm4; lia|].
  split; [lia|]. split; [exists (fun n => sqrt (IZR n)); split; [intros n; apply sqrt_pos|reflexivity]|]. split; [intros _ _; exists 0; split; [lra|reflexivity]|].
  split; [exists 10; split; [lra|reflexivity]|exists 0; reflexivity].
Qed.
Lemma route4_nonneg b e v c : DistMapSpec.route KR (env4 b) e (Some 0) v c -> match c with Some r => 0 <= r | None => True end.
Proof.
  induction 1 as [|u c ds v H IH (Hd & _)]; [lra|]. destruct c as [c|]; [|exact I].
  change (e_diffs (env4 b)) with (search_diffs (fun n => Some (sqrt (IZR n)))) in Hd. apply in_map_iff in Hd as (m & <- & _). unfold DistMapSpec.weight. cbn [df_euclid env4 e_extra fadd KR radd].
  match goal with |- context [if ?t then _ else _] => destruct t end; cbn [fzero KR radd]; [lra|]. pose proof (sqrt_pos (IZR (fst m * fst m + snd m * snd m))). lra.
Qed.
Lemma robot4_cell s : pose_in_cell map4 robot4 s -> s = ((2, 2), 0)%Z.
Proof.
  intros (H & Rg & k & H2). destruct s as [[x' y'] t]. cbn [fst snd robot4 p_x p_y p_yaw] in *.
  destruct (C18_cells_are_disjoint (pm_info map4) x' y' 2 2 (5/2) (5/2) ltac:(cbn; lra) H) as [-> ->].
  { unfold GridMetricProps.in_cell. cbn [map4 pm_info mi_res mi_ox mi_oy]. lra. }
  unfold in_sector in H2. cbn [map4 pm_info pm_a mi_ang] in *. pose proof PI_RGT_0 as P. apply Rabs_le_inv in H2. set (n := (t + k * 4)%Z) in *.
  assert (A : -1 < IZR n) by nra. assert (B : IZR n < 1) by nra. apply lt_IZR in A, B. assert (t = 0%Z) by lia. subst. reflexivity.
Qed.
Lemma goal4_cell e : pose_in_cell map4 goal4 e -> e = ((4, 2), 1)%Z.
Proof.
  intros (H & Rg & k & H2). destruct e as [[x' y'] t]. cbn [fst snd goal4 p_x p_y p_yaw] in *.
  destruct (C18_cells_are_disjoint (pm_info map4) x' y' 4 2 (9/2) (5/2) ltac:(cbn; lra) H) as [-> ->].
  { unfold GridMetricProps.in_cell. cbn [map4 pm_info mi_res mi_ox mi_oy]. lra. }
  unfold in_sector in H2. cbn [map4 pm_info pm_a mi_ang] in *. pose proof PI_RGT_0 as P. apply Rabs_le_inv in H2. set (n := (t + k * 4)%Z) in *.
  assert (A : 0 < IZR n) by nra. assert (B : IZR n < 2) by nra. apply lt_IZR in A, B. assert (t = 1%Z) by lia. subst. reflexivity.
Qed.
Definition fifoD : @DistMap.oracle (option R) := Orc (fun _ _ => 0%nat) (fun _ l => l).
(** The distance map of the example, its estimates, and the setup of the planner. *)
Lemma ex4_setup b (s0 : cell) : inmap (env4 b) s0 = true ->
  exists fuelD d, create KR fuelD fifoD (env4 b) (init KR) s0 (4, 2)%Z = Done d /\ dm_g d (4, 2)%Z = Some 0 /\
    planner_ok (scfg3 false false) gcfg3 prim3 map4 comp3 (1/10) (fun _ _ => 0) (cm4 b) (fun _ => 0%Z) (fun x y => dm_g d (x, y)).
Proof.
  intros Hs. pose proof (distances_sane _ _ _ (env4_for b)) as Sn4. assert (HO : any_schedule fifoD) by (intros k l; apply Permutation_refl).
  destruct (C10_fill_terminates KR anyR KR_dist (env4 b) s0 (4, 2)%Z Sn4 Hs eq_refl) as (N & HN). destruct (HN N fifoD (init KR) (le_n _) HO) as (d & Hd & _).
  destruct (C10_values_are_shortest KR anyR KR_dist (env4 b) N fifoD (init KR) s0 (4, 2)%Z d Sn4 HO Hs eq_refl Hd) as (Z0 & V).
  exists N, d. split; [exact Hd|]. split; [exact Z0|]. split; try (cbn; lra); try (cbn; lia).
  - exact prim3_sane.
  - exists 2%Z. apply (even_parallel prim3 prim3_sane). reflexivity.
  - apply rounded_faithful; [exact prim3_sane|lra].
  - intros. lra.
  - intros c. unfold cm4, free4. destruct (_ || _)%bool; lia.
  - intros x y r Hr. destruct (cell_dec (x, y) (4, 2)%Z) as [Ex|Nx]; [rewrite Ex, Z0 in Hr; injection Hr as <-; lra|].
    destruct (V _ Nx) as [[Q|Q] _]; rewrite Hr in Q; [discriminate Q|]. apply (route4_nonneg b _ _ _ Q).
Qed.
Lemma enclosed4 b c : adjacent c (2, 2)%Z -> c <> (2, 2)%Z -> inmap (env4 b) c = true -> (100 <= e_cm (env4 b) c)%Z.
Proof.
  intros [A1 A2] N _. destruct c as [x y]. cbn [env4 e_cm fst snd] in *. unfold free4. cbn [fst snd]. destruct ((x =? 4) && (y =? 2) || b && (x =? 2) && (y =? 2))%Z%bool eqn:E; [|lia].
  exfalso. apply N. destruct b; cbn [andb] in E; f_equal; lia.
Qed.
(** What the planner answers in the example if it may start from [v], [b] or not. *)
Lemma ex4_answer b s0 fuelD d find_best fuel O ntask limit v : fair_sched O -> inmap (env4 b) s0 = true -> create KR fuelD fifoD (env4 b) (init KR) s0 (4, 2)%Z = Done d ->
  planner_ok (scfg3 false false) gcfg3 prim3 map4 comp3 (1/10) (fun _ _ => 0) (cm4 b) (fun _ => 0%Z) (fun x y => dm_g d (x, y)) ->
  starts_from (scfg3 false false) gcfg3 map4 (cm4 b) cfg_ex 50 2 0 robot4 [] ((2, 2), 0)%Z [v] ->
  makePlan (scfg3 false false) gcfg3 prim3 map4 comp3 (1/10) (1/2) (fun _ _ => 0) (cm4 b) (fun _ => 0%Z) false (fun x y => dm_g d (x, y)) 5 cfg_ex 50 2 0
    false true find_best fuel O ntask limit robot4 goal4 [] = Ok (Some Unreachable).
Proof.
  intros HO Hs Hd OK Hst. assert (HOD : any_schedule fifoD) by (intros k l; apply Permutation_refl).
  destruct (C82_enclosed_robot_gets_no_path (scfg3 false false) gcfg3 prim3 map4 comp3 (1/10) (1/2) (fun _ _ => 0) (cm4 b) (fun _ => 0%Z) false (fun x y => dm_g d (x, y)) 5 cfg_ex 50 2 0
    OK ltac:(lia) ltac:(cbn; lia) (env4 b) (env4_for b) 2 2 4 2 s0 fuelD fifoD (init KR) d robot4 goal4 [] false true find_best fuel O ntask limit) as (r & E & Hr); try (cbn; lia);
    try (unfold GridMetricProps.in_cell; cbn; lra); try assumption; try reflexivity.
  { intros Q. discriminate Q. }
  { intros c. apply enclosed4. }
  destruct (C81_what_the_planner_answers (scfg3 false false) gcfg3 prim3 map4 comp3 (1/10) (1/2) (fun _ _ => 0) (cm4 b) (fun _ => 0%Z) false (fun x y => dm_g d (x, y)) 5 cfg_ex 50 2 0
    OK ltac:(lia) ltac:(lia) ltac:(cbn; lia) robot4 goal4 [] false true find_best fuel O ntask limit r HO E) as (s & e & Ps & Pe & B).
  apply robot4_cell in Ps. subst s. destruct Hr as [-> |[-> |[-> | ->]]].
  - exfalso. exact (B _ Hst).
  - destruct B as [B _]. discriminate B.
  - destruct B as (_ & B & _). discriminate B.
  - exact E.
Qed.
(** The hypotheses of [C82_unreachable_means_no_way] and [C82_nothing_to_plan_from_the_starts] hold for a robot in a free cell surrounded by obstacles. *)
Example ex_unreachable : exists fuelD d, create KR fuelD fifoD (env4 true) (init KR) (2, 2)%Z (4, 2)%Z = Done d /\
  planner_ok (scfg3 false false) gcfg3 prim3 map4 comp3 (1/10) (fun _ _ => 0) (cm4 true) (fun _ => 0%Z) (fun x y => dm_g d (x, y)) /\
  distances_for map4 (cm4 true) (env4 true) /\ sharp prim3 (1/10) comp3 /\
  starts_from (scfg3 false false) gcfg3 map4 (cm4 true) cfg_ex 50 2 0 robot4 [] ((2, 2), 0)%Z [[2; 2; 0]%Z] /\
  forall find_best fuel O ntask limit, fair_sched O ->
    makePlan (scfg3 false false) gcfg3 prim3 map4 comp3 (1/10) (1/2) (fun _ _ => 0) (cm4 true) (fun _ => 0%Z) false (fun x y => dm_g d (x, y)) 5 cfg_ex 50 2 0
      false true find_best fuel O ntask limit robot4 goal4 [] = Ok (Some Unreachable).
Proof.
  destruct (ex4_setup true (2, 2)%Z eq_refl) as (fuelD & d & Hd & _ & OK). exists fuelD, d. split; [exact Hd|]. split; [exact OK|]. split; [apply env4_for|]. split; [apply rounded_sharp|].
  assert (Hst : starts_from (scfg3 false false) gcfg3 map4 (cm4 true) cfg_ex 50 2 0 robot4 [] ((2, 2), 0)%Z [[2; 2; 0]%Z]).
  { split; [unfold in_margin; cbn; lia|]. right. left. split; [intros [Q _]; discriminate Q|]. split; [exists ((2, 2), 0)%Z; split; [reflexivity|cbn; lia]|].
    intros v. split; [intros [<-|[]]; exists ((2, 2), 0)%Z; split; [split; [reflexivity|cbn; lia]|reflexivity]|]. intros (c & [-> _] & ->). left. reflexivity. }
  split; [exact Hst|]. intros find_best fuel O ntask limit HO. apply (ex4_answer true (2, 2)%Z fuelD d find_best fuel O ntask limit [2; 2; 0]%Z HO eq_refl Hd OK Hst).
Qed.
(** Refuted: "unreachable" is only reported if there is no way from the cells the plan may start from.  The robot stands in an obstacle that also covers the cells
    around; it may start from a free cell two cells away, from where it only has to turn.  The planner looks up the estimate at the robot and gives up. *)
Theorem C82_moved_start_refuted :
  ~ (forall S G P M computed gres ires page_dist cm cm_hyst hyst est local_range C racc tol_range tol_angle escaping continuous find_best fuel O ntask limit robot goal previous
       (E : @env (option R)) s0 fuelD OD d0 d s e ss,
       planner_ok S G P M computed gres page_dist cm cm_hyst est -> gres <= 1 / 10 -> sharp P gres computed -> distances_for M cm E -> fair_sched O -> any_schedule OD ->
       pose_in_cell M robot s -> pose_in_cell M goal e -> inside_map M s -> inside_map M e -> (cm e < 100)%Z ->
       starts_from S G M cm C racc tol_range tol_angle robot previous s ss -> (exists v, In v ss /\ s0 = xy v) ->
       create KR fuelD OD E d0 s0 (fst e) = Done d -> (forall x y, est x y = dm_g d (x, y)) ->
       makePlan S G P M computed gres ires page_dist cm cm_hyst hyst est local_range C racc tol_range tol_angle escaping continuous find_best fuel O ntask limit robot goal previous
       = Ok (Some Unreachable) ->
       forall l, ~ way (legal P M computed gres ires cm est local_range ss) ss (cell_vec e) l).
Proof.
  intros H. destruct (ex4_setup false (4, 2)%Z eq_refl) as (fuelD & d & Hd & Z0 & OK).
  assert (Hst : starts_from (scfg3 false false) gcfg3 map4 (cm4 false) cfg_ex 50 2 0 robot4 [] ((2, 2), 0)%Z [[4; 2; 0]%Z]).
  { split; [unfold in_margin; cbn; lia|]. right. right. split; [intros [Q _]; discriminate Q|]. split; [intros c [-> Q]; revert Q; cbn; lia|].
    exists ((4, 2), 0)%Z. split; [|reflexivity]. left. cbv zeta. exists ((2, 0), 0)%Z. split.
    - cbn [acceptable_pose fst snd map4 pm_w pm_h pm_a margin scfg3]. split; [discriminate|]. repeat (split; [lia|]). split; [exists 0%Z; lia|]. repeat (split; [lia|]). cbn. lia.
    - intros [[dx dy] dt] [[x y] t] (_ & _ & _ & Ha & Hx & Hy & _ & _ & _ & _ & _ & _ & Hc). cbn [fst snd] in *. unfold cm4, free4 in Hc. cbn [fst snd andb orb] in Hc.
      assert (dx = 2%Z /\ dy = 0%Z) as [-> ->] by (destruct ((x =? 4) && (y =? 2))%Z%bool eqn:Q; [lia|cbn in Hc; lia]). assert (dt = 0%Z) as -> by lia.
      cbn [fltb KR rltb]. unfold rb. destruct (Rlt_dec _ _); [lra|reflexivity]. }
  destruct (pose_cell_def map4 goal4 ((4, 2), 0)%Z ltac:(cbn; lra) ltac:(cbn; lia) ltac:(unfold int32; cbn; lia) ltac:(unfold int32; cbn; lia) ltac:(unfold GridMetricProps.in_cell; cbn; lra)) as (te & Ee & _).
  destruct (pose_cell_def map4 robot4 ((2, 2), 0)%Z ltac:(cbn; lra) ltac:(cbn; lia) ltac:(unfold int32; cbn; lia) ltac:(unfold int32; cbn; lia) ltac:(unfold GridMetricProps.in_cell; cbn; lra)) as (ts & Es & _).
  assert (A0 : 0 < mi_ang (pm_info map4)) by (cbn; pose proof PI_RGT_0; lra).
  pose proof (pose_cell_ok map4 goal4 _ ltac:(cbn; lra) A0 ltac:(cbn; lia) Ee) as Pe. pose proof (pose_cell_ok map4 robot4 _ ltac:(cbn; lra) A0 ltac:(cbn; lia) Es) as Ps.
  pose proof (goal4_cell _ Pe) as Q1. pose proof (robot4_cell _ Ps) as Q2. rewrite Q1 in Pe. rewrite Q2 in Ps.
  pose proof (ex4_answer false (4, 2)%Z fuelD d true 0%nat fifo_oracle 1%nat 0%nat [4; 2; 0]%Z fifo_oracle_fair eq_refl Hd OK Hst) as HP.
  refine (H _ _ _ _ _ _ _ _ _ _ _ _ _ _ _ _ _ _ _ _ _ _ _ _ _ _ _ (env4 false) (4, 2)%Z fuelD fifoD (init KR) d ((2, 2), 0)%Z ((4, 2), 1)%Z [[4; 2; 0]%Z]
    OK ltac:(lra) (rounded_sharp _ _) (env4_for false) fifo_oracle_fair ltac:(intros k l; apply Permutation_refl) Ps Pe ltac:(unfold inside_map; cbn; lia) ltac:(unfold inside_map; cbn; lia)
    ltac:(cbn; lia) Hst ltac:(exists [4; 2; 0]%Z; split; [left; reflexivity|reflexivity]) Hd ltac:(reflexivity) HP [[4; 2; 0]; [4; 2; 1]]%Z _).
  split; [exists [4; 2; 0]%Z; split; [left; reflexivity|split; reflexivity]|]. split; [|exact I].
  exists ((0, 0), 1)%Z. split; [unfold in_range; cbn; lia|]. split; [reflexivity|]. split; [intros _; left; split; [reflexivity|cbn; lia]|].
  split; [intros N; exfalso; apply N; exists [4; 2; 0]%Z; split; [left; reflexivity|cbn; lia]|]. split; [intros N; exfalso; apply N; reflexivity|]. split.
  - assert (F : forall t, (0 <= t < 4)%Z -> free (map3 map4 (cm4 false)) [4; 2; t]%Z) by (intros t Ht; unfold free; cbn; lia).
    intros p Hp. destruct Hp as [| |dd k E1 E2 E3 E4 E5|pg m N _ _]; [apply F; lia|apply F; lia| |exfalso; apply N; split; reflexivity].
    apply F. apply Z.mod_pos_bound. cbn. lia.
  - cbn [vx vy nth]. rewrite Z0. discriminate.
Qed.

Print Assumptions C82_unreachable_means_no_way.
Print Assumptions C82_nothing_to_plan_from_the_starts.
Print Assumptions C82_enclosed_robot_gets_no_path.
Print Assumptions C82_moved_start_refuted.
