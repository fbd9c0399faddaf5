(** C87: the distances the planner consults were made for the present goal, costs and configuration. *)
From Coq Require Import Permutation ZifyBool.
From Verif Require Import Common CostAlg CostZ AStar DistMap DistMapSpec DistMapProofs DistMapProps DistMapNum Overlay SearchAvail DistSync.

Local Open Scope Z_scope.

(** *** Specification *)
Section Spec.
  Context {F : Type} (K : cost_ops F) {cfg mem info pose : Type}.
  Variables (envof : cfg -> mem -> costs -> @env F) (cell_of : info -> pose -> cell3) (find_free : cfg -> costs -> cell3 -> option cell3) (range : cfg -> Z).
  Notation use := (@use F cfg mem info pose).
  Notation node := (@node F cfg mem info pose).
  Notation event := (@event F cfg info pose).
  (** The cell a plan for a robot at [p] starts from: its own one, or the free one found near it if its own is occupied. *)
  Definition start_cell (c : cfg) (i : info) (o : costs) (p : pose) (s : cell3) : Prop :=
    validate3 (v_w o) (v_h o) (v_a o) (range c) (cell_of i p) = true /\
    ((v_cm o (cell_of i p) <> 100 /\ s = cell_of i p) \/ (v_cm o (cell_of i p) = 100 /\ find_free c o (cell_of i p) = Some s)).
  (** The distances were made, from scratch, with this configuration, these remembered costs and these costs, for this goal and a robot at [p]. *)
  Definition made_for (c : cfg) (m : mem) (i : info) (o : costs) (p g : pose) (d : @dmap F) : Prop :=
    exists fuel O d0 s, any_schedule O /\ start_cell c i o p s /\ validate3 (v_w o) (v_h o) (v_a o) (range c) (cell_of i g) = true /\
      create K fuel O (envof c m o) d0 (fst s) (fst (cell_of i g)) = Done d.
  (** When the planner consults them, they were made for what is present then (for some pose of the robot, not necessarily the present one). *)
  Definition up_to_date (u : use) : Prop := exists p, made_for (w_cfg u) (w_mem u) (w_info u) (w_costs u) p (w_goal u) (w_dist u).

  Definition call_ok (k : @call F) : Prop := any_schedule (snd (k_fill k)) /\ any_schedule (snd (k_inner k)).
  Definition event_ok (e : event) : Prop :=
    match e with
    | EMap _ _ k | EKept _ k | EUpdate _ k | EGoal _ k | ECycle k CNothing | ECycle k CEnd => call_ok k
    | EEscape _ x => any_schedule (snd x)
    | ECycle k (CEscaped k') => call_ok k /\ call_ok k'
    | ECycle k (CConsult _ x) => call_ok k /\ any_schedule (snd x)
    | _ => True
    end.
  (** What must not happen: a change of the configuration, a jump or forgetting the remembered costs while a goal is pursued; maps and updates for a goal while the pose of
      the robot is unknown; a goal while it is unknown. *)
  Definition calm (n : node) (e : event) : Prop :=
    match e with
    | EConfig _ | EJump => n_goal n = None
    | EMap _ _ _ | EKept _ _ | EUpdate _ _ => n_goal n = None \/ n_start n <> None
    | EGoal _ _ => n_start n <> None
    | _ => True
    end.
  (** What repairs the damage: a goal, a map or an update that fits the map, while the pose is known. *)
  Definition repairs (n : node) (e : event) : Prop :=
    n_start n <> None /\
    match e with
    | EGoal _ _ => True
    | EMap _ _ _ => True
    | EUpdate u _ => exists i o, n_map n = Some (i, o) /\ too_large o u = false
    | _ => False
    end.
  (** No temporary goal is found, and no other goal is given. *)
  Definition goes_nowhere (f : found) : Prop := match f with FTo _ => False | _ => True end.
  Definition undisturbed (e : event) : Prop :=
    match e with
    | EMap _ _ k | EKept _ k | EUpdate _ k | ECycle k CNothing | ECycle k CEnd => goes_nowhere (k_found k)
    | ECycle k (CEscaped k') => goes_nowhere (k_found k) /\ goes_nowhere (k_found k')
    | ECycle k (CConsult f _) => goes_nowhere (k_found k) /\ goes_nowhere f
    | EEscape f _ => goes_nowhere f
    | EGoal _ _ => False
    | _ => True
    end.
End Spec.

(** *** Proofs *)
Section Proofs.
  Context {F : Type} (K : cost_ops F) {cfg mem info pose : Type}.
  Variables (envof : cfg -> mem -> costs -> @env F) (cell_of : info -> pose -> cell3) (pose_of : info -> cell3 -> pose) (range : cfg -> Z)
    (find_free : cfg -> costs -> cell3 -> option cell3) (remember : cfg -> (cell -> Z) -> cell3 -> mem -> mem) (forgotten : mem) (unknown_cost : Z) (overwrite : cfg -> bool).
  (** searchAvailablePos returns poses inside the map (C14), and the cell of the pose of such a cell is that cell (C18). *)
  Hypothesis find_in : forall c o p q, find_free c o p = Some q -> validate3 (v_w o) (v_h o) (v_a o) (range c) q = true.
  Hypothesis round_trip : forall c o p q i, find_free c o p = Some q -> cell_of i (pose_of i q) = q.
  Notation use := (@use F cfg mem info pose).
  Notation node := (@node F cfg mem info pose).
  Notation event := (@event F cfg info pose).
  Notation made := (made_for K envof cell_of find_free range).
  Notation body := (create_body K envof cell_of pose_of range find_free).
  Notation createCache := (createCache K envof cell_of pose_of range find_free).
  Notation inner := (inner_create K envof cell_of pose_of range find_free).
  Notation escape_goal := (escape_goal pose_of).
  Notation step := (step K envof cell_of pose_of range find_free remember forgotten unknown_cost overwrite).
  Notation run := (run K envof cell_of pose_of range find_free remember forgotten unknown_cost overwrite).
  Notation calm := (@calm F cfg mem info pose).
  Notation repairs := (@repairs F cfg mem info pose).

  Definition base (n : node) : Prop := n_map n = None -> n_created n = false.
  Definition in_sync (n : node) : Prop := forall g, n_goal n = Some g -> n_created n = true ->
    exists i o p, n_map n = Some (i, o) /\ made (n_cfg n) (n_mem n) i (view o) p (g_cur g) (n_dist n).
  Definition same (n n' : node) : Prop := n_uses n' = n_uses n /\ n_start n' = n_start n.
  Lemma same_refl n : same n n. Proof. split; reflexivity. Qed.
  Lemma same_trans a b c : same a b -> same b c -> same a c. Proof. intros [A B] [C D]. split; congruence. Qed.

  Lemma reloc_ok c i o p st s : reloc range find_free c o (cell_of i p) = (st, s) -> st = POk \/ st = PRelocated ->
    start_cell cell_of find_free range c i o p s /\ (st = POk -> s = cell_of i p) /\ (st = PRelocated -> cell_of i (pose_of i s) = s) /\ validate3 (v_w o) (v_h o) (v_a o) (range c) s = true.
  Proof.
    unfold reloc. destruct (validate3 _ _ _ _ _) eqn:V; cbn [negb]; [|intros E [-> | ->]; congruence].
    destruct (Z.eqb_spec (v_cm o (cell_of i p)) 100) as [E1|E1].
    - destruct (find_free c o (cell_of i p)) as [q|] eqn:Ef; intros E H; injection E as <- <-; [|destruct H; discriminate].
      split; [split; [exact V|right; auto]|]. split; [discriminate|]. split; [intros _; apply (round_trip _ _ _ _ _ Ef)|]. apply (find_in _ _ _ _ Ef).
    - intros E H. injection E as <- <-. split; [split; [exact V|left; auto]|]. split; [reflexivity|]. split; [discriminate|exact V].
  Qed.

  (** createCostEstimCache leaves the node in sync. *)
  Lemma body_syncs esc x n r : any_schedule (snd x) ->
    (forall n0 n1, n_created n0 = false -> base n0 -> esc n0 = ret n1 -> base n1 /\ in_sync n1 /\ same n0 n1) ->
    base n -> n_goal n = None \/ n_start n <> None -> body esc x n = ret r ->
    base (snd r) /\ in_sync (snd r) /\ same n (snd r).
  Proof.
    intros HO He Hb Hs E. unfold create_body in E.
    destruct (n_goal n) as [g|] eqn:Eg; [|injection E as <-; cbn [snd]; split; [exact Hb|]; split; [intros g Hg; congruence|apply same_refl]].
    destruct (n_map n) as [[i o]|] eqn:Em; [|injection E as <-; cbn [snd]; split; [exact Hb|]; split; [intros ? ? C; rewrite (Hb Em) in C; discriminate|apply same_refl]].
    destruct (n_start n) as [p|] eqn:Ep; [|destruct Hs as [Hs|Hs]; congruence]. clear Hs.
    set (n0 := set_dist false (n_dist n) n) in *.
    assert (Q0 : base n0 /\ in_sync n0 /\ same n n0). { split; [intros _; reflexivity|]. split; [intros ? _ C; discriminate C|split; reflexivity]. }
    destruct (reloc range find_free (n_cfg n) (view o) (cell_of i p)) as [ss s] eqn:Rs. destruct (reloc range find_free (n_cfg n) (view o) (cell_of i (g_raw g))) as [se e] eqn:Re.
    cbn [fst snd] in E.
    assert (B : forall cur, ss = POk \/ ss = PRelocated -> cell_of i cur = e -> validate3 (v_w (view o)) (v_h (view o)) (v_a (view o)) (range (n_cfg n)) e = true ->
      match create K (fst x) (snd x) (envof (n_cfg n) (n_mem n) (view o)) (n_dist n) (fst s) (fst e) with
      | Done d => ret (true, set_dist true d (set_goal (Some (Goals (g_raw g) cur (g_orig g) (g_esc g))) n)) | OutOfFuel => Ok None | Undefined => UB end = ret r ->
      base (snd r) /\ in_sync (snd r) /\ same n (snd r)).
    { intros cur Hss Hc Hv Hr. destruct (create K _ _ _ _ _ _) as [d| |] eqn:Ec; [|discriminate Hr|discriminate Hr]. injection Hr as <-. cbn [snd].
      split; [intros Q; cbn in Q; congruence|]. split; [|split; reflexivity]. intros g' Hg' _. cbn in Hg'. injection Hg' as <-. cbn [g_cur]. exists i, o, p. split; [exact Em|].
      exists (fst x), (snd x), (n_dist n), s. rewrite Hc. repeat (split; [first [exact HO | exact Hv | apply (proj1 (reloc_ok _ _ _ _ _ _ Rs Hss))]|]). exact Ec. }
    destruct ss; try (injection E as <-; cbn [snd]; exact Q0);
      (destruct se;
       [ destruct (reloc_ok _ _ _ _ _ _ Re (or_introl eq_refl)) as (_ & R2 & _ & R3); refine (B _ _ _ R3 E); [tauto|symmetry; apply R2; reflexivity]
       | destruct (reloc_ok _ _ _ _ _ _ Re (or_intror eq_refl)) as (_ & _ & R2 & R3); refine (B _ _ (R2 eq_refl) R3 E); tauto
       | destruct (g_esc g);
         [ injection E as <-; cbn [snd]; split; [intros _; reflexivity|]; split; [intros ? _ C; discriminate C|split; reflexivity]
         | destruct (esc n0) as [[n1|]|] eqn:Ee; cbn [andthen] in E; try discriminate E; injection E as <-; cbn [snd];
           destruct (He n0 n1 eq_refl ltac:(intros _; reflexivity) Ee) as (H1 & H2 & H3); split; [exact H1|]; split; [exact H2|]; exact H3 ]
       | injection E as <-; cbn [snd]; exact Q0 ]).
  Qed.
  Lemma escape_syncs f x n n' : any_schedule (snd x) -> base n -> in_sync n -> escape_goal f (inner x) n = ret n' -> base n' /\ in_sync n' /\ same n n'.
  Proof.
    intros HO Hb Hi E. assert (Q : base n /\ in_sync n /\ same n n) by (split; [exact Hb|split; [exact Hi|apply same_refl]]). unfold DistSync.escape_goal in E.
    destruct (n_goal n) as [g|] eqn:Eg; [|injection E as <-; exact Q]. destruct (n_map n) as [[i o]|] eqn:Em; [|injection E as <-; exact Q].
    destruct (n_start n) as [p|] eqn:Ep; [|injection E as <-; exact Q].
    assert (G : forall g', match inner x (set_goal (Some g') n) with UB => UB | Ok None => Ok None | Ok (Some r) => ret (snd r) end = ret n' -> base n' /\ in_sync n' /\ same n n').
    { intros g' E'. destruct (inner x (set_goal (Some g') n)) as [[r|]|] eqn:Ei; [|discriminate E'|discriminate E']. injection E' as <-.
      refine (body_syncs ret x (set_goal (Some g') n) r HO _ _ _ Ei).
      - intros n0 n1 C B R. injection R as <-. split; [exact B|]. split; [intros ? _ C'; congruence|apply same_refl].
      - exact Hb.
      - right. cbn. congruence. }
    destruct f as [| |c]; [injection E as <-; exact Q|apply (G _ E)|apply (G _ E)].
  Qed.
  Lemma cache_syncs k n r : call_ok k -> base n -> n_goal n = None \/ n_start n <> None -> createCache k n = ret r -> base (snd r) /\ in_sync (snd r) /\ same n (snd r).
  Proof.
    intros [H1 H2] Hb Hs E. refine (body_syncs _ _ _ _ H1 _ Hb Hs E). intros n0 n1 C B R. apply (escape_syncs _ _ _ _ H2 B) in R; [exact R|]. intros ? _ C'. congruence.
  Qed.
  Lemma updated_syncs k n n' : call_ok k -> base n -> n_goal n = None \/ n_start n <> None -> updated K envof cell_of pose_of range find_free remember k n = ret n' ->
    base n' /\ in_sync n' /\ same n n'.
  Proof.
    intros Hk Hb Hs E. unfold updated in E.
    assert (Z0 : n_goal n = None -> base n /\ in_sync n /\ same n n) by (intros Hg; split; [exact Hb|]; split; [intros ? ?; congruence|apply same_refl]).
    destruct (n_map n) as [[i o]|] eqn:Em.
    2:{ injection E as <-. split; [exact Hb|]. split; [intros ? _ C; rewrite (Hb Em) in C; discriminate|apply same_refl]. }
    destruct (n_start n) as [p|] eqn:Ep; [|injection E as <-; apply Z0; destruct Hs; [assumption|congruence]].
    cbn [n_goal set_mem] in E. set (n1 := set_mem (remember (n_cfg n) (o_upd o) (cell_of i p) (n_mem n)) n) in *. assert (S1 : same n n1) by (split; reflexivity).
    assert (B1 : base n1) by exact Hb.
    destruct (n_goal n) as [g|] eqn:Eg.
    - destruct (createCache k n1) as [[r|]|] eqn:Ec; cbn [andthen] in E; try discriminate E. injection E as <-.
      destruct (cache_syncs k n1 r Hk B1 ltac:(right; cbn; congruence) Ec) as (H1 & H2 & H3). split; [exact H1|]. split; [exact H2|]. apply (same_trans _ _ _ S1 H3).
    - injection E as <-. split; [exact B1|]. split; [intros ? Hg; cbn in Hg; congruence|exact S1].
  Qed.
  Lemma keep_view o x : view (keep o x) = view o. Proof. reflexivity. Qed.
  Lemma update_syncs u k n n' : call_ok k -> base n -> in_sync n -> n_goal n = None \/ n_start n <> None ->
    applyUpdate K envof cell_of pose_of range find_free remember overwrite u k n = ret n' -> base n' /\ in_sync n' /\ same n n'.
  Proof.
    intros Hk Hb Hi Hs E. unfold applyUpdate in E. destruct (n_map n) as [[i o]|] eqn:Em; [|injection E as <-; split; [exact Hb|split; [exact Hi|apply same_refl]]].
    destruct (apply_update (overwrite (n_cfg n)) o u) as [o'|] eqn:Eu; [|discriminate E].
    destruct (too_large o u) eqn:Et.
    - unfold apply_update in Eu. rewrite Et in Eu. injection Eu as <-. injection E as <-. split; [intros C; discriminate C|]. split; [|split; reflexivity].
      intros g Hg Hc. cbn in Hg, Hc. destruct (Hi g Hg Hc) as (i1 & o1 & p & E1 & M). rewrite Em in E1. injection E1 as <- <-. exists i, (keep o (Some u)), p. split; [reflexivity|]. exact M.
    - apply (updated_syncs k) in E; [exact E|exact Hk|intros C; discriminate C|exact Hs].
  Qed.

  Lemma step_syncs n e n' : event_ok e -> calm n e -> base n -> in_sync n -> step n e = ret n' ->
    base n' /\ in_sync n' /\ exists l, n_uses n' = n_uses n ++ l /\ Forall (up_to_date K envof cell_of find_free range) l.
  Proof.
    intros Hok Hc Hb Hi E.
    assert (W : forall n1, base n1 /\ in_sync n1 /\ same n n1 -> base n1 /\ in_sync n1 /\ exists l, n_uses n1 = n_uses n ++ l /\ Forall (up_to_date K envof cell_of find_free range) l).
    { intros n1 (H1 & H2 & H3 & _). split; [exact H1|]. split; [exact H2|]. exists []. rewrite app_nil_r. split; [exact H3|constructor]. }
    destruct e as [c|i m k|b k|u k|p|p k| |f x| |k y]; cbn [DistSync.step] in E.
    - injection E as <-. apply W. cbn in Hc. unfold cbParameter. cbn [n_map set_cfg]. destruct (n_map n) as [[i o]|] eqn:Em; (split; [exact Hb || (intros Q; cbn in Q; congruence)|]); (split; [intros g Hg; cbn in Hg; congruence|split; reflexivity]).
    - cbn in Hok, Hc. apply W. unfold cbMap in E. destruct (load_map _ _ _) as [o|]; [|discriminate E].
      match type of E with context [createCache k ?n1] => set (n2 := n1) in * end. destruct (createCache k n2) as [[r|]|] eqn:Ec; cbn [andthen] in E; try discriminate E. injection E as <-.
      apply (cache_syncs k n2 r Hok); [intros C; discriminate C|exact Hc|exact Ec].
    - cbn in Hok, Hc. apply W. unfold applyKept in E. assert (Q : base n /\ in_sync n /\ same n n) by (split; [exact Hb|split; [exact Hi|apply same_refl]]).
      destruct (n_map n) as [[i o]|] eqn:Em; [|injection E as <-; exact Q]. destruct (o_kept o) as [u|]; [|injection E as <-; exact Q].
      destruct (if b then _ else _) as [[n1|]|] eqn:E1; cbn [andthen] in E; try discriminate E. injection E as <-.
      assert (Q1 : base n1 /\ in_sync n1 /\ same n n1). { destruct b; [apply (update_syncs u k); assumption|injection E1 as <-; exact Q]. }
      destruct Q1 as (B1 & I1 & S1). destruct (n_map n1) as [[i1 o1]|] eqn:Em1; [|split; [exact B1|split; assumption]].
      split; [intros C; discriminate C|]. split; [|exact S1]. intros g Hg Hg1. cbn in Hg, Hg1. destruct (I1 g Hg Hg1) as (i2 & o2 & p & E2 & M). rewrite Em1 in E2. injection E2 as <- <-.
      exists i1, (keep o1 None), p. split; [reflexivity|exact M].
    - cbn in Hok, Hc. apply W. apply (update_syncs u k); assumption.
    - injection E as <-. destruct (n_map n) as [im|] eqn:Em; [|apply W; split; [exact Hb|split; [exact Hi|apply same_refl]]].
      split; [exact Hb|]. split; [exact Hi|]. exists []. rewrite app_nil_r. split; [reflexivity|constructor].
    - cbn in Hok, Hc. apply W. unfold setGoal in E. destruct (createCache k _) as [[r|]|] eqn:Ec; cbn [andthen] in E; try discriminate E. injection E as <-.
      apply (cache_syncs k _ r Hok) in Ec; [|exact Hb|right; exact Hc]. destruct Ec as (H1 & H2 & H3). destruct (fst r); [split; [exact H1|split; [exact H2|exact H3]]|].
      split; [exact H1|]. split; [intros ? Hg; discriminate Hg|exact H3].
    - injection E as <-. apply W. split; [exact Hb|]. split; [intros ? Hg; discriminate Hg|split; reflexivity].
    - cbn in Hok. apply W. apply (escape_syncs f x); assumption.
    - injection E as <-. apply W. split; [exact Hb|]. split; [intros ? Hg; cbn in Hg, Hc; congruence|split; reflexivity].
    - unfold planPath in E.
      destruct (match n_map n with Some _ => _ | None => _ end) as [[r|]|] eqn:E1; cbn [andthen] in E; try discriminate E.
      assert (Hk : call_ok k) by (destruct y; cbn in Hok; tauto).
      assert (Q : base (snd r) /\ in_sync (snd r) /\ same n (snd r)).
      { assert (Q : ret (true, n) = ret r -> base (snd r) /\ in_sync (snd r) /\ same n (snd r)) by (intros X; injection X as <-; cbn [snd]; split; [exact Hb|split; [exact Hi|apply same_refl]]).
        destruct (n_map n) as [im|] eqn:Em; [|exact (Q E1)]. destruct (n_created n) eqn:Ec; [exact (Q E1)|]. destruct (n_goal n) as [g|] eqn:Eg; [|exact (Q E1)].
        destruct (n_start n) as [p|] eqn:Ep.
        - apply (cache_syncs k n r Hk Hb); [right; congruence|exact E1].
        - unfold DistSync.createCache, create_body in E1. rewrite Eg, Em, Ep in E1. destruct im. exact (Q E1). }
      set (n1 := snd r) in *. destruct Q as (B1 & I1 & S1).
      assert (W1 : forall n2, base n2 /\ in_sync n2 /\ same n1 n2 -> base n2 /\ in_sync n2 /\ exists l, n_uses n2 = n_uses n ++ l /\ Forall (up_to_date K envof cell_of find_free range) l).
      { intros n2 (X1 & X2 & X3). apply W. split; [exact X1|split; [exact X2|apply (same_trans _ _ _ S1 X3)]]. }
      assert (Q1 : base n1 /\ in_sync n1 /\ same n1 n1) by (split; [exact B1|split; [exact I1|apply same_refl]]).
      destruct (n_map n1) as [[i o]|] eqn:Em; [|injection E as <-; apply W1, Q1]. destruct (n_goal n1) as [g|] eqn:Eg; [|injection E as <-; apply W1, Q1].
      destruct (n_start n1) as [p|] eqn:Ep; [|injection E as <-; apply W1, Q1].
      destruct y as [| |k'|f x].
      + injection E as <-. apply W1, Q1.
      + injection E as <-. apply W1. split; [exact B1|]. split; [intros ? Hg; discriminate Hg|split; reflexivity].
      + destruct (n_created n1 && g_esc g); [|injection E as <-; apply W1, Q1]. destruct (createCache k' _) as [[r'|]|] eqn:Ec; cbn [andthen] in E; try discriminate E. injection E as <-.
        apply W1. apply (cache_syncs k' _ r' (proj2 Hok)) in Ec; [exact Ec|exact B1|right; cbn; congruence].
      + destruct (n_created n1) eqn:Ec; [|injection E as <-; apply W1, Q1]. set (u := Use _ _ _ _ _ _ _) in *.
        assert (I2 : in_sync (add_use u n1)) by exact I1. assert (B2 : base (add_use u n1)) by exact B1.
        destruct (escape_syncs f x (add_use u n1) n' (proj2 Hok) B2 I2 E) as (X1 & X2 & X3 & _). split; [exact X1|]. split; [exact X2|]. exists [u]. rewrite X3.
        cbn [n_uses add_use]. rewrite (proj1 S1). split; [reflexivity|]. constructor; [|constructor]. destruct (I1 g Eg Ec) as (i' & o' & q & E' & M). rewrite Em in E'. injection E' as <- <-.
        exists q. exact M.
  Qed.
  Lemma step_base n e n' : event_ok e -> base n -> step n e = ret n' -> base n'.
  Proof.
    (* the flag is set only by createCostEstimCache, and only with a map *)
    intros _ Hb E.
    assert (Bb : forall esc x m r, (forall n0 n1, base n0 -> esc n0 = ret n1 -> base n1) -> base m -> body esc x m = ret r -> base (snd r)).
    { intros esc x m r He Bm Er. unfold create_body in Er. destruct (n_goal m) as [g|]; [|injection Er as <-; exact Bm]. destruct (n_map m) as [[i o]|] eqn:Em; [|injection Er as <-; exact Bm].
      destruct (n_start m) as [p|]; [|injection Er as <-; exact Bm].
      assert (B0 : base (set_dist false (n_dist m) m)) by (intros _; reflexivity).
      destruct (fst (reloc range find_free (n_cfg m) (view o) (cell_of i p))); try (injection Er as <-; exact B0);
       (destruct (fst (reloc range find_free (n_cfg m) (view o) (cell_of i (g_raw g))));
        [ destruct (create K _ _ _ _ _ _); try discriminate Er; injection Er as <-; intros C; cbn in C; congruence
        | destruct (create K _ _ _ _ _ _); try discriminate Er; injection Er as <-; intros C; cbn in C; congruence
        | destruct (g_esc g); [injection Er as <-; intros _; reflexivity|]; destruct (esc _) as [[n1|]|] eqn:Ee; cbn [andthen] in Er; try discriminate Er; injection Er as <-; exact (He _ _ B0 Ee)
        | injection Er as <-; exact B0 ]). }
    assert (Be : forall f x m m', base m -> escape_goal f (inner x) m = ret m' -> base m').
    { intros f x m m' Bm Er. unfold DistSync.escape_goal in Er. destruct (n_goal m) as [g|]; [|injection Er as <-; exact Bm]. destruct (n_map m) as [[i o]|] eqn:Em; [|injection Er as <-; exact Bm].
      destruct (n_start m) as [p|]; [|injection Er as <-; exact Bm].
      destruct f; [injection Er as <-; exact Bm| |]; (destruct (inner x _) as [[r|]|] eqn:Ei; cbn [andthen] in Er; try discriminate Er; injection Er as <-;
        refine (Bb ret _ _ _ _ _ Ei); [intros ? ? B0 X; injection X as <-; exact B0|exact Bm]). }
    assert (Bc : forall k m r, base m -> createCache k m = ret r -> base (snd r)) by (intros k m r Bm Er; refine (Bb _ _ _ _ _ Bm Er); intros n0 n1 B0 X; apply (Be _ _ _ _ B0 X)).
    assert (Bu : forall u k m m', base m -> applyUpdate K envof cell_of pose_of range find_free remember overwrite u k m = ret m' -> base m').
    { intros u k m m' Bm Er. unfold applyUpdate in Er. destruct (n_map m) as [[i o]|] eqn:Em; [|injection Er as <-; exact Bm]. destruct (apply_update _ o u) as [o'|]; [|discriminate Er].
      destruct (too_large o u); [injection Er as <-; intros C; discriminate C|]. unfold updated in Er. cbn [n_map set_map n_start n_goal set_mem] in Er.
      destruct (n_start m); [|injection Er as <-; intros C; discriminate C]. destruct (n_goal m); [|injection Er as <-; intros C; discriminate C].
      destruct (createCache k _) as [[r|]|] eqn:Ei; cbn [andthen] in Er; try discriminate Er; injection Er as <-. apply Bc in Ei; [exact Ei|intros C; discriminate C]. }
    destruct e as [c|i m k|b k|u k|p|p k| |f x| |k y]; cbn [DistSync.step] in E.
    - injection E as <-. unfold cbParameter. cbn [n_map set_cfg]. destruct (n_map n) eqn:Em; [intros C; cbn in C; congruence|exact Hb].
    - unfold cbMap in E. destruct (load_map _ _ _) as [o|]; [|discriminate E]. destruct (createCache k _) as [[r|]|] eqn:Ec; cbn [andthen] in E; try discriminate E. injection E as <-.
      apply Bc in Ec; [exact Ec|intros C; discriminate C].
    - unfold applyKept in E. destruct (n_map n) as [[i o]|] eqn:Em; [|injection E as <-; exact Hb]. destruct (o_kept o) as [u|]; [|injection E as <-; exact Hb].
      destruct (if b then _ else _) as [[n1|]|] eqn:E1; cbn [andthen] in E; try discriminate E. injection E as <-.
      assert (B1 : base n1) by (destruct b; [apply (Bu _ _ _ _ Hb E1)|injection E1 as <-; exact Hb]). destruct (n_map n1) as [[i1 o1]|] eqn:Em1; [intros C; discriminate C|exact B1].
    - apply (Bu _ _ _ _ Hb E).
    - injection E as <-. destruct (n_map n); exact Hb.
    - unfold setGoal in E. destruct (createCache k _) as [[r|]|] eqn:Ec; cbn [andthen] in E; try discriminate E. injection E as <-. apply Bc in Ec; [|exact Hb]. destruct (fst r); exact Ec.
    - injection E as <-. exact Hb.
    - apply (Be _ _ _ _ Hb E).
    - injection E as <-. exact Hb.
    - unfold planPath in E. destruct (match n_map n with Some _ => _ | None => _ end) as [[r|]|] eqn:E1; cbn [andthen] in E; try discriminate E.
      assert (B1 : base (snd r)).
      { destruct (n_map n); [|injection E1 as <-; exact Hb]. destruct (n_created n); [injection E1 as <-; exact Hb|]. destruct (n_goal n); [apply (Bc _ _ _ Hb E1)|injection E1 as <-; exact Hb]. }
      destruct (n_map (snd r)) as [[i o]|] eqn:Em; [|injection E as <-; exact B1]. destruct (n_goal (snd r)) as [g|]; [|injection E as <-; exact B1]. destruct (n_start (snd r)); [|injection E as <-; exact B1].
      destruct y as [| |k'|f x]; [injection E as <-; exact B1|injection E as <-; exact B1| |].
      + destruct (_ && _); [|injection E as <-; exact B1]. destruct (createCache k' _) as [[r'|]|] eqn:Ec; cbn [andthen] in E; try discriminate E. injection E as <-. apply Bc in Ec; [exact Ec|exact B1].
      + destruct (n_created (snd r)) eqn:Ecr; [|injection E as <-; exact B1]. apply Be in E; [exact E|]. intros C. cbn in C. congruence.
  Qed.
  Lemma step_repairs n e n' : event_ok e -> base n -> repairs n e -> step n e = ret n' -> in_sync n'.
  Proof.
    intros Hok Hb [Hs R] E. destruct e as [c|i m k|b k|u k|p|p k| |f x| |k y]; cbn in R; try contradiction; cbn [DistSync.step] in E; cbn in Hok.
    - unfold cbMap in E. destruct (load_map _ _ _) as [o|]; [|discriminate E]. destruct (createCache k _) as [[r|]|] eqn:Ec; cbn [andthen] in E; try discriminate E. injection E as <-.
      apply (cache_syncs k _ r Hok) in Ec; [apply Ec|intros C; discriminate C|right; exact Hs].
    - destruct R as (i & o & Em & Et). unfold applyUpdate in E. rewrite Em, Et in E. destruct (apply_update _ o u) as [o'|]; [|discriminate E].
      apply (updated_syncs k) in E; [apply E|exact Hok|intros C; discriminate C|right; exact Hs].
    - unfold setGoal in E. destruct (createCache k _) as [[r|]|] eqn:Ec; cbn [andthen] in E; try discriminate E. injection E as <-.
      apply (cache_syncs k _ r Hok) in Ec; [|exact Hb|right; exact Hs]. destruct Ec as (_ & H2 & _). destruct (fst r); [exact H2|]. intros ? Hg. discriminate Hg.
  Qed.

  (** All events of the history are calm in the state they meet. *)
  Fixpoint calm_run (n : node) (es : list event) : Prop :=
    match es with [] => True | e :: es' => calm n e /\ forall n1, step n e = ret n1 -> calm_run n1 es' end.
  Lemma run_syncs es : forall n n', Forall event_ok es -> base n -> in_sync n -> calm_run n es -> run n es = ret n' ->
    exists l, n_uses n' = n_uses n ++ l /\ Forall (up_to_date K envof cell_of find_free range) l.
  Proof.
    induction es as [|e es IH]; intros n n' Ho Hb Hi Hc E; cbn [DistSync.run] in E.
    - injection E as <-. exists []. rewrite app_nil_r. split; [reflexivity|constructor].
    - apply Forall_cons_iff in Ho as [Ho1 Ho2]. destruct Hc as [Hc1 Hc2]. destruct (step n e) as [[n1|]|] eqn:E1; cbn [andthen] in E; try discriminate E.
      destruct (step_syncs n e n1 Ho1 Hc1 Hb Hi E1) as (B1 & I1 & l1 & U1 & F1). destruct (IH n1 n' Ho2 B1 I1 (Hc2 n1 eq_refl) E) as (l2 & U2 & F2).
      exists (l1 ++ l2). rewrite U2, U1, app_assoc. split; [reflexivity|]. apply Forall_app. split; assumption.
  Qed.
  Lemma run_base es : forall n n', Forall event_ok es -> base n -> run n es = ret n' -> base n'.
  Proof.
    induction es as [|e es IH]; intros n n' Ho Hb E; cbn [DistSync.run] in E; [injection E as <-; exact Hb|].
    apply Forall_cons_iff in Ho as [Ho1 Ho2]. destruct (step n e) as [[n1|]|] eqn:E1; cbn [andthen] in E; try discriminate E. apply (IH n1 n' Ho2); [apply (step_base n e n1 Ho1 Hb E1)|exact E].
  Qed.

  (** *** The goal that is pursued *)
  Definition wanted (p : pose) (g : goals) : Prop :=
    g_orig g = p /\ g_raw g = p /\ g_esc g = false /\ (g_cur g = p \/ exists c i o q, find_free c o (cell_of i p) = Some q /\ g_cur g = pose_of i q).
  Definition wants (p : pose) (n : node) : Prop := forall g, n_goal n = Some g -> wanted p g.
  Lemma wanted_new p : wanted p (Goals p p p false). Proof. repeat split. left. reflexivity. Qed.
  Lemma body_wants p esc x n r : (forall n0 n1, wants p n0 -> esc n0 = ret n1 -> wants p n1) -> wants p n -> body esc x n = ret r -> wants p (snd r).
  Proof.
    intros He W E. unfold create_body in E. destruct (n_goal n) as [g|] eqn:Eg; [|injection E as <-; exact W]. destruct (n_map n) as [[i o]|]; [|injection E as <-; exact W].
    destruct (n_start n) as [q|]; [|injection E as <-; exact W]. destruct (W g Eg) as (W1 & W2 & W3 & W4).
    assert (W0 : wants p (set_dist false (n_dist n) n)) by exact W.
    assert (G : forall cur, (cur = p \/ exists c i o q, find_free c o (cell_of i p) = Some q /\ cur = pose_of i q) ->
      forall d, wants p (set_dist true d (set_goal (Some (Goals (g_raw g) cur (g_orig g) (g_esc g))) n))).
    { intros cur H d g' Hg'. cbn in Hg'. injection Hg' as <-. split; [exact W1|]. split; [exact W2|]. split; [exact W3|exact H]. }
    destruct (fst (reloc range find_free (n_cfg n) (view o) (cell_of i q))); try (injection E as <-; exact W0);
      (destruct (reloc range find_free (n_cfg n) (view o) (cell_of i (g_raw g))) as [se e] eqn:Re; cbn [fst snd] in E; destruct se;
       [ destruct (create K _ _ _ _ _ _); try discriminate E; injection E as <-; apply G; left; exact W2
       | destruct (create K _ _ _ _ _ _); try discriminate E; injection E as <-; apply G; right; exists (n_cfg n), i, (view o), e; split; [|reflexivity];
         rewrite W2 in Re; unfold reloc in Re; destruct (negb _); [discriminate Re|]; destruct (_ =? 100); [|discriminate Re]; destruct (find_free _ _ _); [|discriminate Re]; congruence
       | rewrite W3 in E; destruct (esc _) as [[n1|]|] eqn:Ee; cbn [andthen] in E; try discriminate E; injection E as <-; exact (He _ _ W0 Ee)
       | injection E as <-; exact W0 ]).
  Qed.
  Lemma escape_wants p f x n n' : goes_nowhere f -> wants p n -> escape_goal f (inner x) n = ret n' -> wants p n'.
  Proof.
    intros Hf W E. unfold DistSync.escape_goal in E. destruct (n_goal n) as [g|] eqn:Eg; [|injection E as <-; exact W]. destruct (n_map n) as [[i o]|]; [|injection E as <-; exact W].
    destruct (n_start n); [|injection E as <-; exact W]. destruct f as [| |c]; [injection E as <-; exact W| |destruct Hf].
    destruct (inner x _) as [[r|]|] eqn:Ei; cbn [andthen] in E; try discriminate E. injection E as <-. refine (body_wants p ret _ _ _ _ _ Ei); [intros ? ? W0 X; injection X as <-; exact W0|].
    intros g' Hg'. cbn in Hg'. injection Hg' as <-. destruct (W g Eg) as (-> & _). apply wanted_new.
  Qed.
  Lemma cache_wants p k n r : goes_nowhere (k_found k) -> wants p n -> createCache k n = ret r -> wants p (snd r).
  Proof. intros Hk W E. refine (body_wants p _ _ _ _ _ W E). intros n0 n1 W0 X. apply (escape_wants _ _ _ _ _ Hk W0 X). Qed.
  Lemma update_wants p u k n n' : goes_nowhere (k_found k) -> wants p n -> applyUpdate K envof cell_of pose_of range find_free remember overwrite u k n = ret n' -> wants p n'.
  Proof.
    intros Hk W E. unfold applyUpdate in E. destruct (n_map n) as [[i o]|]; [|injection E as <-; exact W]. destruct (apply_update _ o u) as [o'|]; [|discriminate E].
    destruct (too_large o u); [injection E as <-; exact W|]. unfold updated in E. cbn [n_map set_map n_start n_goal set_mem] in E. destruct (n_start n); [|injection E as <-; exact W].
    destruct (n_goal n); [|injection E as <-; exact W]. destruct (createCache k _) as [[r|]|] eqn:Ec; cbn [andthen] in E; try discriminate E. injection E as <-.
    apply (cache_wants p k) in Ec; [exact Ec|exact Hk|exact W].
  Qed.
  Lemma step_wants p n e n' : undisturbed e -> wants p n -> step n e = ret n' -> wants p n'.
  Proof.
    intros Hu W E. assert (WN : forall m : node, wants p (set_goal None m)) by (intros m g Hg; discriminate Hg).
    destruct e as [c|i m k|b k|u k|q|q k| |f x| |k y]; cbn [DistSync.step] in E; cbn in Hu.
    - injection E as <-. unfold cbParameter. cbn [n_map set_cfg]. destruct (n_map n); exact W.
    - unfold cbMap in E. destruct (load_map _ _ _) as [o|]; [|discriminate E]. destruct (createCache k _) as [[r|]|] eqn:Ec; cbn [andthen] in E; try discriminate E. injection E as <-.
      apply (cache_wants p k) in Ec; [exact Ec|exact Hu|exact W].
    - unfold applyKept in E. destruct (n_map n) as [[i o]|]; [|injection E as <-; exact W]. destruct (o_kept o) as [u|]; [|injection E as <-; exact W].
      destruct (if b then _ else _) as [[n1|]|] eqn:E1; cbn [andthen] in E; try discriminate E. injection E as <-.
      assert (W1 : wants p n1) by (destruct b; [apply (update_wants p u k _ _ Hu W E1)|injection E1 as <-; exact W]). destruct (n_map n1) as [[i1 o1]|]; exact W1.
    - apply (update_wants p u k _ _ Hu W E).
    - injection E as <-. destruct (n_map n); exact W.
    - destruct Hu.
    - injection E as <-. apply WN.
    - apply (escape_wants p f x _ _ Hu W E).
    - injection E as <-. exact W.
    - unfold planPath in E. destruct (match n_map n with Some _ => _ | None => _ end) as [[r|]|] eqn:E1; cbn [andthen] in E; try discriminate E.
      assert (Hk : goes_nowhere (k_found k)) by (destruct y; tauto).
      assert (W1 : wants p (snd r)).
      { destruct (n_map n); [|injection E1 as <-; exact W]. destruct (n_created n); [injection E1 as <-; exact W|]. destruct (n_goal n); [apply (cache_wants p k _ _ Hk W E1)|injection E1 as <-; exact W]. }
      destruct (n_map (snd r)) as [[i o]|]; [|injection E as <-; exact W1]. destruct (n_goal (snd r)) as [g|] eqn:Eg; [|injection E as <-; exact W1]. destruct (n_start (snd r)); [|injection E as <-; exact W1].
      destruct y as [| |k'|f x]; [injection E as <-; exact W1|injection E as <-; apply WN| |].
      + destruct (_ && _); [|injection E as <-; exact W1]. destruct (createCache k' _) as [[r'|]|] eqn:Ec; cbn [andthen] in E; try discriminate E. injection E as <-.
        apply (cache_wants p k') in Ec; [exact Ec|tauto|]. intros g' Hg'. cbn in Hg'. injection Hg' as <-. destruct (W1 g Eg) as (-> & _). apply wanted_new.
      + destruct (n_created (snd r)); [|injection E as <-; exact W1]. apply (escape_wants p f x) in E; [exact E|tauto|exact W1].
  Qed.

  (** *** Theorems *)
  (** In every calm history the planner consults distances made for the goal, the costs and the configuration of that moment. *)
  Theorem C87_consulted_distances_are_up_to_date c es n : Forall event_ok es -> run (new_node K forgotten c) es = ret n -> calm_run (new_node K forgotten c) es ->
    Forall (up_to_date K envof cell_of find_free range) (n_uses n).
  Proof.
    intros Ho E Hc. destruct (run_syncs es (new_node K forgotten c) n Ho) as (l & U & Fl); [intros _; reflexivity|intros g Hg; discriminate Hg|exact Hc|exact E|]. rewrite U. exact Fl.
  Qed.
  (** Whatever happened before: after a goal, a map or an update that arrives while the pose is known, and as long as it is calm, so they are. *)
  Theorem C87_an_update_repairs_the_distances c es1 e es2 n1 n2 n3 : Forall event_ok (es1 ++ e :: es2) ->
    run (new_node K forgotten c) es1 = ret n1 -> repairs n1 e -> step n1 e = ret n2 -> run n2 es2 = ret n3 -> calm_run n2 es2 ->
    exists l, n_uses n3 = n_uses n2 ++ l /\ Forall (up_to_date K envof cell_of find_free range) l.
  Proof.
    intros Ho E1 Hr E2 E3 Hc. apply Forall_app in Ho as [Ho1 Ho2]. apply Forall_cons_iff in Ho2 as [Ho2 Ho3].
    assert (B1 : base n1) by (apply (run_base es1 (new_node K forgotten c) n1 Ho1); [intros _; reflexivity|exact E1]).
    apply (run_syncs es2 n2 n3 Ho3); [apply (step_base n1 e n2 Ho2 B1 E2)|apply (step_repairs n1 e n2 Ho2 B1 Hr E2)|exact Hc|exact E3].
  Qed.

  (** The goal that is pursued: as long as no temporary goal is found and no other goal given, it is the one that was asked for, or the free pose next to it. *)
  Theorem C87_the_goal_is_the_one_asked_for n1 p k n2 es n3 g : goes_nowhere (k_found k) -> Forall undisturbed es -> step n1 (EGoal p k) = ret n2 -> run n2 es = ret n3 ->
    n_goal n3 = Some g -> wanted p g.
  Proof.
    intros Hk Hu E1 E2. revert g. change (wants p n3). assert (W : wants p n2).
    { cbn [DistSync.step] in E1. unfold setGoal in E1. destruct (createCache k _) as [[r|]|] eqn:Ec; cbn [andthen] in E1; try discriminate E1. injection E1 as <-.
      apply (cache_wants p k) in Ec; [|exact Hk|intros g Hg; cbn in Hg; injection Hg as <-; apply wanted_new]. destruct (fst r); [exact Ec|]. intros g Hg. discriminate Hg. }
    clear E1. revert n2 W E2. induction es as [|e es IH]; intros n2 W E2; cbn [DistSync.run] in E2; [injection E2 as <-; exact W|]. apply Forall_cons_iff in Hu as [Hu1 Hu2].
    destruct (step n2 e) as [[n|]|] eqn:E; cbn [andthen] in E2; try discriminate E2. apply (IH Hu2 n); [apply (step_wants p n2 e n Hu1 W E)|exact E2].
  Qed.

  (** What that means for the values, when the parameters are sane: in the present costs, from the present goal, every value is the cost of a route or unreachable, a cell without a
      route is unreachable, and the cell the robot was in when the map was made has the exact cost. *)
  Variables (num : F -> Prop) (D : dist_laws K num).
  Hypothesis env_sane : forall c m o, sane K num (envof c m o).
  Hypothesis env_size : forall c m o, e_w (envof c m o) = v_w o /\ e_h (envof c m o) = v_h o.
  Hypothesis range_ok : forall c, 0 <= range c.
  Lemma valid_inmap c m o q : validate3 (v_w o) (v_h o) (v_a o) (range c) q = true -> inmap (envof c m o) (fst q) = true.
  Proof.
    unfold validate3, inmap. destruct (env_size c m o) as [-> ->]. generalize (range_ok c). generalize (range c). generalize (v_w o), (v_h o), (v_a o). clear. intros. lia.
  Qed.
  Theorem C87_up_to_date_distances_are_route_costs u : up_to_date K envof cell_of find_free range u ->
    let E := envof (w_cfg u) (w_mem u) (w_costs u) in let e := fst (cell_of (w_info u) (w_goal u)) in
    dm_g (w_dist u) e = fzero K /\
    (forall v, v <> e -> (dm_g (w_dist u) v = fmax K \/ route K E e (e_g0 E) v (dm_g (w_dist u) v))) /\
    exists p s, start_cell cell_of find_free range (w_cfg u) (w_info u) (w_costs u) p s /\
      (fst s <> e -> forall c, route K E e (e_g0 E) (fst s) c -> fleb K (dm_g (w_dist u) (fst s)) c = true) /\
      (fst s <> e -> dm_g (w_dist u) (fst s) = fmax K -> forall v c, v <> e -> route K E e (e_g0 E) v c -> fleb K (dm_g (w_dist u) v) c = true).
  Proof.
    intros (p & fuel & O & d0 & s & HO & Hs & Hg & Ec). set (E := envof (w_cfg u) (w_mem u) (w_costs u)). set (e := fst (cell_of (w_info u) (w_goal u))). cbv zeta.
    assert (Vs : validate3 (v_w (w_costs u)) (v_h (w_costs u)) (v_a (w_costs u)) (range (w_cfg u)) s = true).
    { destruct Hs as [V [[_ ->]|[_ Hf]]]; [exact V|apply (find_in _ _ _ _ Hf)]. }
    pose proof (valid_inmap (w_cfg u) (w_mem u) (w_costs u) s Vs) as Is. pose proof (valid_inmap (w_cfg u) (w_mem u) (w_costs u) _ Hg) as Ie. fold E in Is, Ie, Ec. fold e in Ie, Ec.
    destruct (C10_values_are_shortest K num D E fuel O d0 (fst s) e (w_dist u) (env_sane _ _ _) HO Is Ie Ec) as [Z1 Z2]. split; [exact Z1|]. split; [intros v Hv; apply (Z2 v Hv)|].
    exists p, s. split; [exact Hs|].
    split; intros N.
    - apply (C10_start_cell_is_exact K num D E fuel O d0 (fst s) e (w_dist u) (env_sane _ _ _) HO Is Ie N Ec).
    - intros M. apply (C10_start_cell_is_exact K num D E fuel O d0 (fst s) e (w_dist u) (env_sane _ _ _) HO Is Ie N Ec), M.
  Qed.
End Proofs.

(** ** Cases that meet the hypotheses *)
Module SyncExample.
  Import DistExample.
  (** Poses are cells; the free cell next to an occupied one is the one to its right; the remembered costs are one weight that every update increases. *)
  Definition env_of (_ : unit) (m : Z) (o : costs) : @env (option Z) :=
    Env (v_w o) (v_h o) (search_diffs euc) (v_rough o) (fun _ _ => Some (Z.abs m)) (Some 1000) (Some (-5)) 1.
  Definition right_of (_ : unit) (o : costs) (p : cell3) : option cell3 :=
    let q := ((fst (fst p) + 1, snd (fst p)), snd p) in if validate3 (v_w o) (v_h o) (v_a o) 0 q && negb (v_cm o q =? 100) then Some q else None.
  Definition cellof (_ : unit) (p : cell3) : cell3 := p.
  Definition no_range (_ : unit) := 0.
  Definition over (_ : unit) := false.
  Definition rem (_ : unit) (_ : cell -> Z) (_ : cell3) (m : Z) : Z := m + 3.
  Notation start := (@new_node (option Z) KZ unit Z unit cell3 0 tt).
  Notation go := (run KZ env_of cellof cellof no_range right_of rem 0 100 over).
  Notation fresh := (up_to_date KZ env_of cellof right_of no_range).
  Notation calmly := (calm_run KZ env_of cellof cellof no_range right_of rem 0 100 over).

  Lemma right_in c o p q : right_of c o p = Some q -> validate3 (v_w o) (v_h o) (v_a o) (no_range c) q = true.
  Proof. unfold right_of. destruct (validate3 _ _ _ _ _) eqn:V; [|discriminate]. destruct (_ =? 100); [discriminate|]. intros E. injection E as <-. exact V. Qed.
  Lemma right_trip (c : unit) (o : costs) (p q : cell3) (i : unit) : right_of c o p = Some q -> cellof i (cellof i q) = q.
  Proof. reflexivity. Qed.
  Lemma env_of_sane c m o : sane KZ anyZ (env_of c m o).
  Proof.
    split; [cbn; lia|]. split.
    - exists euc. split; [reflexivity|]. intros n. split; [exact I|]. unfold not_below, euc. pose proof (Z.sqrt_nonneg (100 * n)). generalize dependent (Z.sqrt (100 * n)). intros z Hz. simpl. lia.
    - split; [intros; split; [exact I|unfold not_below; cbn; lia]|]. split; [split; reflexivity|split; [exact I|reflexivity]].
  Qed.

  Definition k : @call (option Z) := Call (400%nat, orc) FNone (400%nat, orc).
  Lemma k_ok : call_ok k. Proof. split; exact orc_fair. Qed.
  Definition cells (obst : list cell) : list Z := map (blocked obst) (flat_map (fun y => map (fun x => (x, y)) [0;1;2;3;4;5]) [0;1;2;3;4]).
  (** The map of DistExample, an update that closes the lower corridor at (1,4) and (2,4), and one that opens it again. *)
  Definition map0 := MMsg 0 6 5 1 (cells wall).
  Definition closing := UMsg 1 1 4 0 2 1 1 [100; 100].
  Definition opening := UMsg 2 1 4 0 2 1 1 [0; 0].
  Definition consult : @course (option Z) := CConsult FNone (400%nat, orc).
  Notation ev := (@event (option Z) unit unit cell3).
  Definition at_ (x y : Z) : option cell3 := Some ((x, y), 0).

  Definition values (r : ran (@node (option Z) unit Z unit cell3)) : list (cell3 * cell3 * option Z * option Z) :=
    match r with Ok (Some n) => map (fun u => (w_robot u, w_goal u, dm_g (w_dist u) (fst (w_robot u)), dm_g (w_dist u) (fst (w_goal u)))) (n_uses n) | _ => [] end.
  Definition calm_day : list ev :=
    [EMap tt map0 k; EKept true k; EStart (at_ 0 0); EGoal ((5, 2), 0) k; ECycle k consult; EUpdate closing k; ECycle k consult; EEnd; EConfig tt; EJump; EStart (at_ 3 1); EGoal ((3, 2), 0) k; ECycle k consult].
  (** The goal, then an update that makes the remembered costs count, then an occupied robot and an occupied goal, both relocated. *)
  Example calm_values : values (go start calm_day) =
    [(((0, 0), 0), ((5, 2), 0), Some 51, Some 0); (((0, 0), 0), ((5, 2), 0), Some 59, Some 0); (((3, 1), 0), ((4, 2), 0), Some 9, Some 0)].
  Proof. vm_compute. reflexivity. Qed.

  (** Checking that a history is calm. *)
  Definition none {A} (o : option A) : bool := match o with None => true | Some _ => false end.
  Definition calmb (n : @node (option Z) unit Z unit cell3) (e : ev) : bool :=
    match e with EConfig _ | EJump => none (n_goal n) | EMap _ _ _ | EKept _ _ | EUpdate _ _ => none (n_goal n) || negb (none (n_start n)) | EGoal _ _ => negb (none (n_start n)) | _ => true end.
  Fixpoint calm_runb (n : @node (option Z) unit Z unit cell3) (es : list ev) : bool :=
    match es with [] => true | e :: es' => calmb n e && match step KZ env_of cellof cellof no_range right_of rem 0 100 over n e with Ok (Some n1) => calm_runb n1 es' | _ => true end end.
  Lemma calm_runb_ok es : forall n, calm_runb n es = true -> calmly n es.
  Proof.
    induction es as [|e es IH]; intros n H; [exact I|]. cbn [calm_runb] in H. apply andb_true_iff in H as [H1 H2]. split.
    - destruct e; cbn in *; try exact I; destruct (n_goal n), (n_start n); try discriminate H1; auto; try (right; discriminate); discriminate.
    - intros n1 E. rewrite E in H2. apply IH, H2.
  Qed.
  Definition is_ret {A} (r : ran A) : bool := match r with Ok (Some _) => true | _ => false end.
  Lemma is_ret_ok {A} (r : ran A) : is_ret r = true -> exists a, r = ret a.
  Proof. destruct r as [[a|]|]; try discriminate. intros _. exists a. reflexivity. Qed.
  Lemma oks (es : list ev) : (forall e, In e es -> event_ok e) -> Forall event_ok es. Proof. apply Forall_forall. Qed.
  Ltac events := repeat (constructor; [first [exact I | exact k_ok | exact (conj k_ok orc_fair)]|]); constructor.
  Example calm_day_is_calm : Forall event_ok calm_day /\ calmly start calm_day /\ exists n, go start calm_day = ret n.
  Proof. split; [unfold calm_day; events|]. split; [apply calm_runb_ok; vm_compute; reflexivity|apply is_ret_ok; vm_compute; reflexivity]. Qed.

  Example undisturbed_day : Forall undisturbed [EUpdate closing k; ECycle k consult; EStart None; EConfig tt; EKept true k : ev].
  Proof. repeat (constructor; [first [exact I | split; exact I]|]); constructor. Qed.

  (** Without calm the distances may be of no use; [fresh_value]: what a filling for the present state gives. *)
  Definition last_use (r : ran (@node (option Z) unit Z unit cell3)) : option (@use (option Z) unit Z unit cell3) :=
    match r with Ok (Some n) => match rev (n_uses n) with u :: _ => Some u | [] => None end | _ => None end.
  Definition fresh_value (u : @use (option Z) unit Z unit cell3) (c : cell) : option (option Z) :=
    value (create KZ 400 orc (env_of (w_cfg u) (w_mem u) (w_costs u)) (init KZ) (fst (w_robot u)) (fst (w_goal u))) c.
  Definition compare (es : list ev) (c : cell) : option (option Z * option (option Z)) :=
    match last_use (go start es) with Some u => Some (dm_g (w_dist u) c, fresh_value u c) | None => None end.
  Definition reconfigured : list ev := [EMap tt map0 k; EStart (at_ 0 0); EGoal ((5, 2), 0) k; EConfig tt; ECycle k consult].
  Definition map_while_lost : list ev := [EMap tt map0 k; EStart (at_ 0 0); EGoal ((5, 2), 0) k; EStart None; EMap tt map0 k; EKept true k; EStart (at_ 0 0); ECycle k consult].
  Definition update_while_lost : list ev :=
    [EMap tt map0 k; EStart (at_ 0 4); EUpdate closing k; EGoal ((5, 2), 0) k; EStart None; EUpdate opening k; EStart (at_ 0 4); ECycle k consult].
  Definition closed_while_lost : list ev := [EMap tt map0 k; EStart (at_ 0 4); EGoal ((5, 2), 0) k; EStart None; EUpdate closing k; EStart (at_ 0 4); ECycle k consult].
  Definition goal_while_lost : list ev := [EMap tt map0 k; EStart (at_ 0 0); EGoal ((5, 2), 0) k; EStart None; EGoal ((0, 4), 0) k; EStart (at_ 0 0); ECycle k consult].
  Definition forgot : list ev := [EMap tt map0 k; EStart (at_ 0 0); EUpdate opening k; EUpdate opening k; EGoal ((5, 2), 0) k; EJump; ECycle k consult].
  (** The same histories, each followed by an update that arrives while the pose is known: all is well again. *)
  Definition repaired (es : list ev) : list ev := es ++ [EUpdate opening k; ECycle k consult].
  (** All of them meet the hypotheses of the second theorem. *)
  Lemma last_repairs (es : list ev) (n : @node (option Z) unit Z unit cell3) : go start es = ret n ->
    (match n_map n, n_start n with Some (_, o), Some _ => negb (too_large o opening) | _, _ => false end) = true -> repairs n (EUpdate opening k).
  Proof.
    intros _ H. destruct (n_map n) as [[i o]|] eqn:Em; [|discriminate]. destruct (n_start n) as [p|] eqn:Ep; [|discriminate]. split; [congruence|]. exists i, o.
    split; [exact Em|]. destruct (too_large o opening); [discriminate H|reflexivity].
  Qed.
  Example repaired_values :
    compare (repaired reconfigured) (0, 0) = Some (Some 59, Some (Some 59)) /\ compare (repaired map_while_lost) (0, 0) = Some (Some 59, Some (Some 59)) /\
    compare (repaired update_while_lost) (0, 4) = Some (Some 65, Some (Some 65)) /\ compare (repaired closed_while_lost) (0, 4) = Some (Some 59, Some (Some 59)) /\
    compare (repaired goal_while_lost) (0, 4) = Some (Some 0, Some (Some 0)) /\ compare (repaired forgot) (0, 0) = Some (Some 59, Some (Some 59)).
  Proof. repeat split; vm_compute; reflexivity. Qed.
  Definition repairable (es : list ev) : bool :=
    match go start es with Ok (Some n) => match n_map n, n_start n with Some (_, o), Some _ => negb (too_large o opening) | _, _ => false end | _ => false end.
  Example an_update_repairs : forall es, In es [reconfigured; map_while_lost; update_while_lost; closed_while_lost; goal_while_lost; forgot] ->
    exists n, go start es = ret n /\ repairs n (EUpdate opening k).
  Proof.
    assert (H : forallb repairable [reconfigured; map_while_lost; update_while_lost; closed_while_lost; goal_while_lost; forgot] = true) by (vm_compute; reflexivity).
    intros es Hin. rewrite forallb_forall in H. specialize (H es Hin). unfold repairable in H. destruct (go start es) as [[n|]|] eqn:E; try discriminate H.
    exists n. split; [reflexivity|]. apply (last_repairs es n E H).
  Qed.
End SyncExample.
Import SyncExample.
(** The theorems for these parameters. *)
Corollary C87_example_days_are_up_to_date es n : Forall event_ok es -> go start es = ret n -> calmly start es -> Forall fresh (n_uses n).
Proof. apply (C87_consulted_distances_are_up_to_date KZ env_of cellof cellof no_range right_of rem 0 100 over right_in right_trip). Qed.
Corollary C87_example_distances_are_route_costs u : fresh u ->
  dm_g (w_dist u) (fst (w_goal u)) = Some 0 /\ forall v, v <> fst (w_goal u) ->
    dm_g (w_dist u) v = None \/ route KZ (env_of (w_cfg u) (w_mem u) (w_costs u)) (fst (w_goal u)) (Some (-5)) v (dm_g (w_dist u) v).
Proof.
  intros H. destruct (C87_up_to_date_distances_are_route_costs KZ env_of cellof no_range right_of right_in anyZ KZ_dist env_of_sane ltac:(intros; split; reflexivity) ltac:(intros; apply Z.le_refl) u H)
    as (A & B & _). split; [exact A|exact B].
Qed.

(** ** Refuted without the calm: [compare es c] is the value of cell [c] the planner consults at the end of [es], and the one a filling for the present goal, robot and costs gives. *)
(** A change of the parameters while the robot is on its way: all distances are zero. *)
Theorem C87_reconfiguration_while_moving_refuted : Forall event_ok reconfigured /\ compare reconfigured (0, 0) = Some (Some 0, Some (Some 51)).
Proof. split; [unfold reconfigured; events|vm_compute; reflexivity]. Qed.
(** A map that arrives while the pose is unknown: the same. *)
Theorem C87_map_while_the_pose_is_lost_refuted : Forall event_ok map_while_lost /\ compare map_while_lost (0, 0) = Some (Some 0, Some (Some 51)).
Proof. split; [unfold map_while_lost; events|vm_compute; reflexivity]. Qed.
(** An update that opens a corridor while the pose is unknown: the goal still counts as unreachable. *)
Theorem C87_update_while_the_pose_is_lost_refuted : Forall event_ok update_while_lost /\ compare update_while_lost (0, 4) = Some (None, Some (Some 59)).
Proof. split; [unfold update_while_lost; events|vm_compute; reflexivity]. Qed.
(** One that closes it: the goal still counts as reachable. *)
Theorem C87_closing_update_while_the_pose_is_lost_refuted : Forall event_ok closed_while_lost /\ compare closed_while_lost (0, 4) = Some (Some 51, Some (None)).
Proof. split; [unfold closed_while_lost; events|vm_compute; reflexivity]. Qed.
(** A goal that arrives while the pose is unknown: the distances are those of the goal before. *)
Theorem C87_goal_while_the_pose_is_lost_refuted : Forall event_ok goal_while_lost /\ compare goal_while_lost (0, 4) = Some (Some 51, Some (Some 0)).
Proof. split; [unfold goal_while_lost; events|vm_compute; reflexivity]. Qed.
(** A jump, or forgetting the remembered costs, while the robot is on its way: they still count. *)
Theorem C87_forgetting_while_moving_refuted : Forall event_ok forgot /\ compare forgot (0, 0) = Some (Some 65, Some (Some 51)).
Proof. split; [unfold forgot; events|vm_compute; reflexivity]. Qed.

Print Assumptions C87_consulted_distances_are_up_to_date.
Print Assumptions C87_an_update_repairs_the_distances.
Print Assumptions C87_the_goal_is_the_one_asked_for.
Print Assumptions C87_up_to_date_distances_are_route_costs.
Print Assumptions C87_update_while_the_pose_is_lost_refuted.
