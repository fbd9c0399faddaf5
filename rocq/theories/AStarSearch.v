(** From the loop invariant to the whole search: soundness for every oracle. *)
From Coq Require Import ZifyBool ZifyNat Permutation.
From Verif Require Import Common CyclicVec CyclicVecSpec CyclicVecProofs GridMapSpec GridMapProofs
  CostAlg AStar AStarSpec AStarProofs.
Local Open Scope Z_scope.

Section Search.
  Context {F : Type} (K : cost_ops F) (nc : nat) (size : vec) (M : @smodel F).

  Definition start_entry (e : vec) (ss : list (vec * F)) (en : @entry F) : Prop :=
    exists c ce, In (en_v en, c) ss /\ en_raw en = c /\
      ftrunc K (m_costEstim M (en_v en) e) = Ok ce /\ en_p en = fadd K ce c.

  Lemma init_starts_spec en e : forall sts ssn0 g0 open0 best better0 ssn g open better,
    (nc <= length size)%nat -> Forall (fun s => 0 < s <= 2 ^ 30) size ->
    Forall (fun s => length (fst s) = length size) sts ->
    init_starts K nc size M sts en e ssn0 g0 open0 best better0 = Ok (Some (ssn, g, open, better)) ->
    exists ss, ssn = ssn0 ++ ss /\ wrapped_starts nc size sts ss /\
      (forall s c, In (s, c) ss -> valid size s) /\
      (forall p, ~ In p (map fst ss) -> g p = g0 p) /\
      (forall en0, In en0 open -> In en0 open0 \/ start_entry e ss en0) /\
      (In better (map fst ss) \/ (better = better0 /\ (sts = [] \/ best <> None))) /\
      (forall en0, In en0 open0 -> In en0 open) /\
      (forall s c, In (s, c) ss -> exists en0, In en0 open /\ en_v en0 = s /\ en_raw en0 = c) /\
      (NoDup (map fst ss) -> forall s c, In (s, c) ss -> g s = c) /\
      (forall s, In s sts -> fst s <> en) /\
      (forall s, In s (map fst ss) -> exists en0, In en0 open /\ en_v en0 = s /\ en_raw en0 = g s).
  Proof.
    induction sts as [|[v c] sts IH]; intros ssn0 g0 open0 best better0 ssn g open better Hnc Hsz HT E.
    - simpl in E. injection E as <- <- <- <-. exists []. rewrite app_nil_r.
      split; [reflexivity|]. split; [constructor|]. split; [intros s c []|].
      split; [reflexivity|]. split; [auto|]. split; [right; auto|]. split; [auto|].
      split; [intros s c []|]. split; [intros _ s c []|]. split; intros s [].
    - inversion HT as [|? ? Lv HT']; subst. simpl in E, Lv.
      destruct (vec_dec v en) as [|Nv]; [discriminate|].
      destruct (cycleUnsigned nc v size) as [s|] eqn:Es; [|discriminate]. simpl in E.
      destruct (in_map size s) eqn:Em; [|discriminate]. simpl in E.
      destruct (ftrunc K (m_costEstim M s e)) as [ce|] eqn:Ec; [|discriminate]. simpl in E.
      apply IH in E; auto. clear IH.
      destruct E as (ss & E1 & E2 & E3 & E4 & E5 & E6 & E7 & E8 & E9 & E10 & E11).
      apply in_map_valid in Em.
      apply cycleUnsigned_iff in Es; [|exact Lv|].
      2:{ intros i r _ Hn. apply (Forall_nth _ _ _ _ Hsz) in Hn. lia. }
      exists ((s, c) :: ss). split; [rewrite E1, <- app_assoc; reflexivity|].
      split; [constructor; [split; [exact Es|reflexivity]|exact E2]|].
      split; [intros s0 c0 [H|H]; [injection H as <- <-; exact Em|eapply E3; eauto]|].
      split.
      { intros p Hp. simpl in Hp. rewrite E4 by tauto. apply set_g_neq. intros ->. tauto. }
      split.
      { intros en0 H. destruct (E5 en0 H) as [[<-|H1]|H1].
        - right. exists c, ce. cbn [en_v en_raw en_p]. split; [left; reflexivity|auto].
        - left. exact H1.
        - right. destruct H1 as (c1 & ce1 & A1 & A2). exists c1, ce1. split; [right; exact A1|exact A2]. }
      split.
      { destruct E6 as [H|[-> H]]; [left; right; exact H|].
        destruct best as [b|].
        - destruct (fltb K ce b); [left; left; reflexivity|right; split; [reflexivity|right; discriminate]].
        - left. left. reflexivity. }
      split; [intros en0 H; apply E7; right; exact H|].
      split.
      { intros s0 c0 [H|H]; [|apply E8; exact H].
        injection H as <- <-. eexists. split; [apply E7; left; reflexivity|]. auto. }
      split.
      { intros ND s0 c0 H. inversion ND as [|? ? Hn ND']; subst. simpl in Hn.
        destruct H as [H|H]; [|apply E9; auto].
        injection H as <- <-. rewrite E4 by exact Hn. apply set_g_eq. }
      split; [intros s0 [<-|H]; [exact Nv|apply E10; exact H]|].
      intros s0 H. destruct (in_dec vec_dec s0 (map fst ss)) as [Hs|Hs]; [apply E11; exact Hs|].
      destruct H as [<-|H]; [|contradiction]. simpl in Hs |- *.
      eexists. split; [apply E7; left; reflexivity|]. cbn [en_v en_raw]. split; [reflexivity|].
      rewrite E4 by exact Hs. rewrite set_g_eq. reflexivity.
  Qed.

  Lemma wrapped_costs sts ss (P : F -> Prop) : wrapped_starts nc size sts ss ->
    Forall (fun s => P (snd s)) sts -> forall s c, In (s, c) ss -> P c.
  Proof.
    intros HW. induction HW as [|a b sts ss [_ E] HW IH]; intros HF s c HI; [destruct HI|].
    inversion HF; subst. destruct HI as [->|HI]; [simpl in E; subst; assumption|eauto].
  Qed.

  Lemma init_inv (L : cost_laws K) e ss g open better :
    Forall (fun s => 0 < s <= 2 ^ 30) size ->
    (forall s c, In (s, c) ss -> fleb K (fzero K) c = true) ->
    (forall s c, In (s, c) ss -> valid size s) ->
    (forall p, ~ In p (map fst ss) -> g p = fmax K) ->
    (forall en0, In en0 open -> start_entry e ss en0) ->
    In better (map fst ss) ->
    Inv K nc size M ss e (fun _ => fzero K) (mkState g [] open better).
  Proof.
    intros Hsz H0 HV Hg Ho Hb.
    assert (HS : forall p, isS ss p <-> In p (map fst ss)).
    { intros p. unfold isS. rewrite in_map_iff. split.
      - intros [c H]. exists (p, c). auto.
      - intros ([q c] & E & H). simpl in E. subst. eauto. }
    constructor; cbn [st_g st_parents st_open st_better].
    - intros p q _ H. discriminate.
    - intros p Hp _. apply Hg. rewrite <- HS. exact Hp.
    - intros en0 Hen. destruct (Ho en0 Hen) as (c & ce & A1 & A2 & _).
      split; [left; exists c; exact A1|]. rewrite A2. split; [eapply H0; eauto|eapply HV; eauto].
    - intros p [Hp|Hp]; [|destruct (Hp eq_refl)]. exists [p]. constructor. exact Hp.
    - left. apply HS. exact Hb.
  Qed.

  (** *** Priorities of queue entries *)
  Definition pri_ok (e : vec) (ss : list (vec * F)) (en : @entry F) : Prop :=
    en_p en = fadd K (en_raw en) (m_costEstim M (en_v en) e) \/ start_entry e ss en.

  Lemma expand_list_pri g ssn e p c gp : forall ds acc us,
    expand_list K nc size M g ssn e p c gp ds acc = Ok us ->
    Forall (fun u => up_estim u = fadd K (up_cost u) (m_costEstim M (up_to u) e)) acc ->
    Forall (fun u => up_estim u = fadd K (up_cost u) (m_costEstim M (up_to u) e)) us.
  Proof.
    induction ds as [|d ds IH]; intros acc us E H; simpl in E; [injection E as <-; exact H|].
    destruct (cycleUnsigned nc (vec_add p d) size) as [next|]; [|discriminate]. simpl in E.
    repeat match type of E with context [if ?b then _ else _] => destruct b end; try (eapply IH; eauto; fail).
    eapply IH; [exact E|]. apply Forall_app. split; [exact H|]. repeat constructor.
  Qed.

  Lemma thread_work_pri g ssn e : forall cs w, thread_work K nc size M g ssn e cs = Ok w ->
    Forall (fun u => up_estim u = fadd K (up_cost u) (m_costEstim M (up_to u) e)) (fst w).
  Proof.
    induction cs as [|c cs IH]; intros w E; simpl in E; [injection E as <-; constructor|].
    destruct (fltb K (g (en_v c)) (en_raw c)); [apply IH; exact E|].
    destruct (expand_list K nc size M g ssn e (en_v c) (en_raw c) (g (en_v c))
                (m_searchGrids M (en_v c) ssn e) []) as [us|] eqn:Eu; [|discriminate]. simpl in E.
    destruct (thread_work K nc size M g ssn e cs) as [[us' d']|]; [|discriminate]. simpl in E.
    injection E as <-. cbn [fst]. apply Forall_app. split; [|apply (IH _ eq_refl)].
    eapply expand_list_pri; [exact Eu|constructor].
  Qed.

  Lemma apply_updates_pri O loop limit e ss : forall us s,
    Forall (fun u => up_estim u = fadd K (up_cost u) (m_costEstim M (up_to u) e)) us ->
    Forall (pri_ok e ss) (st_open s) ->
    Forall (pri_ok e ss) (st_open (fold_left (apply_update K O loop limit) us s)).
  Proof.
    induction us as [|u us IH]; intros s HU HS; simpl; [exact HS|].
    inversion HU as [|? ? H1 H2]; subst. apply IH; [exact H2|].
    unfold apply_update. destruct (fltb K (up_cost u) (st_g s (up_to u))); [|exact HS]. cbn [st_open].
    set (o1 := mkEntry (up_estim u) (up_cost u) (up_to u) :: st_open s).
    assert (H3 : Forall (pri_ok e ss) o1) by (constructor; [left; exact H1|exact HS]).
    destruct ((0 <? limit)%nat && (limit <? length o1)%nat); [|exact H3].
    destruct (take_at (o_drop O loop o1) o1) as [[a r]|] eqn:Et; [|exact H3].
    apply take_at_perm in Et. apply (Permutation_Forall Et) in H3. inversion H3; assumption.
  Qed.

  Lemma round_pri O loop limit ssn e ss centers s s' :
    round K nc size M O loop limit ssn e centers s = Ok s' ->
    Forall (pri_ok e ss) (st_open s) -> Forall (pri_ok e ss) (st_open s').
  Proof.
    unfold round. destruct (mapM (thread_work K nc size M (st_g s) ssn e) (o_sched O loop centers)) as [ws|] eqn:Ew;
      [|discriminate]. cbn [bind]. intros E HS. injection E as <-.
    assert (HW : Forall (fun w => Forall (fun u => up_estim u = fadd K (up_cost u) (m_costEstim M (up_to u) e)) (fst w)) ws).
    { eapply (mapM_ok _ (fun _ => True)); [|apply Forall_forall; auto|exact Ew].
      intros a b _ Eb. eapply thread_work_pri; exact Eb. }
    match goal with |- context [fold_left _ ws ?z] => set (s1 := z) end.
    assert (HS1 : Forall (pri_ok e ss) (st_open s1)) by exact HS.
    clearbody s1. clear HS Ew. revert s1 HS1. induction ws as [|w ws IH]; intros s1 HS1; simpl; [exact HS1|].
    inversion HW; subst. apply IH; [assumption|]. unfold apply_thread.
    assert (HD : forall ds s, st_open (fold_left (apply_dont K) ds s) = st_open s).
    { induction ds as [|d ds IHd]; intros s2; simpl; [reflexivity|]. rewrite IHd. reflexivity. }
    rewrite HD. apply apply_updates_pri; assumption.
  Qed.

  Lemma main_loop_pri O ntask limit cl ssn e : forall fuel loop s e' s',
    Forall (pri_ok e ssn) (st_open s) ->
    main_loop K nc size M fuel O loop ntask limit cl ssn e s = LFound e' s' ->
    e' = e \/ exists c, en_v c = e' /\ pri_ok e ssn c /\ leaves K cl c = true.
  Proof.
    induction fuel as [|fuel IH]; intros loop s e' s' HS E; [discriminate|]. simpl in E.
    destruct (fetch K O loop cl ntask e [] (st_open s)) as [[fnd centers] open'] eqn:Ef.
    apply fetch_spec in Ef. destruct Ef as (taken & -> & Hf & _).
    destruct fnd as [v|].
    - injection E as <- _. destruct Hf as (c & P & Ev & [Hd|Hd]); [left; exact Hd|right].
      exists c. split; [exact Ev|]. split; [|exact Hd].
      rewrite Forall_forall in HS. apply HS. eapply Permutation_in; [symmetry; exact P|].
      apply in_or_app. right. left. reflexivity.
    - destruct Hf as [P _]. destruct (o_abort O loop); [discriminate|].
      destruct ([] ++ taken) eqn:Et; [discriminate|].
      destruct (round K nc size M O loop limit ssn e (e0 :: l) (mkState (st_g s) (st_parents s) open' (st_better s))) as [s2|] eqn:Er;
        [|discriminate].
      eapply IH; [|exact E]. eapply round_pri; [exact Er|]. cbn [st_open].
      apply (Permutation_Forall P) in HS. apply Forall_app in HS. apply HS.
  Qed.

  (** The final cell of a successful search is the goal, or a cell whose heuristic
      passed the early-leave test [(c + h) - c < cost_leave] for some path cost [c]
      (at a start cell the heuristic is truncated to an integer first). *)
  Definition stop_ok (cost_leave : F) (ss : list (vec * F)) (e t : vec) : Prop :=
    t = e \/
    (exists c, fltb K (fsub K (fadd K c (m_costEstim M t e)) c) cost_leave = true) \/
    (exists c ce, In (t, c) ss /\ ftrunc K (m_costEstim M t e) = Ok ce /\
       fltb K (fsub K (fadd K ce c) c) cost_leave = true).

  Definition good_path (ss : list (vec * F)) (e : vec) (path : list vec) : Prop :=
    (exists s c, In (s, c) ss /\ hd_error path = Some s) /\
    linked (move K nc size M ss e) path /\ NoDup path.

  Lemma findPath_good (L : cost_laws K) ss e gr s t :
    Inv K nc size M ss e gr s -> reached ss (st_parents s) t ->
    exists path, findPath ss t (st_parents s) = Some (true, path) /\
      good_path ss e path /\ (forall d, last path d = t).
  Proof.
    intros HI Hr. destruct (inv_chain _ _ _ _ _ _ _ _ HI t Hr) as [l C]. exists l.
    destruct (chain_linked ss K nc size M e gr s HI t l C) as (H1 & (s0 & [c Hs] & Hh) & H3).
    split; [|split; [|exact H3]].
    - unfold findPath. rewrite (findPath_chain ss l t (st_parents s) _ [] C) by lia.
      rewrite app_nil_r. reflexivity.
    - split; [eauto|]. split; [exact H1|]. eapply chain_NoDup; eauto.
  Qed.

  (** What [search] does, in terms of the loop. *)
  Lemma search_sound (L : cost_laws K) fuel O ntask limit cl sts en rb ok ab path :
    well_typed nc size M sts en -> fair_sched O ->
    Forall (fun s => fleb K (fzero K) (snd s) = true) sts ->
    search K nc size M fuel O ntask limit cl sts en rb = SDone ok ab path ->
    (ok = true \/ path <> []) ->
    exists ss e, wrapped_starts nc size sts ss /\ canon unsigned_range nc en size e /\
      good_path ss e path /\ (ok = true -> stop_ok cl ss e (last path e)).
  Proof.
    intros (Hnc & Hsz & Len & HT & Hmod) HO H0 E Hok. unfold search in E.
    destruct sts as [|st0 sts']; [injection E as <- <- <-; destruct Hok as [?|H]; [discriminate|destruct (H eq_refl)]|].
    set (sts := st0 :: sts') in *.
    destruct (cycleUnsigned nc en size) as [e|] eqn:Ee; [|discriminate].
    apply cycleUnsigned_iff in Ee; [|exact Len|].
    2:{ intros i r _ Hn. apply (Forall_nth _ _ _ _ Hsz) in Hn. lia. }
    destruct (init_starts K nc size M sts en e [] (fun _ => fmax K) [] None []) as [[[[[ssn g] open] better]|]|] eqn:Ei;
      [| injection E as <- <- <-; destruct Hok as [?|H]; [discriminate|destruct (H eq_refl)] | discriminate].
    destruct (init_starts_spec en e sts [] _ [] None [] ssn g open better Hnc Hsz HT Ei)
      as (ss & E1 & E2 & E3 & E4 & E5 & E6 & _). simpl in E1. subst ssn.
    assert (HI : Inv K nc size M ss e (fun _ => fzero K) (mkState g [] open better)).
    { apply init_inv; auto.
      - apply (wrapped_costs sts ss (fun c => fleb K (fzero K) c = true) E2 H0).
      - intros en0 Hen. destruct (E5 en0 Hen) as [[]|H]. exact H.
      - destruct E6 as [H|[_ [H|H]]]; [exact H|discriminate|congruence]. }
    exists ss, e. split; [exact E2|]. split; [exact Ee|].
    pose proof (main_loop_inv K L nc size M ss e Hnc Hsz Hmod O ntask limit cl HO fuel 0 _ _ HI) as HM.
    destruct (main_loop K nc size M fuel O 0 ntask limit cl ss e (mkState g [] open better)) as [e' s'|ab' s'| |] eqn:Em.
    - assert (HPr : Forall (pri_ok e ss) (st_open (mkState g [] open better))).
      { apply Forall_forall. intros en0 Hen. right. destruct (E5 en0 Hen) as [[]|H]. exact H. }
      apply (main_loop_pri O ntask limit cl ss e) in Em; [|exact HPr].
      destruct HM as (gr' & c & HI' & Ev & (HL & _ & _) & _).
      assert (Hr : reached ss (st_parents s') e').
      { rewrite <- Ev. destruct HL as [?|[? _]]; [left|right]; assumption. }
      destruct (findPath_good L ss e gr' s' e' HI' Hr) as (l & Ef & Hg & Hl).
      rewrite Ef in E. injection E as <- <- <-. split; [exact Hg|]. intros _. rewrite Hl.
      destruct Em as [->|(c1 & Ev1 & Hp1 & Hd)]; [left; reflexivity|right]. unfold leaves in Hd. rewrite <- Ev1.
      destruct Hp1 as [Hp1|(c2 & ce & A1 & A2 & A3 & A4)].
      + left. exists (en_raw c1). rewrite <- Hp1. exact Hd.
      + right. exists c2, ce. split; [exact A1|]. split; [exact A3|]. rewrite A4, A2 in Hd. exact Hd.
    - destruct HM as [gr' HI']. destruct rb.
      + destruct (findPath_good L ss e gr' s' (st_better s') HI' (inv_better _ _ _ _ _ _ _ _ HI')) as (l & Ef & Hg & Hl).
        rewrite Ef in E. injection E as <- <- <-. split; [exact Hg|]. discriminate.
      + injection E as <- <- <-. destruct Hok as [?|H]; [discriminate|destruct (H eq_refl)].
    - discriminate.
    - destruct HM.
  Qed.

  (** No undefined behaviour, and failure is never a broken parent chain. *)
  Lemma init_starts_no_ub en e : forall sts ssn0 g0 open0 best better0,
    (nc <= length size)%nat -> Forall (fun s => 0 < s <= 2 ^ 30) size ->
    Forall (fun s => length (fst s) = length size) sts ->
    (forall s s', In s sts -> canon unsigned_range nc (fst s) size s' ->
        valid size s' /\ exists ce, ftrunc K (m_costEstim M s' e) = Ok ce) ->
    init_starts K nc size M sts en e ssn0 g0 open0 best better0 <> UB.
  Proof.
    induction sts as [|[v c] sts IH]; intros ssn0 g0 open0 best better0 Hnc Hsz HT HV; simpl; [discriminate|].
    inversion HT as [|? ? Lv HT']; subst. simpl in Lv.
    destruct (vec_dec v en); [discriminate|].
    assert (HP : forall i r, (nc <= i)%nat -> nth_error size i = Some r -> 0 < r).
    { intros i r _ Hn. apply (Forall_nth _ _ _ _ Hsz) in Hn. lia. }
    destruct (cycleUnsigned nc v size) as [s|] eqn:Es.
    - simpl. apply cycleUnsigned_iff in Es; [|exact Lv|exact HP].
      destruct (HV (v, c) s (or_introl eq_refl) Es) as [V [ce Ec]].
      apply in_map_valid in V. rewrite V. simpl. rewrite Ec. simpl.
      apply IH; auto. intros s0 s' H. apply HV. right. exact H.
    - exfalso. destruct (cycleWith_total cycleUnsignedElement) with (nc := nc) (v := v) (res := size) as [w Ew]; auto.
      + intros e0 r Hr. destruct (cycleUnsignedElement_spec e0 r Hr) as (x & Ex & _). eauto.
      + unfold cycleUnsigned in Es. congruence.
  Qed.

  Lemma search_no_ub (L : cost_laws K) fuel O ntask limit cl sts en rb :
    well_typed nc size M sts en -> fair_sched O ->
    Forall (fun s => fleb K (fzero K) (snd s) = true) sts ->
    (forall s s' e, In s sts -> canon unsigned_range nc (fst s) size s' -> canon unsigned_range nc en size e ->
        valid size s' /\ exists ce, ftrunc K (m_costEstim M s' e) = Ok ce) ->
    search K nc size M fuel O ntask limit cl sts en rb <> SUB.
  Proof.
    intros (Hnc & Hsz & Len & HT & Hmod) HO H0 HV. unfold search.
    destruct sts as [|st0 sts']; [discriminate|]. set (sts := st0 :: sts') in *.
    assert (HP : forall i r, (nc <= i)%nat -> nth_error size i = Some r -> 0 < r).
    { intros i r _ Hn. apply (Forall_nth _ _ _ _ Hsz) in Hn. lia. }
    destruct (cycleUnsigned nc en size) as [e|] eqn:Ee.
    2:{ exfalso. destruct (cycleWith_total cycleUnsignedElement) with (nc := nc) (v := en) (res := size) as [w Ew]; auto.
      + intros e0 r Hr. destruct (cycleUnsignedElement_spec e0 r Hr) as (x & Ex & _). eauto.
      + unfold cycleUnsigned in Ee. congruence. }
    apply cycleUnsigned_iff in Ee; [|exact Len|exact HP].
    destruct (init_starts K nc size M sts en e [] (fun _ => fmax K) [] None []) as [[[[[ssn g] open] better]|]|] eqn:Ei;
      [|discriminate|].
    2:{ exfalso. revert Ei. apply init_starts_no_ub; auto. intros s s' HI HC. apply (HV s s' e); auto. }
    destruct (init_starts_spec en e sts [] _ [] None [] ssn g open better Hnc Hsz HT Ei)
      as (ss & E1 & E2 & E3 & E4 & E5 & E6 & _). simpl in E1. subst ssn.
    assert (HI : Inv K nc size M ss e (fun _ => fzero K) (mkState g [] open better)).
    { apply init_inv; auto.
      - apply (wrapped_costs sts ss (fun c => fleb K (fzero K) c = true) E2 H0).
      - intros en0 Hen. destruct (E5 en0 Hen) as [[]|H]. exact H.
      - destruct E6 as [H|[_ [H|H]]]; [exact H|discriminate|congruence]. }
    pose proof (main_loop_inv K L nc size M ss e Hnc Hsz Hmod O ntask limit cl HO fuel 0 _ _ HI) as HM.
    destruct (main_loop K nc size M fuel O 0 ntask limit cl ss e (mkState g [] open better)) as [e' s'|ab' s'| |].
    - destruct (findPath_total ss (S (length (st_parents s'))) e' (st_parents s') []) as [[b l] E]; [lia|].
      unfold findPath. rewrite E. discriminate.
    - destruct rb; [|discriminate].
      destruct (findPath_total ss (S (length (st_parents s'))) (st_better s') (st_parents s') []) as [[b l] E]; [lia|].
      unfold findPath. rewrite E. discriminate.
    - discriminate.
    - destruct HM.
  Qed.
End Search.
