(** Completeness: with no queue limit and no abort, failure means there is no route. *)
From Coq Require Import ZifyBool ZifyNat Permutation.
From Verif Require Import Common CyclicVec CyclicVecSpec CyclicVecProofs GridMapSpec GridMapProofs
  CostAlg AStar AStarSpec AStarProofs AStarSearch AStarTerm.
Local Open Scope Z_scope.

Lemma admissible_finite {F} (K : cost_ops F) (X : exact_laws K) a : admissible_value K a -> finite K a.
Proof. intros [_ H]. apply (ex_eqb_max _ X); [exact H|]. apply (ex_antisym _ X). apply (ex_le_max _ X). Qed.

Section Complete.
  Context {F : Type} (K : cost_ops F) (L : cost_laws K) (nc : nat) (size : vec) (M : @smodel F).
  Variables (ssn : list (vec * F)) (e : vec).
  Hypothesis Hnc : (nc <= length size)%nat.
  Hypothesis Hsz : Forall (fun s => 0 < s <= 2 ^ 30) size.
  Hypothesis Hmod : forall p ss e d, In d (m_searchGrids M p ss e) ->
       length d = length size /\ Forall (fun x => Z.abs x <= 2 ^ 30) d.
  Notation Mv := (move K nc size M ssn e).
  (** Costs that occur: all below the sentinel, and closed under the moves of the model.  All finite ones in exact arithmetic, the ones up to 2^127 in
      binary32 (where adding a small cost to a large one does not go beyond). *)
  Variable small : F -> Prop.
  Hypothesis small_lt : forall a, small a -> fltb K a (fmax K) = true.
  Hypothesis small_zero : small (fzero K).
  Hypothesis small_move : forall a p q, small a -> valid size p -> Mv p q -> small (fadd K a (m_cost M p q ssn e)).
  Notation Inv := (Inv K nc size M ssn e).
  Notation reached := (reached ssn).
  Notation upd_ok := (upd_ok K nc size M ssn e).
  Notation extends := (extends K ssn).
  Notation entry_ok := (entry_ok K size ssn).

  Lemma lt_asym a b : fltb K a b = true -> fltb K b a = false.
  Proof using L.
    intros H. destruct (fltb K b a) eqn:E; [|reflexivity]. pose proof (lw_lt_le_trans _ L _ _ _ H (lw_lt_le _ L _ _ E)) as Q. rewrite (lw_lt_irrefl _ L) in Q. discriminate.
  Qed.
  Lemma max_not_lt a : small a -> fltb K (fmax K) a = false.
  Proof using L small_lt. intros H. apply lt_asym. apply small_lt. exact H. Qed.
  Lemma max_not_lt_neg1 : fltb K (fmax K) (fneg1 K) = false.
  Proof using L small_lt small_zero.
    apply lt_asym. apply (lw_lt_le_trans _ L _ (fzero K)); [apply (lw_neg1 _ L)|]. apply (lw_lt_le _ L). apply small_lt. exact small_zero.
  Qed.

  (** Every cell reachable in one move from [p] has been reached. *)
  Definition settled (par : list (vec * vec)) (p : vec) : Prop := forall n, Mv p n -> reached par n.
  Definition live (s : @sstate F) (p : vec) : Prop :=
    exists en, In en (st_open s) /\ en_v en = p /\ fltb K (st_g s p) (en_raw en) = false.

  (** Invariant of the application phase; [Q] holds of cells whose expansion is complete or pending. *)
  Record CInv (Q : vec -> Prop) (s : @sstate F) : Prop := mkCInv {
    ci_fin : forall en, In en (st_open s) -> small (en_raw en);
    ci_g : forall p, fltb K (fmax K) (st_g s p) = false;
    ci_live : forall p, reached (st_parents s) p -> p <> e -> Q p \/ live s p;
    ci_goal : reached (st_parents s) e -> exists en, In en (st_open s) /\ en_v en = e
  }.

  Lemma apply_update_c Q O loop gr s u : Inv gr s -> CInv Q s -> upd_ok gr (st_parents s) u ->
    small (up_cost u) ->
    let s' := apply_update K O loop 0 s u in
    exists gr', Inv gr' s' /\ CInv Q s' /\ extends gr gr' (st_parents s) (st_parents s') /\
      reached (st_parents s') (up_to u).
  Proof.
    intros HI HC HU Hf.
    destruct (apply_update_inv K L nc size M ssn e O loop 0 gr s u HI HU) as (gr' & HI' & HE).
    cbv zeta. exists gr'. split; [exact HI'|].
    unfold apply_update in *.
    destruct (fltb K (up_cost u) (st_g s (up_to u))) eqn:Hlt.
    - split; [|split; [exact HE|]].
      2:{ right. cbn [st_parents]. rewrite lookup_insert. destruct (vec_dec (up_to u) (up_to u)); congruence. }
      cbn [Nat.ltb Nat.leb andb]. destruct HC as [C1 C0 C2 C3].
      constructor; cbn [st_g st_parents st_open].
      + intros en [<-|H]; [exact Hf|auto].
      + intros p. unfold set_g. destruct (vec_dec p (up_to u)); [apply max_not_lt; exact Hf|apply C0].
      + intros p Hp Hpe. destruct (vec_dec p (up_to u)) as [->|N].
        * right. eexists. split; [left; reflexivity|]. cbn [en_v en_raw st_g]. split; [reflexivity|].
          rewrite set_g_eq. apply (lw_lt_irrefl _ L).
        * destruct (C2 p) as [H|(en & E1 & E2 & E3)]; auto.
          -- destruct Hp as [Hp|Hp]; [left; exact Hp|right]. rewrite lookup_insert in Hp.
             destruct (vec_dec p (up_to u)); [contradiction|exact Hp].
          -- right. exists en. split; [right; exact E1|]. split; [exact E2|].
             cbn [st_g]. rewrite set_g_neq by exact N. exact E3.
      + intros Hr. destruct (vec_dec e (up_to u)) as [Ee|N].
        * eexists. split; [left; reflexivity|]. cbn [en_v]. auto.
        * destruct C3 as (en & E1 & E2).
          -- destruct Hr as [Hp|Hp]; [left; exact Hp|right]. rewrite lookup_insert in Hp.
             destruct (vec_dec e (up_to u)); [contradiction|exact Hp].
          -- exists en. split; [right; exact E1|exact E2].
    - split; [exact HC|]. split; [exact HE|].
      destruct (isS_dec ssn (up_to u)) as [HS|HS]; [left; exact HS|].
      right. intros Hn. pose proof (inv_unreached _ _ _ _ _ _ _ _ HI _ HS Hn) as Eg.
      rewrite Eg in Hlt. pose proof (small_lt _ Hf). congruence.
  Qed.

  Lemma apply_updates_c Q O loop us : forall gr s, Inv gr s -> CInv Q s ->
    Forall (fun u => upd_ok gr (st_parents s) u /\ small (up_cost u)) us ->
    let s' := fold_left (apply_update K O loop 0) us s in
    exists gr', Inv gr' s' /\ CInv Q s' /\ extends gr gr' (st_parents s) (st_parents s') /\
      (forall u, In u us -> reached (st_parents s') (up_to u)).
  Proof.
    induction us as [|u us IH]; intros gr s HI HC HF; simpl.
    - exists gr. split; [exact HI|]. split; [exact HC|]. split; [apply extends_refl|]. intros u [].
    - inversion HF as [|? ? [H1 H1'] H2]; subst.
      destruct (apply_update_c Q O loop gr s u HI HC H1 H1') as (g1 & A1 & A2 & A3 & A4).
      destruct (IH g1 _ A1 A2) as (g2 & B1 & B2 & B3 & B4).
      { eapply Forall_impl; [|exact H2]. intros a [P1 P2]. split; [|exact P2]. eapply upd_ok_ext; eauto. }
      exists g2. split; [exact B1|]. split; [exact B2|]. split; [eapply extends_trans; eauto|].
      intros u0 [<-|Hu]; [eapply reached_ext; eauto|auto].
  Qed.

  Lemma apply_donts_c Q ps : forall gr s, Inv gr s -> CInv Q s ->
    Forall (fun p => reached (st_parents s) p /\ Q p) ps ->
    let s' := fold_left (apply_dont K) ps s in
    Inv gr s' /\ CInv Q s' /\ st_parents s' = st_parents s.
  Proof.
    induction ps as [|p ps IH]; intros gr s HI HC HF; simpl; [auto|].
    inversion HF as [|? ? [H1 H1'] H2]; subst.
    apply (IH gr (apply_dont K s p)); [apply apply_dont_inv; auto| |exact H2].
    destruct HC as [C1 C0 C2 C3]. constructor; auto.
    { intros q. cbn [st_g apply_dont]. unfold set_g. destruct (vec_dec q p); [apply max_not_lt_neg1|apply C0]. }
    intros q Hq Hqe. destruct (vec_dec q p) as [->|N]; [left; exact H1'|].
    destruct (C2 q Hq Hqe) as [H|(en & E1 & E2 & E3)]; [left; exact H|].
    right. exists en. split; [exact E1|]. split; [exact E2|].
    cbn [st_g apply_dont]. rewrite set_g_neq by exact N. exact E3.
  Qed.

  Lemma apply_threads_c Q O loop ws : forall gr s, Inv gr s -> CInv Q s ->
    Forall (fun w => Forall (fun u => upd_ok gr (st_parents s) u /\ small (up_cost u)) (fst w) /\
                     Forall (fun p => reached (st_parents s) p /\ Q p) (snd w)) ws ->
    let s' := fold_left (apply_thread K O loop 0) ws s in
    exists gr', Inv gr' s' /\ CInv Q s' /\ extends gr gr' (st_parents s) (st_parents s') /\
      (forall w u, In w ws -> In u (fst w) -> reached (st_parents s') (up_to u)).
  Proof.
    induction ws as [|w ws IH]; intros gr s HI HC HF; simpl.
    - exists gr. split; [exact HI|]. split; [exact HC|]. split; [apply extends_refl|]. intros w u [].
    - inversion HF as [|? ? [H1 H1'] H2]; subst.
      destruct (apply_updates_c Q O loop (fst w) gr s HI HC H1) as (g1 & A1 & A2 & A3 & A4).
      destruct (apply_donts_c Q (snd w) g1 _ A1 A2) as (B1 & B2 & B3).
      { eapply Forall_impl; [|exact H1']. intros p [P1 P2]. split; [eapply reached_ext; eauto|exact P2]. }
      fold (apply_thread K O loop 0 s w) in B1, B2, B3. set (s1 := apply_thread K O loop 0 s w) in *.
      rewrite <- B3 in A3, A4.
      destruct (IH g1 s1 B1 B2) as (g2 & D1 & D2 & D3 & D4).
      { eapply Forall_impl; [|exact H2]. intros w' [P1 P2]. split.
        - eapply Forall_impl; [|exact P1]. intros u [Q1 Q2]. split; [eapply upd_ok_ext; eauto|exact Q2].
        - eapply Forall_impl; [|exact P2]. intros p [Q1 Q2]. split; [eapply reached_ext; eauto|exact Q2]. }
      exists g2. split; [exact D1|]. split; [exact D2|]. split; [eapply extends_trans; eauto|].
      intros w' u [<-|Hw] Hu; [|eauto]. eapply reached_ext; [exact D3|]. auto.
  Qed.

  (** What the threads produced for a set of centers. *)
  Lemma thread_work_c (P : @entry F -> Prop) g : (forall p, fltb K (fmax K) (g p) = false) -> forall cs w,
    Forall (fun c => P c /\ valid size (en_v c) /\ small (en_raw c)) cs ->
    thread_work K nc size M g ssn e cs = Ok w ->
    Forall (fun u => small (up_cost u)) (fst w) /\
    Forall (fun p => exists c, P c /\ en_v c = p /\ fltb K (g p) (en_raw c) = false) (snd w) /\
    (forall c n, In c cs -> fltb K (g (en_v c)) (en_raw c) = false -> Mv (en_v c) n ->
       g n <> fmax K \/ exists u, In u (fst w) /\ up_to u = n).
  Proof.
    intros Hg. induction cs as [|c cs IH]; intros w HF E; simpl in E.
    - injection E as <-. split; [constructor|]. split; [constructor|]. intros c n [].
    - inversion HF as [|? ? (Pc & Vc & Fc) HF']; subst.
      destruct (fltb K (g (en_v c)) (en_raw c)) eqn:Es.
      + destruct (IH w HF' E) as (W1 & W2 & W3). split; [exact W1|]. split; [exact W2|].
        intros c' n [<-|Hc]; [congruence|eauto].
      + destruct (expand_list K nc size M g ssn e (en_v c) (en_raw c) (g (en_v c))
                  (m_searchGrids M (en_v c) ssn e) []) as [us|] eqn:Eu; [|discriminate]. simpl in E.
        destruct (thread_work K nc size M g ssn e cs) as [[us' dont']|] eqn:Ew; [|discriminate]. simpl in E.
        injection E as <-. destruct (IH _ HF' eq_refl) as (W1 & W2 & W3). cbn [fst snd] in *.
        pose proof (expand_exact K nc size M ssn e Hnc Hsz Hmod g (en_v c) (en_raw c) us Vc Eu) as HX.
        split; [|split].
        * apply Forall_app. split; [|exact W1]. apply Forall_forall. intros u Hu. apply HX in Hu.
          destruct Hu as (n & HM & _ & _ & ->). unfold upd_of. cbn [up_cost].
          apply small_move; [exact Fc|exact Vc|exact HM].
        * apply Forall_app. split; [|exact W2]. destruct us; constructor; [|constructor]. exists c. auto.
        * intros c' n [<-|Hc] Hs HM.
          -- destruct (fltb K (g n) (g (en_v c))) eqn:E1.
             { left. intros Eg. rewrite Eg, Hg in E1. discriminate. }
             destruct (fltb K (fadd K (en_raw c) (m_cost M (en_v c) n ssn e)) (g n)) eqn:E2.
             ++ right. exists (upd_of K M ssn e (en_v c) (en_raw c) n). split; [|reflexivity].
                apply in_or_app. left. apply HX. exists n. auto.
             ++ left. intros Eg. rewrite Eg in E2.
                pose proof (small_lt _ (small_move _ _ _ Fc Vc HM)). congruence.
          -- destruct (W3 c' n Hc Hs HM) as [H|(u & Hu & Et)]; [left; exact H|right].
             exists u. split; [apply in_or_app; right; exact Hu|exact Et].
  Qed.

  Lemma mapM_in {A B} (f : A -> outcome B) : forall l r a, mapM f l = Ok r -> In a l ->
    exists b, f a = Ok b /\ In b r.
  Proof using Type.
    intros l. induction l as [|x l IH]; intros r a E HI; [destruct HI|]. simpl in E.
    destruct (f x) as [b|] eqn:Eb; [|discriminate]. simpl in E.
    destruct (mapM f l) as [t|] eqn:Et; [|discriminate]. simpl in E. injection E as <-.
    destruct HI as [<-|HI]; [exists b; split; [exact Eb|left; reflexivity]|].
    destruct (IH t a eq_refl HI) as (b' & E' & HI'). exists b'. split; [exact E'|right; exact HI'].
  Qed.

  Lemma round_c O loop centers gr s : fair_sched O -> Inv gr s ->
    CInv (fun p => settled (st_parents s) p \/
        exists c, In c centers /\ en_v c = p /\ fltb K (st_g s p) (en_raw c) = false) s ->
    Forall (fun c => entry_ok gr (st_parents s) c /\ small (en_raw c)) centers ->
    exists s', round K nc size M O loop 0 ssn e centers s = Ok s' /\
    exists gr', Inv gr' s' /\ CInv (settled (st_parents s')) s'.
  Proof.
    intros HO HI HC HF. set (Q := fun p => _ \/ _) in HC. unfold round.
    assert (HV : Forall (fun c => valid size (en_v c)) centers).
    { eapply Forall_impl; [|exact HF]. intros c [(_ & _ & H) _]. exact H. }
    destruct (mapM_total (thread_work K nc size M (st_g s) ssn e) (Forall (fun c => valid size (en_v c)))
                (fun cs H => thread_work_total K nc size M ssn e Hnc Hsz Hmod (st_g s) cs H)
                (o_sched O loop centers) (sched_forall O loop centers _ HO HV)) as [ws Ews].
    rewrite Ews. cbn [bind].
    set (cands := st_better s :: _). set (b := nth _ cands _).
    eexists. split; [reflexivity|].
    assert (Hb : reached (st_parents s) b).
    { assert (HIn : In b cands).
      { apply nth_In. apply Nat.mod_upper_bound. unfold cands. simpl. lia. }
      destruct HIn as [<-|HIn]; [apply (inv_better _ _ _ _ _ _ _ _ HI)|].
      apply in_map_iff in HIn. destruct HIn as (c & <- & Hc). apply filter_In in Hc.
      destruct Hc as [Hc _]. rewrite Forall_forall in HF. destruct (HF c Hc) as [(HL & _ & _) _].
      destruct HL as [?|[? _]]; [left|right]; assumption. }
    pose proof (set_better_inv K nc size M ssn e gr s b HI Hb) as HI1.
    set (s1 := mkState (st_g s) (st_parents s) (st_open s) b) in *.
    assert (HC1 : CInv Q s1) by (destruct HC as [C1 C0 C2 C3]; constructor; assumption).
    assert (HFc : Forall (Forall (fun c => entry_ok gr (st_parents s) c /\ In c centers /\ small (en_raw c))) (o_sched O loop centers)).
    { apply sched_forall; [exact HO|]. apply Forall_forall. intros c Hc.
      rewrite Forall_forall in HF. destruct (HF c Hc). auto. }
    assert (HW : Forall (fun w => Forall (fun u => upd_ok gr (st_parents s1) u /\ small (up_cost u)) (fst w) /\
                     Forall (fun p => reached (st_parents s1) p /\ Q p) (snd w)) ws).
    { eapply (mapM_ok _ _ _ _ _ _ HFc Ews). Unshelve. intros cs w H1 H2.
      destruct (thread_work_ok K L nc size M ssn e Hnc Hsz Hmod gr (st_parents s) (st_g s) cs w) as [A1 A2]; [|exact H2|].
      { eapply Forall_impl; [|exact H1]. intros c (P & _). exact P. }
      destruct (thread_work_c (fun c => In c centers) (st_g s) (ci_g _ _ HC) cs w) as (B1 & B2 & _); [|exact H2|].
      { eapply Forall_impl; [|exact H1]. intros c (P & P2 & P3). split; [exact P2|]. split; [apply P|exact P3]. }
      split.
      - apply Forall_forall. intros u Hu. rewrite Forall_forall in A1, B1. split; [apply A1; exact Hu|apply B1; exact Hu].
      - apply Forall_forall. intros p Hp. rewrite Forall_forall in A2, B2. split; [apply A2; exact Hp|].
        right. apply B2. exact Hp. }
    destruct (apply_threads_c Q O loop ws gr s1 HI1 HC1 HW) as (gr' & D1 & D2 & D3 & D4).
    set (s' := fold_left (apply_thread K O loop 0) ws s1) in *.
    exists gr'. split; [exact D1|]. destruct D2 as [C1 C0 C2 C3]. constructor; auto.
    intros p Hp Hpe. destruct (C2 p Hp Hpe) as [[Hset|(c & Hc & Ev & Hs)]|H]; [| |right; exact H]; left.
    - intros n HM. eapply reached_ext; [exact D3|]. apply Hset. exact HM.
    - intros n HM. subst p.
      assert (Hc' : In c (concat (o_sched O loop centers))).
      { eapply Permutation_in; [symmetry; apply HO|exact Hc]. }
      apply in_concat in Hc'. destruct Hc' as (cs & Hcs & Hcc).
      destruct (mapM_in _ _ _ cs Ews Hcs) as (w & Ew & Hw).
      destruct (thread_work_c (fun c => In c centers) (st_g s) (ci_g _ _ HC) cs w) as (_ & _ & B3); [|exact Ew|].
      { rewrite Forall_forall in HFc. eapply Forall_impl; [|apply HFc; exact Hcs].
        intros c' (P & P2 & P3). split; [exact P2|]. split; [apply P|exact P3]. }
      destruct (B3 c n Hcc Hs HM) as [Hg|(u & Hu & Et)].
      + eapply reached_ext; [exact D3|]. destruct (isS_dec ssn n) as [HS|HS]; [left; exact HS|right].
        intros Hn. apply Hg. apply (inv_unreached _ _ _ _ _ _ _ _ HI n HS Hn).
      + rewrite <- Et. apply (D4 w u Hw Hu).
  Qed.

  (** No route of the model leads from a start to [e]. *)
  Definition no_route : Prop := forall s c l, ~ route K nc size M ssn e s c e l.

  Lemma settled_no_route par :
    (forall p, reached par p -> p <> e -> settled par p) -> ~ reached par e -> no_route.
  Proof.
    intros HS HN s c l (HI & Hh & Hl & HL).
    assert (H : forall l a, reached par a -> a <> e -> linked Mv (a :: l) -> last (a :: l) s <> e).
    { clear l Hh Hl HL. intros l. induction l as [|b l IH]; intros a Ha Hae HL.
      - exact Hae.
      - destruct HL as [HM HL]. assert (Hb : reached par b) by (apply (HS a Ha Hae b HM)).
        destruct (vec_dec b e) as [->|Nb]; [contradiction|].
        change (last (a :: b :: l) s) with (last (b :: l) s). apply IH; assumption. }
    destruct l as [|a l]; [discriminate|]. injection Hh as ->.
    assert (Hs : reached par s) by (left; exists c; exact HI).
    destruct (vec_dec s e) as [->|Ns]; [contradiction|]. exact (H l s Hs Ns HL Hl).
  Qed.

  Lemma main_loop_complete O ntask cl : fair_sched O -> (1 <= ntask)%nat -> (forall n, o_abort O n = false) ->
    forall fuel loop gr s s' ab, Inv gr s -> CInv (settled (st_parents s)) s ->
    main_loop K nc size M fuel O loop ntask 0 cl ssn e s = LFail ab s' -> no_route.
  Proof.
    intros HO Hnt Hab. induction fuel as [|fuel IH]; intros loop gr s s' ab HI HC; simpl; [discriminate|].
    destruct (fetch K O loop cl ntask e [] (st_open s)) as [[fnd centers] open'] eqn:Ef.
    apply fetch_spec in Ef. destruct Ef as (taken & -> & Hf & Hte). simpl in *.
    destruct fnd as [v|]; [discriminate|]. rewrite Hab. destruct Hf as [P Hn].
    destruct taken as [|c0 taken].
    - intros _. destruct Hn as [Hn| ->]; [simpl in Hn; lia|]. simpl in P.
      apply Permutation_sym, Permutation_nil in P.
      apply (settled_no_route (st_parents s)).
      + intros p Hp Hpe. destruct (ci_live _ _ HC p Hp Hpe) as [H|(en & H & _)]; [exact H|].
        rewrite P in H. destruct H.
      + intros Hr. destruct (ci_goal _ _ HC Hr) as (en & H & _). rewrite P in H. destruct H.
    - set (s1 := mkState (st_g s) (st_parents s) open' (st_better s)).
      assert (Hsub : forall en, In en open' -> In en (st_open s)).
      { intros en Hen. eapply Permutation_in; [symmetry; exact P|]. apply in_or_app. right. exact Hen. }
      assert (HI1 : Inv gr s1) by (destruct HI as [A B C D E]; constructor; auto).
      assert (HC1 : CInv (fun p => settled (st_parents s1) p \/
        exists c, In c (c0 :: taken) /\ en_v c = p /\ fltb K (st_g s1 p) (en_raw c) = false) s1).
      { destruct HC as [C1 C0 C2 C3]. constructor; unfold s1; cbn [st_open st_g st_parents]; auto.
        - intros p Hp Hpe. destruct (C2 p Hp Hpe) as [H|(en & E1 & E2 & E3)]; [left; left; exact H|].
          apply (Permutation_in _ P) in E1. apply in_app_or in E1. destruct E1 as [E1|E1].
          + left. right. exists en. auto.
          + right. exists en. auto.
        - intros Hr. destruct (C3 Hr) as (en & E1 & E2).
          apply (Permutation_in _ P) in E1. apply in_app_or in E1. destruct E1 as [E1|E1]; [|eauto].
          rewrite Forall_forall in Hte. destruct (Hte en E1). contradiction. }
      destruct (round_c O loop (c0 :: taken) gr s1 HO HI1 HC1) as (s2 & Er & gr' & HI' & HC').
      { apply Forall_forall. intros c Hc.
        assert (Hin : In c (st_open s)).
        { eapply Permutation_in; [symmetry; exact P|]. apply in_or_app. left. exact Hc. }
        split; [apply (inv_open _ _ _ _ _ _ _ _ HI); exact Hin|apply (ci_fin _ _ HC); exact Hin]. }
      rewrite Er. apply (IH (S loop) gr' s2 s' ab HI' HC').
  Qed.
End Complete.

Lemma canon_unique nc size v a b : length v = length size ->
  Forall (fun s => 0 < s <= 2 ^ 30) size ->
  canon unsigned_range nc v size a -> canon unsigned_range nc v size b -> a = b.
Proof.
  intros Lv Hsz HA HB.
  assert (HP : forall i r, (nc <= i)%nat -> nth_error size i = Some r -> 0 < r).
  { intros i r _ Hn. apply (Forall_nth _ _ _ _ Hsz) in Hn. lia. }
  apply cycleUnsigned_iff in HA, HB; auto. congruence.
Qed.

Lemma search_not_aborted {F} (K : cost_ops F) nc size M fuel O ntask limit cl sts en rb ok ab path :
  (forall n, o_abort O n = false) ->
  search K nc size M fuel O ntask limit cl sts en rb = SDone ok ab path -> ab = false.
Proof.
  intros Hab E. unfold search in E. destruct sts as [|st0 sts]; [injection E as _ <- _; reflexivity|].
  destruct (cycleUnsigned nc en size) as [e|]; [|discriminate].
  destruct (init_starts K nc size M (st0 :: sts) en e [] (fun _ => fmax K) [] None []) as [[[[[ssn g] open] better]|]|];
    [|injection E as _ <- _; reflexivity|discriminate].
  assert (G : forall fuel loop s b s', main_loop K nc size M fuel O loop ntask limit cl ssn e s = LFail b s' -> b = false).
  { clear -Hab. induction fuel as [|fuel IH]; intros loop s b s' E; [discriminate|]. simpl in E.
    destruct (fetch K O loop cl ntask e [] (st_open s)) as [[[v|] centers] open']; [discriminate|].
    rewrite Hab in E. destruct centers; [injection E as <- _; reflexivity|].
    destruct (round K nc size M O loop limit ssn e _ _); [|discriminate]. eapply IH; eauto. }
  destruct (main_loop K nc size M fuel O 0 ntask limit cl ssn e (mkState g [] open better)) eqn:Em; try discriminate.
  - destruct (findPath ssn e0 (st_parents s)) as [[? ?]|]; [|discriminate]. injection E as _ <- _. reflexivity.
  - apply G in Em. subst. destruct rb.
    + destruct (findPath ssn (st_better s) (st_parents s)) as [[? ?]|]; [|discriminate]. injection E as _ <- _. reflexivity.
    + injection E as _ <- _. reflexivity.
Qed.

Lemma wrapped_unique {F} nc size (sts : list (vec * F)) :
  (forall i r, (nc <= i)%nat -> nth_error size i = Some r -> 0 < r) ->
  Forall (fun s => length (fst s) = length size) sts ->
  forall ss1 ss2, wrapped_starts nc size sts ss1 -> wrapped_starts nc size sts ss2 -> ss1 = ss2.
Proof.
  intros HP. induction sts as [|a sts IH]; intros HT ss1 ss2 H1 H2.
  - inversion H1; inversion H2; reflexivity.
  - inversion H1 as [|? b ? t1 [A1 A2] A3]; subst. inversion H2 as [|? b' ? t2 [B1 B2] B3]; subst.
    inversion HT as [|? ? Lv HT']; subst.
    apply cycleUnsigned_iff in A1, B1; auto. rewrite A1 in B1. injection B1 as B1.
    f_equal; [destruct b, b'; simpl in *; congruence|]. apply IH; auto.
Qed.

Lemma search_complete_small {F} (K : cost_ops F) (L : cost_laws K) nc size M sts en (small : F -> Prop)
    fuel O ntask cl rb ok ab path :
  (forall a, small a -> fltb K a (fmax K) = true) -> small (fzero K) ->
  (forall ss e a p q, wrapped_starts nc size sts ss -> canon unsigned_range nc en size e ->
     small a -> valid size p -> move K nc size M ss e p q -> small (fadd K a (m_cost M p q ss e))) ->
  well_typed nc size M sts en -> fair_sched O -> (1 <= ntask)%nat -> (forall n, o_abort O n = false) ->
  Forall (fun s => fleb K (fzero K) (snd s) = true /\ small (snd s)) sts ->
  Forall (fun s => fst s <> en) sts ->
  search K nc size M fuel O ntask 0 cl sts en rb = SDone ok ab path -> ok = false ->
  forall ss e, wrapped_starts nc size sts ss -> canon unsigned_range nc en size e ->
    forall s c l, ~ route K nc size M ss e s c e l.
Proof.
  intros SL SZ SM (Hnc & Hsz & Len & HT & Hmod) HO Hnt Hab H0 Hne E Hok. unfold search in E.
  assert (HP : forall i r, (nc <= i)%nat -> nth_error size i = Some r -> 0 < r).
  { intros i r _ Hn. apply (Forall_nth _ _ _ _ Hsz) in Hn. lia. }
  destruct sts as [|st0 sts'].
  { intros ss e HW _ s c l (HI & _). inversion HW; subst. destruct HI. }
  set (sts := st0 :: sts') in *.
  destruct (cycleUnsigned nc en size) as [e|] eqn:Ee; [|discriminate].
  destruct (init_starts K nc size M sts en e [] (fun _ => fmax K) [] None []) as [[[[[ssn g] open] better]|]|] eqn:Ei;
    [| |discriminate].
  2:{ exfalso. clear E. revert Ei. generalize (@nil (vec * F)) (fun _ : vec => fmax K) (@nil (@entry F)) (@None F) (@nil Z).
      clear -Hne. induction sts as [|[v c] sts IH]; intros a b c0 d f; simpl; [discriminate|].
      inversion Hne as [|? ? H1 H2]; subst. simpl in H1.
      destruct (vec_dec v en); [contradiction|].
      destruct (cycleUnsigned nc v size); [|discriminate]. simpl. destruct (in_map size a0); [|discriminate]. simpl.
      destruct (ftrunc K (m_costEstim M a0 e)); [|discriminate]. simpl. apply IH. exact H2. }
  destruct (init_starts_spec K nc size M en e sts [] _ [] None [] ssn g open better Hnc Hsz HT Ei)
    as (ss & E1 & E2 & E3 & E4 & E5 & E6 & E7 & E8 & E9 & E10 & E11). simpl in E1. subst ssn.
  intros ss' e' HW HE. pose proof (fun a p q => SM ss' e' a p q HW HE) as SM'.
  apply cycleUnsigned_iff in HE; [|exact Len|exact HP].
  rewrite Ee in HE. injection HE as <-.
  assert (ss' = ss) as ->.
  { eapply wrapped_unique; eauto. }
  assert (Hcost : forall s c, In (s, c) ss -> fleb K (fzero K) c = true /\ small c).
  { apply (wrapped_costs nc size sts ss (fun c => fleb K (fzero K) c = true /\ small c) E2 H0). }
  assert (HI : Inv K nc size M ss e (fun _ => fzero K) (mkState g [] open better)).
  { apply init_inv; auto.
    - intros s c H. apply (Hcost s c H).
    - intros en0 Hen. destruct (E5 en0 Hen) as [[]|H]. exact H.
    - destruct E6 as [H|[_ [H|H]]]; [exact H|discriminate|congruence]. }
  assert (HC : CInv K ss e small (settled K nc size M ss e []) (mkState g [] open better)).
  { constructor; cbn [st_open st_parents].
    - intros en0 Hen. destruct (E5 en0 Hen) as [[]|(c & ce & A1 & A2 & _)]. rewrite A2. apply (Hcost _ _ A1).
    - intros p. cbn [st_g]. destruct (in_dec vec_dec p (map fst ss)) as [Hp|Hp].
      + destruct (E11 p Hp) as (en0 & A1 & A2 & A3). rewrite <- A3. apply (max_not_lt K L small SL).
        destruct (E5 en0 A1) as [[]|(c & ce & B1 & B2 & _)]. rewrite B2. apply (Hcost _ _ B1).
      + rewrite (E4 p Hp). apply (lw_lt_irrefl _ L).
    - intros p [[c Hp]|Hp] Hpe; [|destruct (Hp eq_refl)]. right.
      destruct (E11 p) as (en0 & A1 & A2 & A3); [apply List.in_map_iff; exists (p, c); auto|].
      exists en0. split; [exact A1|]. split; [exact A2|]. cbn [st_g]. rewrite A3. apply (lw_lt_irrefl _ L).
    - intros [[c Hp]|Hp]; [|destruct (Hp eq_refl)].
      destruct (E11 e) as (en0 & A1 & A2 & A3); [apply List.in_map_iff; exists (e, c); auto|]. eauto. }
  destruct (main_loop K nc size M fuel O 0 ntask 0 cl ss e (mkState g [] open better)) as [e' s'|ab' s'| |] eqn:Em;
    [|exact (main_loop_complete K L nc size M ss e Hnc Hsz Hmod small SL SZ SM' O ntask cl HO Hnt Hab fuel 0 _ _ _ _ HI HC Em)|discriminate|discriminate].
  exfalso.
  pose proof (main_loop_inv K L nc size M ss e Hnc Hsz Hmod O ntask 0 cl HO fuel 0 _ _ HI) as HM.
  rewrite Em in HM. destruct HM as (gr' & c & HI' & Ev & (HL & _ & _) & Hd).
  assert (Hr : reached ss (st_parents s') e').
  { rewrite <- Ev. destruct HL as [?|[? _]]; [left|right]; assumption. }
  destruct (findPath_good K nc size M L ss e gr' s' e' HI' Hr) as (l & Ef & Hg & Hl).
  rewrite Ef in E. injection E as <- <- <-. discriminate.
Qed.

(** In exact arithmetic all finite costs are small. *)
Lemma search_complete {F} (K : cost_ops F) (L : cost_laws K) (X : exact_laws K) nc size M sts en
    fuel O ntask cl rb ok ab path :
  well_typed nc size M sts en -> fair_sched O -> (1 <= ntask)%nat -> (forall n, o_abort O n = false) ->
  Forall (fun s => fleb K (fzero K) (snd s) = true /\ finite K (snd s)) sts ->
  Forall (fun s => fst s <> en) sts ->
  search K nc size M fuel O ntask 0 cl sts en rb = SDone ok ab path -> ok = false ->
  forall ss e, wrapped_starts nc size sts ss -> canon unsigned_range nc en size e ->
    forall s c l, ~ route K nc size M ss e s c e l.
Proof.
  apply (search_complete_small K L nc size M sts en (finite K)); [auto|apply (ex_zero_fin _ X)|].
  intros ss e a p q _ _ Ha _ HM. apply (ex_add_fin _ X); [exact Ha|]. destruct HM as (_ & _ & _ & _ & HE).
  apply (ex_eqb_max _ X); [exact HE|]. apply (ex_antisym _ X). apply (ex_le_max _ X).
Qed.
